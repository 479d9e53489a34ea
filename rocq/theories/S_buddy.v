(** Specification vocabulary for the buddy allocator: what a client can tell from the calls
    it made and the answers it got. *)
From Coq Require Import ZArith List Bool.
From Verif Require Import Py M_buddy.
Import ListNotations.
Open Scope Z_scope.

(** size of the block a request is rounded up to: least power of two >= max n min_alloc *)
Definition block_size (min_alloc n : Z) : Z := 2 ^ Z.log2_up (Z.max n min_alloc).

(** range managed by an allocator of capacity [size]: the least power of two >= size *)
Definition managed (size : Z) : Z := 2 ^ Z.log2_up size.

(** allocations live after a history, as (address, block size) *)
Definition live_step (min_alloc : Z) (live : list (Z * Z)) (o : b_op) (r : b_out) : list (Z * Z) :=
  match o, r with
  | BAlloc n, BAddr a => live ++ [(a, block_size min_alloc n)]
  | BFree a, BDone => filter (fun p => negb (fst p =? a)) live
  | _, _ => live
  end.

Fixpoint live_after (min_alloc : Z) (live : list (Z * Z)) (ops : list b_op) (rs : list b_out)
  : list (Z * Z) :=
  match ops, rs with
  | o :: ops', r :: rs' => live_after min_alloc (live_step min_alloc live o r) ops' rs'
  | _, _ => live
  end.

Definition disjoint (a n b m : Z) : Prop := a + n <= b \/ b + m <= a.

(** a state and live set reached by some history from a fresh allocator *)
Definition b_reach (size min_alloc : Z) (b : buddy) (live : list (Z * Z)) : Prop :=
  exists ops, b = fst (b_run (b_init size min_alloc) ops) /\
              live = live_after min_alloc [] ops (snd (b_run (b_init size min_alloc) ops)).
