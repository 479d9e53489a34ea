(** Model of /repo/cocotbext/axi/buddy_allocator.py (lines 26-92). *)
From Coq Require Import ZArith List Bool.
From Verif Require Import Py.
Import ListNotations.
Open Scope Z_scope.

(** buddy_allocator.py 27-33: free_lists is indexed by bucket number (nat);
    allocations maps an address to its bucket. *)
Record buddy := Buddy {
  b_size : Z;
  b_min : Z;
  b_free : list (list Z);
  b_alloc : dict nat
}.

(** buddy_allocator.py 27-33 [__init__] *)
Definition b_init (size min_alloc : Z) : buddy :=
  Buddy size min_alloc (repeat [] (Z.to_nat (bit_length (size - 1))) ++ [[0]]) [].

(** free_lists[k], and in-place update of free_lists[k] *)
Definition fl_get (fl : list (list Z)) (k : nat) : list Z := nth k fl [].

Fixpoint fl_set (fl : list (list Z)) (k : nat) (l : list Z) : list (list Z) :=
  match fl, k with
  | [], _ => []
  | _ :: fl', O => l :: fl'
  | x :: fl', S k' => x :: fl_set fl' k' l
  end.

(** buddy_allocator.py 44-48: first bucket >= [bucket] with a non-empty list.
    [fuel] bounds the number of increments. *)
Fixpoint b_find (fuel : nat) (fl : list (list Z)) (bucket : nat) : option nat :=
  match fuel with
  | O => None
  | S fuel' =>
      if Nat.ltb bucket (length fl) then
        match fl_get fl bucket with
        | [] => b_find fuel' fl (S bucket)
        | _ :: _ => Some bucket
        end
      else None
  end.

(** buddy_allocator.py 50-55: [while bucket > orig_bucket], [n] = bucket - orig_bucket.
    pop(0) of an empty list would be an IndexError. *)
Fixpoint b_split (n : nat) (fl : list (list Z)) (bucket : nat) : list (list Z) * res nat :=
  match n with
  | O => (fl, Ok bucket)
  | S n' =>
      match fl_get fl bucket with
      | [] => (fl, Err IndexError)
      | block :: rest =>
          let fl := fl_set fl bucket rest in
          let bucket := pred bucket in
          let fl := fl_set fl bucket
                      (fl_get fl bucket ++ [block] ++ [block + 2 ^ Z.of_nat bucket]) in
          b_split n' fl bucket
      end
  end.

(** buddy_allocator.py 35-65 [alloc] *)
Definition b_alloc_op (b : buddy) (size : Z) : buddy * res Z :=
  if (size <? 1) || (b_size b <? size) then (b, Err ValueError)
  else
    let size := Z.max size (b_min b) in
    let orig := Z.to_nat (bit_length (size - 1)) in
    match b_find (S (length (b_free b))) (b_free b) orig with
    | None => (b, Err Plain)
    | Some bucket =>
        let '(fl, r) := b_split (bucket - orig) (b_free b) bucket in
        match r with
        | Err e => (Buddy (b_size b) (b_min b) fl (b_alloc b), Err e)
        | Ok bucket =>
            match fl_get fl bucket with
            | block :: rest =>
                (Buddy (b_size b) (b_min b) (fl_set fl bucket rest)
                       (dset (b_alloc b) block bucket), Ok block)
            | [] => (Buddy (b_size b) (b_min b) fl (b_alloc b), Err Plain)
            end
        end
    end.

(** list.remove(x): first occurrence *)
Fixpoint remove_first (x : Z) (l : list Z) : list Z :=
  match l with
  | [] => []
  | y :: l' => if y =? x then l' else y :: remove_first x l'
  end.

(** buddy_allocator.py 75-79: the buddy of [addr] in [bucket] *)
Definition buddy_of (bucket : nat) (addr : Z) : Z :=
  let size := 2 ^ Z.of_nat bucket in
  if (addr / size) mod 2 =? 0 then addr + size else addr - size.

(** buddy_allocator.py 73-92: merge loop of [free]; [fuel] bounds the iterations. *)
Fixpoint b_merge (fuel : nat) (fl : list (list Z)) (addr : Z) (bucket : nat)
  : list (list Z) * res unit :=
  if Nat.ltb bucket (length fl) then
    match fuel with
    | O => (fl, Err OutOfFuel)
    | S fuel' =>
        let bud := buddy_of bucket addr in
        if existsb (Z.eqb bud) (fl_get fl bucket) then
          b_merge fuel' (fl_set fl bucket (remove_first bud (fl_get fl bucket)))
                  (Z.min addr bud) (S bucket)
        else (fl_set fl bucket (fl_get fl bucket ++ [addr]), Ok tt)
    end
  else (fl, Err Plain).

(** buddy_allocator.py 67-92 [free] *)
Definition b_free_op (b : buddy) (addr : Z) : buddy * res unit :=
  match dget (b_alloc b) addr with
  | None => (b, Err ValueError)
  | Some bucket =>
      let allocs := ddel (b_alloc b) addr in
      let '(fl, r) := b_merge (S (length (b_free b))) (b_free b) addr bucket in
      (Buddy (b_size b) (b_min b) fl allocs, r)
  end.

(** histories of calls *)
Inductive b_op := BAlloc (n : Z) | BFree (a : Z).
Inductive b_out := BAddr (a : Z) | BDone | BErr (e : exc).

(** dispatch *)
Definition b_step (b : buddy) (o : b_op) : buddy * b_out :=
  match o with
  | BAlloc n => let '(b', r) := b_alloc_op b n in
                (b', match r with Ok a => BAddr a | Err e => BErr e end)
  | BFree a => let '(b', r) := b_free_op b a in
               (b', match r with Ok _ => BDone | Err e => BErr e end)
  end.

Fixpoint b_run (b : buddy) (ops : list b_op) : buddy * list b_out :=
  match ops with
  | [] => (b, [])
  | o :: ops' =>
      let '(b1, r) := b_step b o in
      let '(b2, rs) := b_run b1 ops' in (b2, r :: rs)
  end.
