(** Specification vocabulary for shared memory objects (C83): a memory object is an array of bytes of a fixed length. *)
From Coq Require Import ZArith List Bool.
From Verif Require Import Py S_flat M_sparse M_memory P_memory M_aspace M_memview.
Import ListNotations.
Open Scope Z_scope.

Definition mbyte (m : mobj) : flat := fun x => match m with MMap l | BArr l => znth 0 l x | MSparse s => peek s x end.

(** the byte an operation that was carried out stores at byte [x] of memory [i] *)
Definition within (a : Z) (d : list Z) (x : Z) : option Z := if (a <=? x) && (x <? a + zlen d) then Some (znth 0 d (x - a)) else None.
Definition store_of (vs : list view) (o : gop) (i : nat) (x : Z) : option Z :=
  match o with
  | GWrite k a d => match nth_error vs k with Some v => if Nat.eqb (v_mem v) i then within a (pd_list d) x else None | None => None end
  | GRamWrite k a d => match nth_error vs k with Some v => if Nat.eqb (v_mem v) i then within (a mod v_size v) (pd_list d) x else None | None => None end
  | GSet i' y b => if Nat.eqb i' i && (y =? x) then Some b else None
  | GSetS i' a _ d => if Nat.eqb i' i then within a (pd_list d) x else None
  | _ => None
  end.
(** the last byte stored there in a history with its results *)
Fixpoint last_store (vs : list view) (h : list (gop * gout)) (i : nat) (x : Z) : option Z :=
  match h with
  | [] => None
  | (o, r) :: h' =>
      match last_store vs h' i x with
      | Some b => Some b
      | None => match r with GE _ => None | _ => store_of vs o i x end
      end
  end.

(** accesses to a memory as long as it is: regions not larger than their memory; writes of memories and slices inside the memory, of bytes *)
Definition tame (st : gst) (o : gop) : Prop :=
  match o with
  | GWrite k a d => are_bytes (pd_list d) /\ forall v m, g_at st k = Some (v, m) ->
      match v_kind v with VMemory => 0 <= a < mlen m /\ a + zlen (pd_list d) <= mlen m | _ => v_size v <= mlen m end
  | GRamWrite k a d => are_bytes (pd_list d) /\ forall v m, g_at st k = Some (v, m) ->
      match v_kind v with VMemory => 0 < v_size v <= mlen m /\ a mod v_size v + zlen (pd_list d) <= mlen m | _ => v_size v <= mlen m end
  | GSet i y b => 0 <= y
  | GSetS i a b d => are_bytes (pd_list d) /\ forall m, nth_error (g_mems st) i = Some m -> 0 <= a <= b /\ b <= mlen m /\ zlen (pd_list d) = b - a
  | _ => True
  end.
Fixpoint tame_run (st : gst) (ops : list gop) : Prop :=
  match ops with [] => True | o :: ops' => tame st o /\ tame_run (fst (g_step st o)) ops' end.
