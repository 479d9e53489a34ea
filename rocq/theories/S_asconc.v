(** Specification vocabulary for concurrent accesses of address spaces (C82). *)
From Coq Require Import ZArith List Bool.
From Verif Require Import Py M_memory M_aspace S_aspace M_asconc.
Import ListNotations.
Open Scope Z_scope.

Definition event : Type := nat * acc * res (list Z).   (* call, access, answer *)
Definition ev_call (e : event) : nat := fst (fst e).
Definition ev_acc (e : event) : acc := snd (fst e).
Definition ev_ans (e : event) : res (list Z) := snd e.

Definition calls (hist : list cop) : list ccall := flat_map (fun o => match o with CCall c => [c] | CRun _ => [] end) hist.
(** the accesses of one call *)
Definition mine (t : nat) (log : list event) : list event := filter (fun e => Nat.eqb (ev_call e) t) log.

(** the bytes an access is about, and the bytes it stores *)
Definition zlocs (l : nat) (x n : Z) : list (nat * Z) := map (fun y => (l, y)) (zrange x (x + n)).
Definition acc_locs (c : acc) : list (nat * Z) := match c with RdA l x n => zlocs l x n | WrA l x d => zlocs l x (zlen (pd_list d)) end.
Definition acc_data (c : acc) : list Z := match c with RdA _ _ _ => [] | WrA _ _ d => pd_list d end.
Definition is_rd (c : acc) : Prop := match c with RdA _ _ _ => True | WrA _ _ _ => False end.
Definition is_wr (c : acc) : Prop := match c with RdA _ _ _ => False | WrA _ _ _ => True end.
Definition locs_of (log : list event) : list (nat * Z) := flat_map (fun e => acc_locs (ev_acc e)) log.
Definition data_of (log : list event) : list Z := flat_map (fun e => acc_data (ev_acc e)) log.

(** the first m addresses from a on of object i, in order *)
Definition decoded (h : heap) (i : nat) (a m : Z) (ls : list (nat * Z)) : Prop :=
  zlen ls = m /\ forall j, 0 <= j < m -> exists d, decodes h d i (a + j) (fst (znth (O, 0) ls j)) (snd (znth (O, 0) ls j)).

(** the accesses one after the other *)
Fixpoint seqrun (h : heap) (cs : list acc) : heap * list (res (list Z)) :=
  match cs with
  | [] => (h, [])
  | c :: cs' => let '(h1, r) := exec h c in let '(h2, rs) := seqrun h1 cs' in (h2, r :: rs)
  end.

(** the access stores something at byte x of l *)
Definition writes_to (e : event) (l : nat) (x : Z) : Prop := is_wr (ev_acc e) /\ In (l, x) (acc_locs (ev_acc e)).
(** all write calls are made with bytes *)
Definition byte_calls (cs : list ccall) : Prop := forall i a d, In (WCall i a d) cs -> are_bytes (pd_list d).
