(** Terms in which blocking sends are specified. *)
From Coq Require Import ZArith List Bool.
From Verif Require Import Py M_send.
Import ListNotations.

Section S.
Context {St P Op : Type} (full : St -> bool) (putop : P -> Op) (step : St -> Op -> St) (wakes : St -> Op -> bool).
Notation bstep := (bstep full putop step wakes).
Notation bsnd := (bsnd St P).
Notation bop := (bop P Op).

(** the operations of the source that a run amounts to *)
Definition b_emit (x : bsnd) (o : bop) : list Op :=
  match o with
  | BCall p => if full (b_s x) then [] else [putop p]
  | BRun i => match nth_error (b_run x) i with Some p => if full (b_s x) then [] else [putop p] | None => [] end
  | BOp o => [o]
  end.
Fixpoint b_emits (x : bsnd) (l : list bop) : list Op :=
  match l with [] => [] | o :: l' => b_emit x o ++ b_emits (bstep x o) l' end.
(** the items of the calls made *)
Definition calls (l : list bop) : list P := flat_map (fun o => match o with BCall p => [p] | _ => [] end) l.


(** the state after [n] steps of an infinite schedule *)
Definition bat (sched : nat -> bop) (x0 : bsnd) (n : nat) : bsnd := fold_left bstep (map sched (seq 0 n)) x0.
(** no further calls; clock edges only, again and again one of the kind [go]; every woken call runs again and again *)
Definition bfair (calm go : Op -> Prop) (sched : nat -> bop) : Prop :=
  (forall n, match sched n with BCall _ => False | BRun _ => True | BOp o => calm o end) /\
  (forall n, exists m, (n <= m)%nat /\ exists o, sched m = BOp o /\ go o) /\
  (forall n i, exists m, (n <= m)%nat /\ sched m = BRun i).
End S.
