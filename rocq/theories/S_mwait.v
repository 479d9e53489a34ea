(** Specification vocabulary for wait() of the masters. *)
From Coq Require Import ZArith List Bool Permutation.
From Verif Require Import Py M_mwait.
Import ListNotations.
Open Scope Z_scope.

Section Spec.
Context {O : Type}.
Implicit Type h : list (mwop O).
(** the calls of wait methods made in a history; what else was done *)
Fixpoint wait_calls h : list (Z * wkind) :=
  match h with [] => [] | XCall t k :: h' => (t, k) :: wait_calls h' | _ :: h' => wait_calls h' end.
Fixpoint other_ops h : list O :=
  match h with [] => [] | XOp o :: h' => o :: other_ops h' | _ :: h' => other_ops h' end.
End Spec.
Fixpoint lefts {A B} (l : list (A + B)) : list A :=
  match l with [] => [] | inl a :: l' => a :: lefts l' | inr _ :: l' => lefts l' end.
Fixpoint rights {A B} (l : list (A + B)) : list B :=
  match l with [] => [] | inr b :: l' => b :: rights l' | inl _ :: l' => rights l' end.

(** a method returns when these halves of the master have nothing to do *)
Definition waits_w (k : wkind) : bool := match k with KR => false | _ => true end.
Definition waits_r (k : wkind) : bool := match k with KW => false | _ => true end.
(** [W]: the write half is at rest, [R]: the read half is at rest *)
Definition at_rest (k : wkind) (W R : Prop) : Prop := (waits_w k = true -> W) /\ (waits_r k = true -> R).

(** What the user gets from the wait methods in a state [x] in which the calls [called] were made and the calls [returned] have
    returned.  [stepx]: what happens next. *)
Definition wait_ok {S O} (stepx : mwst S -> mwop O -> mwst S * list (Z * wkind)) (W R : Prop)
  (called returned : list (Z * wkind)) (x : mwst S) : Prop :=
  let who (w : wcall) := (wc_id w, wc_kind w) in
  (* no call is lost, none returns twice *)
  Permutation called (returned ++ map who (mw_calls x)) /\
  (* a call returns only at a moment at which what it waits for is at rest *)
  (forall o t k, In (t, k) (snd (stepx x o)) -> at_rest k W R) /\
  (* if it is at rest already, the call returns without waiting *)
  (forall t k, at_rest k W R -> stepx x (XCall t k) = (x, [(t, k)])) /\
  (* a pending call whose condition holds has been woken and returns as soon as it runs *)
  (forall n w, nth_error (mw_calls x) n = Some w -> at_rest (wc_kind w) W R ->
     wc_run w = true /\
     stepx x (XRun n) = ({| mw_s := mw_s x; mw_calls := firstn n (mw_calls x) ++ skipn (Datatypes.S n) (mw_calls x) |}, [who w])) /\
  (* a pending call whose condition does not hold sleeps after its next turn: no busy loop *)
  (forall n w, nth_error (mw_calls x) n = Some w -> ~ at_rest (wc_kind w) W R ->
     stepx x (XRun n) = (x, []) \/
     exists w', stepx x (XRun n) =
       ({| mw_s := mw_s x; mw_calls := firstn n (mw_calls x) ++ skipn (Datatypes.S n) (mw_calls x) ++ [w'] |}, []) /\
       who w' = who w /\ wc_run w' = false).
