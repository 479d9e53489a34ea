(** Blocking send() of StreamSource and AxiStreamSource with any number of concurrent callers. *)
From Coq Require Import ZArith List Bool.
From Verif Require Import Py M_stream M_axisframe M_axis.
Import ListNotations.
Open Scope Z_scope.

(** stream.py 225-231, axis.py 447-456.  A source [b_s], its dequeue_event, and the calls of send(): those
    woken by the event that have not run yet, those waiting for it, and the items they put, in order.
    Simplified: the caller does not change an item while its call waits (AxiStreamSource copies the
    frame only then, axis.py 451). *)
Section Send.
Context {St P Op : Type} (full : St -> bool) (putop : P -> Op) (step : St -> Op -> St) (wakes : St -> Op -> bool).

Record bsnd := { b_s : St; b_ev : bool; b_run : list P; b_wait : list P; b_put : list P }.
Definition bsnd_init (s : St) : bsnd := {| b_s := s; b_ev := false; b_run := []; b_wait := []; b_put := [] |}.

(** a call of send(p), a woken call continues, anything else that happens to the source *)
Inductive bop := BCall (p : P) | BRun (i : nat) | BOp (o : Op).

(** while self.full(): self.dequeue_event.clear(); await self.dequeue_event.wait(); then the put.
    Event.clear() makes the wait block; calls woken before stay woken. *)
Definition b_try (x : bsnd) (p : P) (run : list P) : bsnd :=
  if full (b_s x) then {| b_s := b_s x; b_ev := false; b_run := run; b_wait := b_wait x ++ [p]; b_put := b_put x |}
  else {| b_s := step (b_s x) (putop p); b_ev := b_ev x; b_run := run; b_wait := b_wait x; b_put := b_put x ++ [p] |}.

Definition bstep (x : bsnd) (o : bop) : bsnd :=
  match o with
  | BCall p => b_try x p (b_run x)
  | BRun i => match nth_error (b_run x) i with
              | Some p => b_try x p (firstn i (b_run x) ++ skipn (S i) (b_run x))
              | None => x
              end
  | BOp o =>     (* dequeue_event.set() wakes all that wait *)
      if wakes (b_s x) o then {| b_s := step (b_s x) o; b_ev := true; b_run := b_run x ++ b_wait x; b_wait := []; b_put := b_put x |}
      else {| b_s := step (b_s x) o; b_ev := b_ev x; b_run := b_run x; b_wait := b_wait x; b_put := b_put x |}
  end.
End Send.
Arguments BCall {P Op} p. Arguments BRun {P Op} i. Arguments BOp {P Op} o.
Arguments bsnd St P : clear implicits. Arguments bop P Op : clear implicits.

(** dequeue_event.set(): stream.py 276, 148; axis.py 537, 362.  An edge that takes an item off the queue, and clear() *)
Definition src_wakes {A} (hr : bool) (s : src A) (o : sop A) : bool :=
  match o with SClear => true | SEdge r => (length (s_q (src_edge hr s r)) <? length (s_q s))%nat | _ => false end.
Definition asrc_wakes (c : scfg) (s : asrc) (o : aop) : bool :=
  match o with AClear => true | AEdge r => (length (a_q (asrc_edge c s r)) <? length (a_q s))%nat | _ => false end.

Definition ssend_step {A} (hr : bool) : bsnd (src A) A -> bop A (sop A) -> bsnd (src A) A :=
  bstep src_full SSend (src_step hr) (src_wakes hr).
Definition asend_step (c : scfg) : bsnd asrc tframe -> bop tframe aop -> bsnd asrc tframe :=
  bstep asrc_full (fun p : tframe => ASend (fst p) (snd p)) (asrc_step c) (asrc_wakes c).
