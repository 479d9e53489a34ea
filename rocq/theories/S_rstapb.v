(** Specification vocabulary for APB with a common reset. *)
From Coq Require Import ZArith List Bool.
From Verif Require Import Py S_flat M_axi S_axi M_axil M_apb S_apb M_rstapb.
Import ListNotations.
Open Scope Z_scope.

Definition yop_ok (o : yop) : Prop := match o with YOp o => kop_ok o | YReset _ => True end.
(** reset is not asserted (it may be released) *)
Definition no_assert (o : yop) : Prop := match o with YReset true => False | _ => True end.
(** the calls in a history *)
Definition y_issued (h : list yop) : list acmd := flat_map (fun o => match o with YOp (KM (BIssue c)) => [c] | _ => [] end) h.
Definition y_no_init (o : yop) : Prop := match o with YOp (KM (BInit _)) => False | _ => True end.

(** the state right after reset was asserted, or the initial one, after the history h *)
Definition fresh {T} tw tr L ep (t : T) (h : list yop) : Prop :=
  h = [] \/ exists h', h = h' ++ [YReset true] /\ snd (fst (y_run tw tr L ep (y_init t) h')) = false.
(** the last of the first n operations *)
Definition last_of (n : nat) (ops : list aop) : list aop := firstn 1 (skipn (n - 1) (firstn n ops)).
(** a memory after the first m bytes of the operation *)
Definition mem_part (phi : Z -> Z) (f : flat) (c : acmd) (m : nat) : flat :=
  match c with ACW w => put phi f (addressed (lc_addr w) (firstn m (lc_data w))) | ACR _ => f end.
