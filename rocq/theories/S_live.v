(** Specification vocabulary for completion under fair schedules. *)
From Coq Require Import ZArith List Bool.
From Verif Require Import Py M_axi M_axil M_liteeng M_axieng M_sys S_sys M_litesys S_litesys M_axisys M_literw.
Import ListNotations.

(** An infinite schedule in which every step of a task or a channel comes again and again (it does nothing when it is
    not possible): no task is starved, no channel is paused for ever.  No order and no delay is assumed. *)
Definition fair {O} (int : O -> Prop) (sched : nat -> O) : Prop := forall o, int o -> forall n, exists m, (n <= m)%nat /\ sched m = o.
(** its first N steps *)
Definition first_steps {O} (sched : nat -> O) (N : nat) : list O := map sched (seq 0 N).

(** the operations the user issued (awaited write()/read(), init_write()/init_read()) *)
Definition usubmitted {C S} (h : list (uop C S)) : list C := flat_map (fun o => match o with UIssue c | UInit c => [c] | _ => [] end) h.
Definition ysubmitted {C S} (h : list (yop C S)) : list C := flat_map (fun o => match o with YIssue c | YInit c => [c] | _ => [] end) h.
(** no further operation is issued *)
Definition uno_issue {C S} (o : uop C S) : Prop := match o with UIssue _ | UInit _ => False | _ => True end.
Definition yno_issue {C S} (o : yop C S) : Prop := match o with YIssue _ | YInit _ => False | _ => True end.

(** both halves of a master *)
Definition lx_wsubmitted {TW TR} (h : list (lxop TW TR)) : list (Z * lwcmd) := usubmitted (flat_map (fun o => match o with VW o => [o] | VR _ => [] end) h).
Definition lx_rsubmitted {TW TR} (h : list (lxop TW TR)) : list (Z * lrcmd) := usubmitted (flat_map (fun o => match o with VW _ => [] | VR o => [o] end) h).
Definition lx_no_issue {TW TR} (o : lxop TW TR) : Prop := match o with VW o => uno_issue o | VR o => uno_issue o end.
Definition a_wsubmitted {TW TR} (h : list (aop TW TR)) : list wop := ysubmitted (flat_map (fun o => match o with BW o => [o] | BR _ => [] end) h).
Definition a_rsubmitted {TW TR} (h : list (aop TW TR)) : list rop := ysubmitted (flat_map (fun o => match o with BW _ => [] | BR o => [o] end) h).
Definition a_no_issue {TW TR} (o : aop TW TR) : Prop := match o with BW o => yno_issue o | BR o => yno_issue o end.
