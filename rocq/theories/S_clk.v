(** Specification vocabulary for the clocked systems (M_clk.v). *)
From Coq Require Import ZArith List Bool.
From Verif Require Import Py M_stream M_cchan M_axi S_axi M_axil M_liteeng M_axieng M_sys S_sys M_litesys S_litesys M_axisys S_axisys M_literw S_literw S_live M_clk.
Import ListNotations.
Open Scope Z_scope.

(** the steps of user and tasks in a clocked history *)
Definition tasks {C S} (h : list (hop C S)) : list (yop C S) := flat_map (fun o => match o with HT o => [o] | HC _ _ => [] end) h.
Definition utasks {C S} (h : list (huop C S)) : list (uop C S) := flat_map (fun o => match o with HUT o => [o] | HUC _ _ => [] end) h.
Definition ztasks {TW TR} (h : list (haop TW TR)) : list (aop TW TR) :=
  flat_map (fun o => match o with KW (HT o) => [BW o] | KR (HT o) => [BR o] | _ => [] end) h.
Definition vtasks {TW TR} (h : list (hlxop TW TR)) : list (lxop TW TR) :=
  flat_map (fun o => match o with QW (HUT o) => [VW o] | QR (HUT o) => [VR o] | _ => [] end) h.

(** neither end of a channel is paused *)
Definition calm {A} (c : cchan A) : Prop := s_pause (cc_src c) = false /\ k_pause (cc_snk c) = false.
(** steps of the master's and the slave's tasks and of the tasks init_write()/init_read() start *)
Definition ytask {C S} (o : yop C S) : Prop :=
  match o with YIssue _ | YInit _ | YPoke _ | YLoad _ | YXfer _ | YLoadB | YXferB => False | _ => True end.
Definition utask {C S} (o : uop C S) : Prop :=
  match o with UIssue _ | UInit _ | UPoke _ | ULoad _ | UXfer _ | ULoadB | UXferB => False | _ => True end.

(** A fair clocked schedule.  Every step of a task comes again and again (it does nothing when it is not possible); and on every
    channel, again and again, there are three clock edges such that neither the channel's source nor its sink is paused from the
    first to the last.  Nothing is assumed about the order and the number of steps between the edges, nor about the
    pauses at other times, nor that the channels see their edges at the same time. *)
Definition edges_again {O} (edge : O) (sched : nat -> O) (clear : nat -> Prop) : Prop :=
  forall n, exists m1 m2 m3, (n <= m1 < m2 /\ m2 < m3)%nat /\ sched m1 = edge /\ sched m2 = edge /\ sched m3 = edge /\
    forall t, (m1 <= t <= m3)%nat -> clear t.
Definition hcalm {C E R S} (y : hsys C E R S) (i : chid) : Prop := match i with ChA => calm (h_a y) | ChW => calm (h_w y) | ChB => calm (h_b y) end.
Definition hucalm {C E R S} (y : husys C E R S) (i : chid) : Prop := match i with ChA => calm (hu_a y) | ChW => calm (hu_w y) | ChB => calm (hu_b y) end.
(** [st n] is the state after n steps *)
Definition h_fair {C E R S} (st : nat -> hsys C E R S) (sched : nat -> hop C S) : Prop :=
  (forall o, ytask o -> forall n, exists m, (n <= m)%nat /\ sched m = HT o) /\
  (forall i, edges_again (HC i OEdge) sched (fun t => hcalm (st t) i)).
Definition hu_fair {C E R S} (st : nat -> husys C E R S) (sched : nat -> huop C S) : Prop :=
  (forall o, utask o -> forall n, exists m, (n <= m)%nat /\ sched m = HUT o) /\
  (forall i, edges_again (HUC i OEdge) sched (fun t => hucalm (st t) i)).
Definition hax_fair {TW TR} (st : nat -> haxs TW TR) (sched : nat -> haop TW TR) : Prop :=
  (forall o, ytask o -> forall n, exists m, (n <= m)%nat /\ sched m = KW (HT o)) /\
  (forall o, ytask o -> forall n, exists m, (n <= m)%nat /\ sched m = KR (HT o)) /\
  (forall i, edges_again (KW (HC i OEdge)) sched (fun t => hcalm (hz_w (st t)) i)) /\
  (forall i, edges_again (KR (HC i OEdge)) sched (fun t => hcalm (hz_r (st t)) i)).
Definition hlx_fair {TW TR} (st : nat -> hlxs TW TR) (sched : nat -> hlxop TW TR) : Prop :=
  (forall o, utask o -> forall n, exists m, (n <= m)%nat /\ sched m = QW (HUT o)) /\
  (forall o, utask o -> forall n, exists m, (n <= m)%nat /\ sched m = QR (HUT o)) /\
  (forall i, edges_again (QW (HUC i OEdge)) sched (fun t => hucalm (hv_w (st t)) i)) /\
  (forall i, edges_again (QR (HUC i OEdge)) sched (fun t => hucalm (hv_r (st t)) i)).

(** both halves on one target, the calls recorded as in S_axisys.v and S_literw.v; the d are what the wires carry before the first transfer *)
Definition hrw_init {T} (t : T) : haxs (T * list call) (T * list rcall) := hax_init (t, []) (t, []).
Definition hrw_run {T} (c : mcfg) (widn ridn : Z) (tw : T -> Z -> list Z -> T * res unit) (tr : T -> Z -> Z -> T * res (list Z)) (dW : wev) (dB : bch) (dA : axc) (dR : rch) :=
  hax_run c widn ridn (log_write tw) (log_read tr) cp_w2r cp_r2w dW dB dA dR.
Definition hrw_target {T} (z : haxs (T * list call) (T * list rcall)) : T := fst (ws_target (h_s (hz_w z))).
Definition hlrw_init {T} (t : T) : hlxs (T * list call) (T * list rcall) := hlx_init (t, []) (t, []).
Definition hlrw_run {T} (L : Z) (tw : T -> Z -> list Z -> T * res unit) (tr : T -> Z -> Z -> T * res (list Z)) (dW : lev) (dB : resp_t) (dA : lax) (dR : lrd) :=
  hlx_run L (log_write tw) (log_read tr) cp_w2r cp_r2w dW dB dA dR.
Definition hlrw_target {T} (z : hlxs (T * list call) (T * list rcall)) : T := fst (lws_target (hu_s (hv_w z))).
(** one half *)
Definition whsys_run {T} (c : mcfg) (idn : Z) (tw : T -> Z -> list Z -> T * res unit) (lanes : Z) (sp : bool) (dW : wev) (dB : bch) (t : T) :=
  h_run (w_sends c) w_opens w_epat w_chk b_id op_id idn w_opens ws_act (ws_in tw lanes sp) dW dB (hsys_init (WIdle t)).
Definition rhsys_run {T} (c : mcfg) (idn : Z) (tr : T -> Z -> Z -> T * res (list Z)) (lanes : Z) (dA : axc) (dR : rch) (t : T) :=
  h_run (r_sends c) r_opens r_epat r_chk r_id op_id idn r_kind (rs_act tr lanes) (rs_in lanes) dA dR (hsys_init (RIdle t)).
Definition lwhsys_run {T} (L : Z) (tw : T -> Z -> list Z -> T * res unit) (sp : bool) (dW : lev) (dB : resp_t) (t : T) :=
  hu_run (lite_w_sends L) (lite_w_need L) lw_kind lws_act (lws_in tw L sp) dW dB (husys_init (LWIdle t)).
Definition lrhsys_run {T} (L : Z) (tr : T -> Z -> Z -> T * res (list Z)) (dA : lax) (dR : lrd) (t : T) :=
  hu_run (lite_r_sends L) (lite_r_need L) lr_kind (lrs_act tr L) lrs_in dA dR (husys_init (LRIdle t)).
