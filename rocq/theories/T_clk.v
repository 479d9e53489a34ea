(** C62, C63: AxiMaster connected to AxiSlave / AxiRam by the clocked stream sources and sinks. *)
From Coq Require Import ZArith Lia List Bool Permutation.
From Coq Require Import ZifyBool ZifyNat.
From Verif Require Import Py S_flat M_sparse S_sparse P_sparse M_memory P_memory M_axi S_axi P_axiram M_liteeng M_axieng S_axieng P_axieng T_axieng M_sys S_sys P_sys T_sys T_sysrd
  M_axisys S_axisys P_sysram T_sysram M_litesys S_litesys M_literw S_live P_fair P_ulive P_ylive T_litelive T_axilive T_axirwlive
  M_stream M_cchan P_cchan M_clk S_clk P_cchanlive P_clk P_clkrw P_flat P_clklive P_clkfair.
Import ListNotations.
Open Scope Z_scope.

(** ** C62: the clocked system does nothing the system of C52-C55 cannot do *)

(** Any history h of the clocked write half: user calls, task steps, clock edges, passes of the sources and sinks after the edges, pauses
    of any source or sink, in any order.  There is a history h' of the system of C52 with the same user calls, the same
    observations (transfers started, operations completed with their responses), the same state of the master and of the slave with its target;
    whatever holds of all task steps, all user calls and other changes of the target in h holds of h'. *)
Theorem C62_write_refines : forall T (tw : T -> Z -> list Z -> T * res unit) c idn lanes sp dW dB t0 h,
  let '(y, l) := whsys_run c idn tw lanes sp dW dB t0 h in
  exists h', let '(y', l') := wsys_run c idn tw lanes sp t0 h' in
    l' = l /\ y_m y' = h_m y /\ y_s y' = h_s y /\ ysubmitted h' = ysubmitted (tasks h) /\
    forall P : yop wop (wslv T) -> Prop, (forall o, internal o -> P o) -> Forall P (tasks h) -> Forall P h'.
Proof.
  intros T tw c idn lanes sp dW dB t0 h. unfold whsys_run.
  pose proof (h_sims (w_sends c) w_opens w_epat w_chk b_id op_id idn w_opens ws_act (ws_in tw lanes sp) dW dB h (hsys_init (WIdle t0)) (hi_init _)) as H.
  destruct (h_run _ _ _ _ _ _ _ _ _ _ _ _ _ _) as [y l]. destruct H as [_ H]. eexists. unfold wsys_run. change (sys_init (WIdle t0)) with (habs (C := wop) (E := wev) (R := bch) (hsys_init (WIdle t0))).
  rewrite H. split; [reflexivity|]. split; [reflexivity|]. split; [reflexivity|]. split; [apply (hsims_submitted (R := bch))|]. intros P HP Ht. now apply hsims_all.
Qed.
Print Assumptions C62_write_refines.
Theorem C62_read_refines : forall T (tr : T -> Z -> Z -> T * res (list Z)) c idn lanes dA dR t0 h,
  let '(y, l) := rhsys_run c idn tr lanes dA dR t0 h in
  exists h', let '(y', l') := rsys_run c idn tr lanes t0 h' in
    l' = l /\ y_m y' = h_m y /\ y_s y' = h_s y /\ ysubmitted h' = ysubmitted (tasks h) /\
    forall P : yop rop (rslv T) -> Prop, (forall o, internal o -> P o) -> Forall P (tasks h) -> Forall P h'.
Proof.
  intros T tr c idn lanes dA dR t0 h. unfold rhsys_run.
  pose proof (h_sims (r_sends c) r_opens r_epat r_chk r_id op_id idn r_kind (rs_act tr lanes) (rs_in lanes) dA dR h (hsys_init (RIdle t0)) (hi_init _)) as H.
  destruct (h_run _ _ _ _ _ _ _ _ _ _ _ _ _ _) as [y l]. destruct H as [_ H]. eexists. unfold rsys_run. change (sys_init (RIdle t0)) with (habs (C := rop) (E := axc) (R := rch) (hsys_init (RIdle t0))).
  rewrite H. split; [reflexivity|]. split; [reflexivity|]. split; [reflexivity|]. split; [apply (hsims_submitted (R := rch))|]. intros P HP Ht. now apply hsims_all.
Qed.
Print Assumptions C62_read_refines.

(** both halves on one target *)
Definition cp1 {T} (a b : T * list call) (r : T * list rcall) : cp_w2r b (cp_w2r a r) = cp_w2r b r := eq_refl.
Definition cp2 {T} (a : T * list call) (r : T * list rcall) : cp_r2w (cp_w2r a r) a = a. destruct a; reflexivity. Defined.
Definition cp3 {T} (a b : T * list rcall) (w : T * list call) : cp_r2w b (cp_r2w a w) = cp_r2w b w := eq_refl.
Definition cp4 {T} (a : T * list rcall) (w : T * list call) : cp_w2r (cp_r2w a w) a = a. destruct a; reflexivity. Defined.
Lemma zi_rw {T} (t : T) : zi cp_w2r cp_r2w (hrw_init t). Proof. now apply zi_init. Qed.

Lemma rw_sims {T} (tw : T -> Z -> list Z -> T * res unit) tr c widn ridn dW dB dA dR h z0 : zi cp_w2r cp_r2w z0 ->
  let '(z, l) := hrw_run c widn ridn tw tr dW dB dA dR z0 h in
  zi cp_w2r cp_r2w z /\ rw_run c widn ridn tw tr (zabs z0) (zsims c widn ridn (log_write tw) (log_read tr) cp_w2r cp_r2w dW dB dA dR z0 h) = (zabs z, l).
Proof. apply (z_sims c widn ridn (log_write tw) (log_read tr) cp_w2r cp_r2w dW dB dA dR cp1 cp2 cp3 cp4). Qed.

Theorem C62_axi_refines : forall T (tw : T -> Z -> list Z -> T * res unit) tr c widn ridn dW dB dA dR t0 h,
  let '(z, l) := hrw_run c widn ridn tw tr dW dB dA dR (hrw_init t0) h in
  exists h', let '(z', l') := rw_run c widn ridn tw tr (rw_init t0) h' in
    l' = l /\ y_m (z_w z') = h_m (hz_w z) /\ y_s (z_w z') = h_s (hz_w z) /\ y_m (z_r z') = h_m (hz_r z) /\ y_s (z_r z') = h_s (hz_r z) /\
    a_wsubmitted h' = a_wsubmitted (ztasks h) /\ a_rsubmitted h' = a_rsubmitted (ztasks h) /\
    forall P : aop _ _ -> Prop, (forall o, a_internal o -> P o) -> Forall P (ztasks h) -> Forall P h'.
Proof.
  intros T tw tr c widn ridn dW dB dA dR t0 h. pose proof (rw_sims tw tr c widn ridn dW dB dA dR h (hrw_init t0) (zi_rw t0)) as H.
  destruct (hrw_run _ _ _ _ _ _ _ _ _ _ _) as [z l]. destruct H as [_ H]. eexists. change (rw_init t0) with (zabs (hrw_init t0)). rewrite H.
  split; [reflexivity|]. split; [reflexivity|]. split; [reflexivity|]. split; [reflexivity|]. split; [reflexivity|].
  split; [apply zsims_submitted|]. split; [apply zsims_submitted|]. intros P HP Ht. now apply zsims_all.
Qed.
Print Assumptions C62_axi_refines.

(** For example: on an AxiRam of any size, whatever the clocks, pauses and tasks do, a read issued after the overlapping writes have
    completed returns the bytes written (C55_ram_read_after_write). *)
Theorem C62_axi_ram_read_after_write : forall size c widn ridn dW dB dA dR m0 h1 h2, 0 < size -> 0 < m_lanes c -> size mod m_lanes c = 0 -> sm_reachable size m0 ->
  0 < widn -> 0 < ridn -> Forall a_nopoke (ztasks (h1 ++ h2)) ->
  let '(z1, l1) := hrw_run c widn ridn ram_write ram_read dW dB dA dR (hrw_init m0) h1 in
  let '(z, l2) := hrw_run c widn ridn ram_write ram_read dW dB dA dR z1 h2 in
  let l := l1 ++ l2 in let W := writes_of widn l in let R := reads_of ridn l in
  Forall (fun p => write_legal (m_lanes c) (fst p)) W -> Forall (fun p => read_legal (m_lanes c) (fst p)) R ->
  exists rrss, length rrss = length R /\
    (forall u, exists k, (k <= length (with_tag u R))%nat /\
       completed_on u (r_outs l) = combine (firstn k (with_tag u R)) (firstn k (on_tag u R rrss))) /\
    forall j o u, nth_error R j = Some (o, u) -> (length (reads_of ridn l1) <= j)%nat ->
      (forall i p, nth_error W i = Some p ->
         ((i < length (writes_of widn l1))%nat /\ done_at (writes_of widn l1) (w_outs l1) i (snd p)) \/ ~ touches (fun x => x mod size) p o) ->
      exists rs, nth_error rrss j = Some rs /\
        read_returns c o u rs = Some (map (fun x => put (fun x => x mod size) (peek m0) (op_bytes_of W) (x mod size)) (zrange (rc_addr (snd o)) (rc_addr (snd o) + rc_len (snd o))), OKAY).
Proof.
  intros size c widn ridn dW dB dA dR m0 h1 h2 Hs HL Hm Hr Hwi Hri Hh.
  pose proof (rw_sims ram_write ram_read c widn ridn dW dB dA dR h1 (hrw_init m0) (zi_rw m0)) as H1.
  destruct (hrw_run _ _ _ _ _ _ _ _ _ (hrw_init m0) h1) as [z1 l1]. destruct H1 as [I1 H1].
  pose proof (rw_sims ram_write ram_read c widn ridn dW dB dA dR h2 z1 I1) as H2.
  destruct (hrw_run _ _ _ _ _ _ _ _ _ z1 h2) as [z l2]. destruct H2 as [_ H2].
  unfold ztasks in Hh. rewrite flat_map_app in Hh. apply Forall_app in Hh. destruct Hh as [Hh1 Hh2].
  assert (HP : forall o : aop (sparse * list call) (sparse * list rcall), a_internal o -> a_nopoke o) by (intros [o|o]; destruct o; cbn; tauto).
  pose proof (C55_ram_read_after_write size c widn ridn m0 _ _ Hs HL Hm Hr Hwi Hri (proj2 (Forall_app _ _ _) (conj
     (zsims_all c widn ridn (log_write ram_write) (log_read ram_read) cp_w2r cp_r2w dW dB dA dR _ h1 (hrw_init m0) HP Hh1)
     (zsims_all c widn ridn (log_write ram_write) (log_read ram_read) cp_w2r cp_r2w dW dB dA dR _ h2 z1 HP Hh2)))) as H.
  change (rw_init m0) with (zabs (hrw_init m0)) in H. rewrite H1, H2 in H. exact H.
Qed.
Print Assumptions C62_axi_ram_read_after_write.

(** ** C63: completion *)
Lemma edges_ext {O} (e : O) sched (p q : nat -> Prop) : (forall t, p t -> q t) -> edges_again e sched p -> edges_again e sched q.
Proof. intros H He n. destruct (He n) as (m1 & m2 & m3 & Hm & E1 & E2 & E3 & Hc). exists m1, m2, m3. split; [exact Hm|]. repeat (split; [assumption|]). auto. Qed.

Lemma half_transport {C E R S} sends opens epat chk rtag ask idn kind (act : S -> sact R S) sin (dE : E) (dR : R) s0 (h : list (hop C S)) sched :
  let run := h_run sends opens epat chk rtag ask idn kind act sin dE dR (hsys_init s0) in
  h_fair (fun n => fst (run (h ++ first_steps sched n))) sched ->
  exists h' sched', fair internal sched' /\ ysubmitted h' = ysubmitted (tasks h) /\
    (forall P : yop C S -> Prop, (forall o, internal o -> P o) -> (Forall P (tasks h) -> Forall P h') /\ ((forall m, Forall P (tasks [sched m])) -> forall m, P (sched' m))) /\
    forall n, exists k, (n <= k)%nat /\
      y_run sends opens epat chk rtag ask idn kind act sin (sys_init s0) (h' ++ first_steps sched' k) = (let '(y, l) := run (h ++ first_steps sched n) in (habs y, l)).
Proof.
  intros run Hf. unfold run in *. clear run.
  set (z0 := hsys_init s0) in *. pose proof (h_sims sends opens epat chk rtag ask idn kind act sin dE dR h z0 (hi_init s0)) as H1.
  destruct (h_run _ _ _ _ _ _ _ _ _ _ _ _ z0 h) as [z1 l1] eqn:E1. destruct H1 as [I1 H1].
  assert (Hf' : h_fair (st sends opens epat chk rtag ask idn kind act sin dE dR z1 sched) sched).
  { assert (Est : forall t, fst (h_run sends opens epat chk rtag ask idn kind act sin dE dR z0 (h ++ first_steps sched t)) = st sends opens epat chk rtag ask idn kind act sin dE dR z1 sched t).
    { intros t. rewrite hrun_app, E1. unfold st. destruct (h_run _ _ _ _ _ _ _ _ _ _ _ _ z1 (first_steps sched t)). reflexivity. }
    destruct Hf as (F1 & F2). split; [exact F1|]. intros i. eapply edges_ext; [|exact (F2 i)]. intros t Ht. cbv beta in Ht. rewrite Est in Ht. exact Ht. }
  destruct (clk_fair sends opens epat chk rtag ask idn kind act sin dE dR z1 sched I1 Hf') as (sched' & F & FP & FR).
  exists (hsims sends opens epat chk rtag ask idn kind act sin dE dR z0 h), sched'.
  split; [exact F|]. split; [apply (hsims_submitted (R := R))|]. split.
  - intros P HP. split; [intros Ht; now apply hsims_all|]. intros Hs. now apply FP.
  - intros n. destruct (FR n) as (k & Hk & Ek). exists k. split; [exact Hk|]. rewrite hrun_app, E1.
    change (sys_init s0) with (habs (C := C) (E := E) (R := R) z0). rewrite yrun_app, H1, Ek. unfold st. destruct (h_run _ _ _ _ _ _ _ _ _ _ _ _ z1 (first_steps sched n)). reflexivity.
Qed.

(** Any clocked history h of the write half in which the user submits legal operations (with pauses as they come), then any fair clocked
    schedule: from some moment on every submitted operation has completed, exactly once, with the responses of C52. *)
Theorem C63_write_completes : forall T (tw : T -> Z -> list Z -> T * res unit) c idn dW dB t0 h sched, 0 < idn ->
  Forall wothers (tasks h) -> Forall (write_legal (m_lanes c)) (ysubmitted (tasks h)) ->
  (forall m, Forall (fun o => yno_issue o /\ wothers o) (tasks [sched m])) ->
  h_fair (fun n => fst (whsys_run c idn (log_write tw) (m_lanes c) true dW dB (t0, []) (h ++ first_steps sched n))) sched ->
  exists N, forall M, (N <= M)%nat -> let '(y, l) := whsys_run c idn (log_write tw) (m_lanes c) true dW dB (t0, []) (h ++ first_steps sched M) in
    let A := assigned op_id idn 0 (xstarted l) in
    Permutation (map (fun d => fst (fst d)) (xcompleted l)) (ysubmitted (tasks h)) /\ (forall d, In d (xcompleted l) -> exists u, snd (fst d) = Some u) /\
    (exists ex, Forall2 (written c) A ex /\ (forall u, completed_on u l = combine (with_tag u A) (map fst (on_tag u A ex))) /\
       snd (ws_target (h_s y)) = concat (map snd ex)) /\
    xcrashed l = false /\ x_is_idle (h_m y) = true /\ e_idle (h_m y) = true.
Proof.
  intros T tw c idn dW dB t0 h sched Hi Hh Hv Hs Hf.
  destruct (half_transport _ _ _ _ _ _ _ _ _ _ _ _ _ h sched Hf) as (h' & sched' & F & FS & FP & FR).
  assert (HP : forall o : yop wop (wslv (T * list call)), internal o -> yno_issue o /\ wothers o) by (intros o; destruct o; cbn; tauto).
  destruct (C60_write_completes T tw c idn t0 h' sched' Hi) as (N & HN); auto.
  - apply (FP wothers); auto. intros o Ho. now apply HP.
  - rewrite FS. exact Hv.
  - exact (proj2 (FP (fun o => yno_issue o /\ wothers o) HP) Hs).
  - exists N. intros M HM. destruct (FR M) as (k & Hk & Ek). specialize (HN k ltac:(lia)).
    unfold wsys_run in HN. rewrite Ek in HN. unfold whsys_run. destruct (h_run _ _ _ _ _ _ _ _ _ _ _ _ _ _) as [y l].
    cbv zeta in *. rewrite FS in HN. destruct HN as (N1 & N2 & N3 & N4 & N5 & N6 & _). auto 8.
Qed.
Print Assumptions C63_write_completes.
Theorem C63_read_completes : forall T (tr : T -> Z -> Z -> T * res (list Z)) c idn dA dR t0 h sched, 0 < idn ->
  Forall rothers (tasks h) -> Forall (read_legal (m_lanes c)) (ysubmitted (tasks h)) ->
  (forall m, Forall (fun o => yno_issue o /\ rothers o) (tasks [sched m])) ->
  h_fair (fun n => fst (rhsys_run c idn (log_read tr) (m_lanes c) dA dR (t0, []) (h ++ first_steps sched n))) sched ->
  exists N, forall M, (N <= M)%nat -> let '(y, l) := rhsys_run c idn (log_read tr) (m_lanes c) dA dR (t0, []) (h ++ first_steps sched M) in
    let A := assigned op_id idn 0 (xstarted l) in
    Permutation (map (fun d => fst (fst d)) (xcompleted l)) (ysubmitted (tasks h)) /\ (forall d, In d (xcompleted l) -> exists u, snd (fst d) = Some u) /\
    (exists ex, Forall2 (fetched c) A ex /\ (forall u, completed_on u l = combine (with_tag u A) (map fst (on_tag u A ex))) /\
       snd (rs_target (h_s y)) = concat (map snd ex)) /\
    xcrashed l = false /\ x_is_idle (h_m y) = true /\ e_idle (h_m y) = true.
Proof.
  intros T tr c idn dA dR t0 h sched Hi Hh Hv Hs Hf.
  destruct (half_transport _ _ _ _ _ _ _ _ _ _ _ _ _ h sched Hf) as (h' & sched' & F & FS & FP & FR).
  assert (HP : forall o : yop rop (rslv (T * list rcall)), internal o -> yno_issue o /\ rothers o) by (intros o; destruct o; cbn; tauto).
  destruct (C60_read_completes T tr c idn t0 h' sched' Hi) as (N & HN); auto.
  - apply (FP rothers); auto. intros o Ho. now apply HP.
  - rewrite FS. exact Hv.
  - exact (proj2 (FP (fun o => yno_issue o /\ rothers o) HP) Hs).
  - exists N. intros M HM. destruct (FR M) as (k & Hk & Ek). specialize (HN k ltac:(lia)).
    unfold rsys_run in HN. rewrite Ek in HN. unfold rhsys_run. destruct (h_run _ _ _ _ _ _ _ _ _ _ _ _ _ _) as [y l].
    cbv zeta in *. rewrite FS in HN. destruct HN as (N1 & N2 & N3 & N4 & N5 & N6 & _). auto 8.
Qed.
Print Assumptions C63_read_completes.

Lemma rw_transport {T} (tw : T -> Z -> list Z -> T * res unit) tr c widn ridn dW dB dA dR t0 h sched :
  let run := hrw_run c widn ridn tw tr dW dB dA dR (hrw_init t0) in
  hax_fair (fun n => fst (run (h ++ first_steps sched n))) sched ->
  exists h' sched', fair a_internal sched' /\ a_wsubmitted h' = a_wsubmitted (ztasks h) /\ a_rsubmitted h' = a_rsubmitted (ztasks h) /\
    (forall P : aop _ _ -> Prop, (forall o, a_internal o -> P o) -> (Forall P (ztasks h) -> Forall P h') /\ ((forall m, Forall P (ztasks [sched m])) -> forall m, P (sched' m))) /\
    forall n, exists k, (n <= k)%nat /\
      rw_run c widn ridn tw tr (rw_init t0) (h' ++ first_steps sched' k) = (let '(z, l) := run (h ++ first_steps sched n) in (zabs z, l)).
Proof.
  intros run Hf. unfold run in *. clear run.
  pose proof (rw_sims tw tr c widn ridn dW dB dA dR h (hrw_init t0) (zi_rw t0)) as H1. unfold hrw_run in *.
  destruct (hax_run _ _ _ _ _ _ _ _ _ _ _ (hrw_init t0) h) as [z1 l1] eqn:E1. destruct H1 as [I1 H1].
  set (ZST := zst c widn ridn (log_write tw) (log_read tr) cp_w2r cp_r2w dW dB dA dR z1 sched).
  assert (Hf' : hax_fair ZST sched).
  { assert (Est : forall t, fst (hax_run c widn ridn (log_write tw) (log_read tr) cp_w2r cp_r2w dW dB dA dR (hrw_init t0) (h ++ first_steps sched t)) = ZST t).
    { intros t. rewrite haxrun_app, E1. unfold ZST, zst. destruct (hax_run _ _ _ _ _ _ _ _ _ _ _ z1 (first_steps sched t)). reflexivity. }
    destruct Hf as (F1 & F2 & F3 & F4). split; [exact F1|]. split; [exact F2|]. split; intros i; (eapply edges_ext; [|exact (F3 i) || exact (F4 i)]); intros t Ht; cbv beta in Ht; rewrite Est in Ht; exact Ht. }
  destruct (zclk_fair c widn ridn (log_write tw) (log_read tr) cp_w2r cp_r2w dW dB dA dR cp1 cp2 cp3 cp4 z1 sched I1 Hf') as (sched' & F & FP & FR).
  exists (zsims c widn ridn (log_write tw) (log_read tr) cp_w2r cp_r2w dW dB dA dR (hrw_init t0) h), sched'.
  split; [exact F|]. split; [apply zsims_submitted|]. split; [apply zsims_submitted|]. split.
  - intros P HP. split; [intros Ht; now apply zsims_all|]. intros Hs. now apply FP.
  - intros n. destruct (FR n) as (k & Hk & Ek). exists k. split; [exact Hk|]. rewrite haxrun_app, E1.
    change (rw_init t0) with (zabs (hrw_init t0)). unfold rw_run in *. rewrite axrun_app, H1, Ek. unfold zst. destruct (hax_run _ _ _ _ _ _ _ _ _ _ _ z1 (first_steps sched n)). reflexivity.
Qed.

(** Reads and writes together on an AxiRam. *)
Theorem C63_axi_ram_completes : forall size c widn ridn dW dB dA dR m0 h sched, 0 < size -> 0 < m_lanes c -> size mod m_lanes c = 0 -> sm_reachable size m0 ->
  0 < widn -> 0 < ridn -> Forall a_nopoke (ztasks h) ->
  Forall (write_legal (m_lanes c)) (a_wsubmitted (ztasks h)) -> Forall (read_legal (m_lanes c)) (a_rsubmitted (ztasks h)) ->
  (forall m, Forall (fun o => a_no_issue o /\ a_nopoke o) (ztasks [sched m])) ->
  hax_fair (fun n => fst (hrw_run c widn ridn ram_write ram_read dW dB dA dR (hrw_init m0) (h ++ first_steps sched n))) sched ->
  exists N, forall M, (N <= M)%nat -> let '(z, l) := hrw_run c widn ridn ram_write ram_read dW dB dA dR (hrw_init m0) (h ++ first_steps sched M) in
    let W := writes_of widn l in let R := reads_of ridn l in
    Permutation (map fst W) (a_wsubmitted (ztasks h)) /\ Permutation (map fst R) (a_rsubmitted (ztasks h)) /\
    Permutation (map (fun d => fst (fst d)) (xcompleted (w_outs l))) (map fst W) /\
    Permutation (map (fun d => fst (fst d)) (xcompleted (r_outs l))) (map fst R) /\
    (exists wrss, Forall2 (fun p rs => write_returns c (fst p) (snd p) rs = Some OKAY) W wrss /\
       forall u, completed_on u (w_outs l) = combine (with_tag u W) (on_tag u W wrss)) /\
    (exists rrss, Forall2 (fun p rs => exists d, read_returns c (fst p) (snd p) rs = Some (d, OKAY)) R rrss /\
       forall u, completed_on u (r_outs l) = combine (with_tag u R) (on_tag u R rrss)) /\
    peek (hrw_target z) =f put (fun x => x mod size) (peek m0) (op_bytes_of W) /\
    xcrashed (w_outs l) = false /\ xcrashed (r_outs l) = false /\ x_is_idle (h_m (hz_w z)) = true /\ x_is_idle (h_m (hz_r z)) = true.
Proof.
  intros size c widn ridn dW dB dA dR m0 h sched Hs HL Hm Hr Hwi Hri Hh HW HR Hsc Hf.
  destruct (rw_transport _ _ _ _ _ _ _ _ _ _ h sched Hf) as (h' & sched' & F & FW & FD & FP & FR).
  assert (HP : forall o : aop (sparse * list call) (sparse * list rcall), a_internal o -> a_no_issue o /\ a_nopoke o) by (intros [o|o]; destruct o; cbn; tauto).
  destruct (C60_ram_completes size c widn ridn m0 h' sched' Hs HL Hm Hr Hwi Hri) as (N & HN); auto.
  - apply (FP a_nopoke); auto. intros o Ho. now apply HP.
  - now rewrite FW.
  - now rewrite FD.
  - exact (proj2 (FP (fun o => a_no_issue o /\ a_nopoke o) HP) Hsc).
  - exists N. intros M HM. destruct (FR M) as (k & Hk & Ek). specialize (HN k ltac:(lia)). rewrite Ek in HN.
    destruct (hrw_run _ _ _ _ _ _ _ _ _ _ _) as [z l]. cbv zeta in *. rewrite FW, FD in HN. exact HN.
Qed.
Print Assumptions C63_axi_ram_completes.

(** While nobody sets a pause the channels stay as unpaused as they are. *)
Definition kno_pause {TW TR} (o : haop TW TR) : Prop := match o with KW o => no_pause o | KR o => no_pause o end.
Lemma rw_calm {T} (tw : T -> Z -> list Z -> T * res unit) tr c widn ridn dW dB dA dR z0 sched : zi cp_w2r cp_r2w z0 -> (forall i, hcalm (hz_w z0) i /\ hcalm (hz_r z0) i) -> (forall m, kno_pause (sched m)) ->
  forall t i, let z := fst (hrw_run c widn ridn tw tr dW dB dA dR z0 (first_steps sched t)) in hcalm (hz_w z) i /\ hcalm (hz_r z) i.
Proof.
  intros H0 C0 NP t. induction t as [|t IH]; [exact C0|]. unfold hrw_run in *.
  pose proof (zst_S c widn ridn (log_write tw) (log_read tr) cp_w2r cp_r2w dW dB dA dR z0 sched t) as Est.
  pose proof (zst_zi c widn ridn (log_write tw) (log_read tr) cp_w2r cp_r2w dW dB dA dR cp1 cp2 cp3 cp4 z0 sched H0 t) as Q0. unfold zst in *. rewrite Est. clear Est.
  cbv zeta in *. set (st := fst (hax_run _ _ _ _ _ _ _ _ _ _ _ z0 (first_steps sched t))) in *. clearbody st. specialize (NP t). destruct Q0 as (Iw & Ir & _).
  destruct (sched t) as [o|o]; cbn [hax_step kno_pause] in *; unfold whsys_step, rhsys_step in *.
  - pose proof (calm_step (w_sends c) w_opens w_epat w_chk b_id op_id widn w_opens ws_act (ws_in (log_write tw) (m_lanes c) true) dW dB _ _ Iw NP (fun i => proj1 (IH i))) as K.
    destruct (h_step _ _ _ _ _ _ _ _ _ _ _ _ _ _) as [y l]. intros i. split; [exact (K i)|]. destruct (IH i) as [_ Q]. destruct i; exact Q.
  - pose proof (calm_step (r_sends c) r_opens r_epat r_chk r_id op_id ridn r_kind (rs_act (log_read tr) (m_lanes c)) (rs_in (m_lanes c)) dA dR _ _ Ir NP (fun i => proj2 (IH i))) as K.
    destruct (h_step _ _ _ _ _ _ _ _ _ _ _ _ _ _) as [y l]. intros i. split; [|exact (K i)]. destruct (IH i) as [Q _]. destruct i; exact Q.
Qed.
Lemma rw_app {T} (tw : T -> Z -> list Z -> T * res unit) tr c widn ridn dW dB dA dR z0 h1 h2 :
  fst (hrw_run c widn ridn tw tr dW dB dA dR z0 (h1 ++ h2)) = fst (hrw_run c widn ridn tw tr dW dB dA dR (fst (hrw_run c widn ridn tw tr dW dB dA dR z0 h1)) h2).
Proof. unfold hrw_run. rewrite haxrun_app. destruct (hax_run _ _ _ _ _ _ _ _ _ _ _ z0 h1) as [z1 l1]. cbn [fst]. now destruct (hax_run _ _ _ _ _ _ _ _ _ _ _ z1 h2). Qed.

(** A schedule is fair if every step of a task and every clock edge comes again and again and the pauses come to an end. *)
Lemma edges_steady {O} (e : O) sched (p : nat -> Prop) : (forall n, exists m, (n <= m)%nat /\ sched m = e) -> (exists n0, forall t, (n0 <= t)%nat -> p t) -> edges_again e sched p.
Proof.
  intros H (n0 & Hp) n. destruct (H (n + n0)%nat) as (m1 & L1 & E1). destruct (H (S m1)) as (m2 & L2 & E2). destruct (H (S m2)) as (m3 & L3 & E3).
  exists m1, m2, m3. split; [lia|]. split; [exact E1|]. split; [exact E2|]. split; [exact E3|]. intros t Ht. apply Hp. lia.
Qed.
Theorem C63_steady_is_fair : forall TW TR (st : nat -> haxs TW TR) sched,
  (forall o, ytask o -> forall n, exists m, (n <= m)%nat /\ sched m = KW (HT o)) ->
  (forall o, ytask o -> forall n, exists m, (n <= m)%nat /\ sched m = KR (HT o)) ->
  (forall i n, exists m, (n <= m)%nat /\ sched m = KW (HC i OEdge)) -> (forall i n, exists m, (n <= m)%nat /\ sched m = KR (HC i OEdge)) ->
  (exists n0, forall t, (n0 <= t)%nat -> forall i, hcalm (hz_w (st t)) i /\ hcalm (hz_r (st t)) i) -> hax_fair st sched.
Proof.
  intros TW TR st sched H1 H2 H3 H4 (n0 & H5). split; [exact H1|]. split; [exact H2|].
  split; intros i; (apply edges_steady; [exact (H3 i) || exact (H4 i)|]); exists n0; intros t Ht; now destruct (H5 t Ht i).
Qed.
Print Assumptions C63_steady_is_fair.

(** ** examples: the operations of T_sysram.v; the response sink of the write half and the address source of the read half are paused at first *)
Definition ex_hround {C S} : list (hop C S) :=
  [HC ChA OEdge; HC ChW OEdge; HC ChB OEdge; HT (YStart 0); HT YGet; HT YSend; HC ChA OSnk; HC ChW OSnk; HC ChW OSrc; HT YSlave; HC ChB OSnk; HC ChB OSrc;
   HT YRecv; HT (YCGet 2); HT (YCGet 1); HT (YCGet 0); HT (YCResp 2); HT (YCResp 1); HT (YCResp 0); HC ChB ORun].
Definition ex_hrounds (n : nat) : list (haop (sparse * list call) (sparse * list rcall)) := concat (repeat (map KW ex_hround ++ map KR ex_hround) n).
Definition ex_hpause (b : bool) : list (haop (sparse * list call) (sparse * list rcall)) := [KW (HC ChB (OPauseK b)); KR (HC ChA (OPauseS b))].
Definition ex_hh1 (n m : nat) := map KW (map HT (map YInit ex_ops)) ++ map KR (map HT (map YInit ex_rops)) ++ ex_hpause true ++ ex_hrounds n ++ ex_hpause false ++ ex_hrounds m.
Definition ex_hh2 (n : nat) := map KR (map HT (map YInit [ex_read 3 None 0 16 2])) ++ ex_hrounds n.
Definition ex_dA : axc := {| ax_id := 0; ax_addr := 0; ax_len := 0; ax_size := 0; ax_burst := FIXED; ax_side := ex_side |}.
Definition ex_dB : bch := {| b_id := 0; b_resp := OKAY; b_user := 0 |}.
Definition ex_dR : rch := {| r_id := 0; r_data := 0; r_resp := OKAY; r_last := false; r_user := 0 |}.
Definition ex_hrun := hrw_run ex_cfg 4 4 ram_write ram_read (EvAW ex_dA) ex_dB ex_dA ex_dR.
Definition ex_hrw (n m k : nat) :=
  let '(z1, l1) := ex_hrun (hrw_init (sm_init 16)) (ex_hh1 n m) in let '(z, l2) := ex_hrun z1 (ex_hh2 k) in (z1, z, l1, l2).
Example C62_nontrivial :
  let '(z1, z, l1, l2) := ex_hrw 5 22 16 in
  (ex_show l1, map (fun d => fst (fst (fst (fst d)))) (xcompleted (w_outs l1)), ex_show l2) =
  ([(1, Some ([2; 3; 4; 5; 6; 7], OKAY)); (2, Some ([0; 1], OKAY))], [1; 2; 3],
   [(3, Some ([32; 33; 1; 2; 21; 22; 23; 6; 7; 8; 9; 10; 11; 0; 0; 31], OKAY))]).
Proof. vm_compute. reflexivity. Qed.
(** while the pauses last nothing completes: the sink of the write responses is full, no read request leaves *)
Example C62_nontrivial_paused :
  let '(z1, z, l1, l2) := ex_hrw 30 0 0 in
  (xcompleted (w_outs l1), xcompleted (r_outs l1), map (peek (hrw_target z1)) (zrange 0 16), k_ready (cc_snk (h_b (hz_w z1))), s_valid (cc_src (h_b (hz_w z1))), length (s_q (cc_src (h_a (hz_r z1))))) =
  ([], [], [0; 0; 1; 2; 21; 22; 23; 6; 7; 8; 9; 10; 11; 0; 0; 0], false, true, 2%nat).
Proof. vm_compute. reflexivity. Qed.
Definition ex_nopokeb {X Y} (o : aop X Y) : bool := match o with BW (YPoke _) | BR (YPoke _) => false | _ => true end.
Lemma ex_nopokes {X Y} (l : list (aop X Y)) : forallb ex_nopokeb l = true -> Forall a_nopoke l.
Proof. rewrite forallb_forall, Forall_forall. intros H o Ho. specialize (H o Ho). destruct o as [o|o]; destruct o; cbn in *; auto; discriminate. Qed.
Example C62_nontrivial_hyp : let '(z1, z, l1, l2) := ex_hrw 5 22 16 in
  Forall (fun p => write_legal 4 (fst p)) (writes_of 4 (l1 ++ l2)) /\ Forall (fun p => read_legal 4 (fst p)) (reads_of 4 (l1 ++ l2)) /\
  Forall a_nopoke (ztasks (ex_hh1 5 22 ++ ex_hh2 16)) /\ length (reads_of 4 l1) = 2%nat /\
  forall i p, nth_error (writes_of 4 (l1 ++ l2)) i = Some p -> (i < length (writes_of 4 l1))%nat /\ done_at (writes_of 4 l1) (w_outs l1) i (snd p).
Proof.
  assert (E1 : let '(z1, z, l1, l2) := ex_hrw 5 22 16 in
    (writes_of 4 (l1 ++ l2), reads_of 4 (l1 ++ l2), length (reads_of 4 l1), writes_of 4 l1, map (fun u => length (completed_on u (w_outs l1))) [0; 7; 1]) =
    (combine ex_ops [0; 7; 1], combine (ex_rops ++ [ex_read 3 None 0 16 2]) [0; 7; 1], 2%nat, combine ex_ops [0; 7; 1], [1; 1; 1]%nat)) by (vm_compute; reflexivity).
  destruct (ex_hrw 5 22 16) as [[[z1 z] l1] l2]. injection E1 as E1 E2 E3 E4 A1 A2 A3. rewrite E1, E2, E4. clear E1 E2. split; [|split; [|split; [|split; [exact E3|]]]].
  - repeat constructor; cbn; try lia; try (exists 2; lia).
  - repeat constructor; cbn; try lia; try (exists 2; lia).
  - apply ex_nopokes. vm_compute. reflexivity.
  - intros [|[|[|i]]] p Hp; cbn in Hp; try (injection Hp as <-); try (destruct i; discriminate); unfold done_at; cbn [snd];
      rewrite ?A1, ?A2, ?A3; vm_compute; lia.
Qed.

(** a fair clocked schedule: the one of T_axirwlive.v with clock edges and passes for the steps of the channels *)
Definition ex_conv {C S} (o : yop C S) : hop C S :=
  match o with
  | YLoad k => HC (if k then ChA else ChW) OEdge | YXfer k => HC (if k then ChA else ChW) OSrc
  | YLoadB => HC ChB OEdge | YXferB => HC ChB OSnk
  | o => HT o
  end.
Definition ex_hfair (m : nat) : haop (sparse * list call) (sparse * list rcall) := match ex_afair m with BW o => KW (ex_conv o) | BR o => KR (ex_conv o) end.
Definition ex_hh := map KW (map HT (map YInit ex_ops)) ++ map KR (map HT (map YInit ex_rops)) ++ ex_hpause true ++ ex_hrounds 5 ++ ex_hpause false.
Lemma ex_hfair_np m : kno_pause (ex_hfair m).
Proof. unfold ex_hfair. destruct (ex_afair m) as [o|o]; destruct o; exact I. Qed.
Lemma ex_z0_zi : zi cp_w2r cp_r2w (fst (hrw_run ex_cfg 4 4 ram_write ram_read (EvAW ex_dA) ex_dB ex_dA ex_dR (hrw_init (sm_init 16)) ex_hh)).
Proof. pose proof (rw_sims ram_write ram_read ex_cfg 4 4 (EvAW ex_dA) ex_dB ex_dA ex_dR ex_hh (hrw_init (sm_init 16)) (zi_rw _)) as H. destruct (hrw_run _ _ _ _ _ _ _ _ _ _ _). apply H. Qed.
Lemma ex_z0_calm i : let z := fst (hrw_run ex_cfg 4 4 ram_write ram_read (EvAW ex_dA) ex_dB ex_dA ex_dR (hrw_init (sm_init 16)) ex_hh) in hcalm (hz_w z) i /\ hcalm (hz_r z) i.
Proof. destruct i; vm_compute; repeat split. Qed.
Example C63_nontrivial_hyp : Forall a_nopoke (ztasks ex_hh) /\ Forall (write_legal 4) (a_wsubmitted (ztasks ex_hh)) /\ Forall (read_legal 4) (a_rsubmitted (ztasks ex_hh)) /\
  (forall m, Forall (fun o => a_no_issue o /\ a_nopoke o) (ztasks [ex_hfair m])) /\
  hax_fair (fun n => fst (ex_hrun (hrw_init (sm_init 16)) (ex_hh ++ first_steps ex_hfair n))) ex_hfair.
Proof.
  destruct C60_nontrivial_rw_hyp as (_ & HW & HR & Hok & Hfair).
  split; [apply ex_nopokes; vm_compute; reflexivity|]. split; [exact HW|]. split; [exact HR|]. split.
  - intros m. unfold ex_hfair. specialize (Hok m). destruct (ex_afair m) as [o|o]; destruct o as [| | | | | | | |k|k| | | |f]; repeat constructor; apply Hok.
  - assert (F : forall o, a_internal o -> forall n, exists m, (n <= m)%nat /\ ex_hfair m = match o with BW o => KW (ex_conv o) | BR o => KR (ex_conv o) end).
    { intros o Ho n. destruct (Hfair o Ho n) as (m & Hm & Em). exists m. split; [exact Hm|]. unfold ex_hfair. now rewrite Em. }
    apply C63_steady_is_fair.
    + intros o Ho n. assert (Hi : internal o) by (destruct o; cbn in *; tauto). destruct (F (BW o) Hi n) as (m & Hm & Em). exists m. split; [exact Hm|]. rewrite Em. destruct o; cbn in *; tauto.
    + intros o Ho n. assert (Hi : internal o) by (destruct o; cbn in *; tauto). destruct (F (BR o) Hi n) as (m & Hm & Em). exists m. split; [exact Hm|]. rewrite Em. destruct o; cbn in *; tauto.
    + intros i n. destruct i; [exact (F (BW (YLoad true)) I n)|exact (F (BW (YLoad false)) I n)|exact (F (BW YLoadB) I n)].
    + intros i n. destruct i; [exact (F (BR (YLoad true)) I n)|exact (F (BR (YLoad false)) I n)|exact (F (BR YLoadB) I n)].
    + exists 0%nat. intros t _ i. unfold ex_hrun. rewrite rw_app. exact (rw_calm _ _ _ _ _ _ _ _ _ _ _ ex_z0_zi ex_z0_calm ex_hfair_np t i).
Qed.
Example C63_nontrivial :
  let '(z, l) := ex_hrun (hrw_init (sm_init 16)) (ex_hh ++ first_steps ex_hfair 2000) in
  (map (fun d => fst (fst (fst (fst d)))) (xcompleted (w_outs l)), ex_show l, x_is_idle (h_m (hz_w z)), x_is_idle (h_m (hz_r z)), map (peek (hrw_target z)) (zrange 0 16)) =
  ([1; 2; 3], [(1, Some ([2; 3; 4; 5; 6; 7], OKAY)); (2, Some ([0; 1], OKAY))], true, true, [32; 33; 1; 2; 21; 22; 23; 6; 7; 8; 9; 10; 11; 0; 0; 31]).
Proof. vm_compute. reflexivity. Qed.
