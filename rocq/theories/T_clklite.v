(** C62, C63 for AxiLiteMaster connected to AxiLiteSlave / AxiLiteRam by the clocked stream sources and sinks. *)
From Coq Require Import ZArith Lia List Bool Permutation.
From Coq Require Import ZifyBool ZifyNat.
From Verif Require Import Py S_flat M_sparse S_sparse P_sparse M_memory P_memory M_axi S_axi P_axiram M_axil M_liteeng S_liteeng P_liteeng M_axieng M_sys S_sys M_axisys S_axisys P_sysram
  M_litesys S_litesys P_litesys T_litesys M_literw S_literw P_literw T_sysram T_literw S_live P_fair P_ulive T_litelive T_literwlive
  M_stream M_cchan P_cchan M_clk S_clk P_cchanlive P_clk P_clku P_clkrw P_clkurw P_flat P_clklive P_clkulive P_clkfair P_clkufair T_clk.
Import ListNotations.
Open Scope Z_scope.

(** ** C62: the clocked system does nothing the system of C56-C58 cannot do (as in T_clk.v) *)
Theorem C62_lite_write_refines : forall T (tw : T -> Z -> list Z -> T * res unit) L sp dW dB t0 h,
  let '(y, l) := lwhsys_run L tw sp dW dB t0 h in
  exists h', let '(y', l') := lwsys_run L tw sp t0 h' in
    l' = l /\ u_m y' = hu_m y /\ u_s y' = hu_s y /\ usubmitted h' = usubmitted (utasks h) /\
    forall P : uop (Z * lwcmd) (lwslv T) -> Prop, (forall o, uinternal o -> P o) -> Forall P (utasks h) -> Forall P h'.
Proof.
  intros T tw L sp dW dB t0 h. unfold lwhsys_run.
  pose proof (hu_sims (lite_w_sends L) (lite_w_need L) lw_kind lws_act (lws_in tw L sp) dW dB h (husys_init (LWIdle t0)) (hui_init _)) as H.
  destruct (hu_run _ _ _ _ _ _ _ _ _) as [y l]. destruct H as [_ H]. eexists. unfold lwsys_run. change (usys_init (LWIdle t0)) with (huabs (C := Z * lwcmd) (E := lev) (R := resp_t) (husys_init (LWIdle t0))).
  rewrite H. split; [reflexivity|]. split; [reflexivity|]. split; [reflexivity|]. split; [apply (husims_submitted (R := resp_t))|]. intros P HP Ht. now apply husims_all.
Qed.
Print Assumptions C62_lite_write_refines.
Theorem C62_lite_read_refines : forall T (tr : T -> Z -> Z -> T * res (list Z)) L dA dR t0 h,
  let '(y, l) := lrhsys_run L tr dA dR t0 h in
  exists h', let '(y', l') := lrsys_run L tr t0 h' in
    l' = l /\ u_m y' = hu_m y /\ u_s y' = hu_s y /\ usubmitted h' = usubmitted (utasks h) /\
    forall P : uop (Z * lrcmd) (lrslv T) -> Prop, (forall o, uinternal o -> P o) -> Forall P (utasks h) -> Forall P h'.
Proof.
  intros T tr L dA dR t0 h. unfold lrhsys_run.
  pose proof (hu_sims (lite_r_sends L) (lite_r_need L) lr_kind (lrs_act tr L) lrs_in dA dR h (husys_init (LRIdle t0)) (hui_init _)) as H.
  destruct (hu_run _ _ _ _ _ _ _ _ _) as [y l]. destruct H as [_ H]. eexists. unfold lrsys_run. change (usys_init (LRIdle t0)) with (huabs (C := Z * lrcmd) (E := lax) (R := lrd) (husys_init (LRIdle t0))).
  rewrite H. split; [reflexivity|]. split; [reflexivity|]. split; [reflexivity|]. split; [apply (husims_submitted (R := lrd))|]. intros P HP Ht. now apply husims_all.
Qed.
Print Assumptions C62_lite_read_refines.

(** both halves on one target *)
Lemma vi_lrw {T} (t : T) : vi cp_w2r cp_r2w (hlrw_init t). Proof. now apply vi_init. Qed.
Lemma lrw_sims {T} (tw : T -> Z -> list Z -> T * res unit) tr L dW dB dA dR h z0 : vi cp_w2r cp_r2w z0 ->
  let '(z, l) := hlrw_run L tw tr dW dB dA dR z0 h in
  vi cp_w2r cp_r2w z /\ lrw_run L tw tr (vabs z0) (vsims L (log_write tw) (log_read tr) cp_w2r cp_r2w dW dB dA dR z0 h) = (vabs z, l).
Proof. apply (v_sims L (log_write tw) (log_read tr) cp_w2r cp_r2w dW dB dA dR cp1 cp2 cp3 cp4). Qed.

Theorem C62_lite_refines : forall T (tw : T -> Z -> list Z -> T * res unit) tr L dW dB dA dR t0 h,
  let '(z, l) := hlrw_run L tw tr dW dB dA dR (hlrw_init t0) h in
  exists h', let '(z', l') := lrw_run L tw tr (lrw_init t0) h' in
    l' = l /\ u_m (v_w z') = hu_m (hv_w z) /\ u_s (v_w z') = hu_s (hv_w z) /\ u_m (v_r z') = hu_m (hv_r z) /\ u_s (v_r z') = hu_s (hv_r z) /\
    lx_wsubmitted h' = lx_wsubmitted (vtasks h) /\ lx_rsubmitted h' = lx_rsubmitted (vtasks h) /\
    forall P : lxop _ _ -> Prop, (forall o, lx_internal o -> P o) -> Forall P (vtasks h) -> Forall P h'.
Proof.
  intros T tw tr L dW dB dA dR t0 h. pose proof (lrw_sims tw tr L dW dB dA dR h (hlrw_init t0) (vi_lrw t0)) as H.
  destruct (hlrw_run _ _ _ _ _ _ _ _ _) as [z l]. destruct H as [_ H]. eexists. change (lrw_init t0) with (vabs (hlrw_init t0)). rewrite H.
  split; [reflexivity|]. split; [reflexivity|]. split; [reflexivity|]. split; [reflexivity|]. split; [reflexivity|].
  split; [apply vsims_submitted|]. split; [apply vsims_submitted|]. intros P HP Ht. now apply vsims_all.
Qed.
Print Assumptions C62_lite_refines.

(** For example on an AxiLiteRam (C58_ram_read_after_write). *)
Theorem C62_lite_ram_read_after_write : forall size L dW dB dA dR m0 h1 h2, 0 < size -> 0 < L -> size mod L = 0 -> sm_reachable size m0 ->
  Forall lx_nopoke (vtasks (h1 ++ h2)) ->
  let '(z1, l1) := hlrw_run L ram_write ram_read dW dB dA dR (hlrw_init m0) h1 in
  let '(z, l2) := hlrw_run L ram_write ram_read dW dB dA dR z1 h2 in
  let l := l1 ++ l2 in let W := lwrites_of l in let R := lreads_of l in
  Forall lite_write_legal W -> Forall lite_read_legal R -> Forall (fun o => 0 <= lc_addr (snd o)) W -> Forall (fun o => 0 <= lr_addr (snd o)) R ->
  forall j o rs, nth_error (completed (lr_outs l)) j = Some (o, rs) -> (length (lreads_of l1) <= j)%nat ->
    (forall i p, nth_error W i = Some p -> (i < length (completed (lw_outs l1)))%nat \/ ~ ltouches (fun x => x mod size) p o) ->
    lite_read_resp L (snd o) rs = (map (fun x => put (fun x => x mod size) (peek m0) (lite_op_bytes W) (x mod size)) (zrange (lr_addr (snd o)) (lr_addr (snd o) + lr_len (snd o))), OKAY).
Proof.
  intros size L dW dB dA dR m0 h1 h2 Hs HL Hm Hr Hh.
  pose proof (lrw_sims ram_write ram_read L dW dB dA dR h1 (hlrw_init m0) (vi_lrw m0)) as H1.
  destruct (hlrw_run _ _ _ _ _ _ _ (hlrw_init m0) h1) as [z1 l1]. destruct H1 as [I1 H1].
  pose proof (lrw_sims ram_write ram_read L dW dB dA dR h2 z1 I1) as H2.
  destruct (hlrw_run _ _ _ _ _ _ _ z1 h2) as [z l2]. destruct H2 as [_ H2].
  unfold vtasks in Hh. rewrite flat_map_app in Hh. apply Forall_app in Hh. destruct Hh as [Hh1 Hh2].
  assert (HP : forall o : lxop (sparse * list call) (sparse * list rcall), lx_internal o -> lx_nopoke o) by (intros [o|o]; destruct o; cbn; tauto).
  pose proof (C58_ram_read_after_write size L m0 _ _ Hs HL Hm Hr (proj2 (Forall_app _ _ _) (conj
     (vsims_all L (log_write ram_write) (log_read ram_read) cp_w2r cp_r2w dW dB dA dR _ h1 (hlrw_init m0) HP Hh1)
     (vsims_all L (log_write ram_write) (log_read ram_read) cp_w2r cp_r2w dW dB dA dR _ h2 z1 HP Hh2)))) as H.
  change (lrw_init m0) with (vabs (hlrw_init m0)) in H. rewrite H1, H2 in H. exact H.
Qed.
Print Assumptions C62_lite_ram_read_after_write.

(** ** C63: completion *)
Lemma uhalf_transport {C E R S} sends need kind (act : S -> sact R S) sin (dE : E) (dR : R) s0 (h : list (huop C S)) sched :
  let run := hu_run sends need kind act sin dE dR (husys_init s0) in
  hu_fair (fun n => fst (run (h ++ first_steps sched n))) sched ->
  exists h' sched', fair uinternal sched' /\ usubmitted h' = usubmitted (utasks h) /\
    (forall P : uop C S -> Prop, (forall o, uinternal o -> P o) -> (Forall P (utasks h) -> Forall P h') /\ ((forall m, Forall P (utasks [sched m])) -> forall m, P (sched' m))) /\
    forall n, exists k, (n <= k)%nat /\
      u_run sends need kind act sin (usys_init s0) (h' ++ first_steps sched' k) = (let '(y, l) := run (h ++ first_steps sched n) in (huabs y, l)).
Proof.
  intros run Hf. unfold run in *. clear run.
  set (z0 := husys_init s0) in *. pose proof (hu_sims sends need kind act sin dE dR h z0 (hui_init s0)) as H1.
  destruct (hu_run _ _ _ _ _ _ _ z0 h) as [z1 l1] eqn:E1. destruct H1 as [I1 H1].
  assert (Hf' : hu_fair (ust sends need kind act sin dE dR z1 sched) sched).
  { assert (Est : forall t, fst (hu_run sends need kind act sin dE dR z0 (h ++ first_steps sched t)) = ust sends need kind act sin dE dR z1 sched t).
    { intros t. rewrite hurun_app, E1. unfold ust. destruct (hu_run _ _ _ _ _ _ _ z1 (first_steps sched t)). reflexivity. }
    destruct Hf as (F1 & F2). split; [exact F1|]. intros i. eapply edges_ext; [|exact (F2 i)]. intros t Ht. cbv beta in Ht. rewrite Est in Ht. exact Ht. }
  destruct (uclk_fair sends need kind act sin dE dR z1 sched I1 Hf') as (sched' & F & FP & FR).
  exists (husims sends need kind act sin dE dR z0 h), sched'.
  split; [exact F|]. split; [apply (husims_submitted (R := R))|]. split.
  - intros P HP. split; [intros Ht; now apply husims_all|]. intros Hs. now apply FP.
  - intros n. destruct (FR n) as (k & Hk & Ek). exists k. split; [exact Hk|]. rewrite hurun_app, E1.
    change (usys_init s0) with (huabs (C := C) (E := E) (R := R) z0). rewrite urun_app, H1, Ek. unfold ust. destruct (hu_run _ _ _ _ _ _ _ z1 (first_steps sched n)). reflexivity.
Qed.

Theorem C63_lite_write_completes : forall T (tw : T -> Z -> list Z -> T * res unit) L dW dB t0 h sched, 0 < L ->
  Forall lwothers (utasks h) -> Forall lite_write_legal (usubmitted (utasks h)) ->
  (forall m, Forall (fun o => uno_issue o /\ lwothers o) (utasks [sched m])) ->
  hu_fair (fun n => fst (lwhsys_run L (log_write tw) true dW dB (t0, []) (h ++ first_steps sched n))) sched ->
  exists N, forall M, (N <= M)%nat -> let '(y, l) := lwhsys_run L (log_write tw) true dW dB (t0, []) (h ++ first_steps sched M) in
    Permutation (map fst (completed l)) (usubmitted (utasks h)) /\
    (exists ex, Forall2 (lite_written L) (started l) ex /\ completed l = combine (started l) (map fst ex) /\
       snd (lws_target (hu_s y)) = concat (map snd ex)) /\
    eng_is_idle (hu_m y) = true /\ g_idle (hu_m y) = true.
Proof.
  intros T tw L dW dB t0 h sched HL Hh Hv Hs Hf.
  destruct (uhalf_transport _ _ _ _ _ _ _ _ h sched Hf) as (h' & sched' & F & FS & FP & FR).
  assert (HP : forall o : uop (Z * lwcmd) (lwslv (T * list call)), uinternal o -> uno_issue o /\ lwothers o) by (intros o; destruct o; cbn; tauto).
  destruct (C59_lite_write_completes T tw L t0 h' sched' HL) as (N & HN); auto.
  - apply (FP lwothers); auto. intros o Ho. now apply HP.
  - rewrite FS. exact Hv.
  - exact (proj2 (FP (fun o => uno_issue o /\ lwothers o) HP) Hs).
  - exists N. intros M HM. destruct (FR M) as (k & Hk & Ek). specialize (HN k ltac:(lia)).
    unfold lwsys_run in HN. rewrite Ek in HN. unfold lwhsys_run. destruct (hu_run _ _ _ _ _ _ _ _ _) as [y l].
    cbv zeta in *. rewrite FS in HN. destruct HN as (N1 & N2 & N3 & N4 & _). auto 8.
Qed.
Print Assumptions C63_lite_write_completes.
Theorem C63_lite_read_completes : forall T (tr : T -> Z -> Z -> T * res (list Z)) L dA dR t0 h sched, 0 < L ->
  Forall lrothers (utasks h) -> Forall lite_read_legal (usubmitted (utasks h)) ->
  (forall m, Forall (fun o => uno_issue o /\ lrothers o) (utasks [sched m])) ->
  hu_fair (fun n => fst (lrhsys_run L (log_read tr) dA dR (t0, []) (h ++ first_steps sched n))) sched ->
  exists N, forall M, (N <= M)%nat -> let '(y, l) := lrhsys_run L (log_read tr) dA dR (t0, []) (h ++ first_steps sched M) in
    Permutation (map fst (completed l)) (usubmitted (utasks h)) /\
    (exists ex, Forall2 (lite_fetched L) (started l) ex /\ completed l = combine (started l) (map fst ex) /\
       snd (lrs_target (hu_s y)) = concat (map snd ex)) /\
    eng_is_idle (hu_m y) = true /\ g_idle (hu_m y) = true.
Proof.
  intros T tr L dA dR t0 h sched HL Hh Hv Hs Hf.
  destruct (uhalf_transport _ _ _ _ _ _ _ _ h sched Hf) as (h' & sched' & F & FS & FP & FR).
  assert (HP : forall o : uop (Z * lrcmd) (lrslv (T * list rcall)), uinternal o -> uno_issue o /\ lrothers o) by (intros o; destruct o; cbn; tauto).
  destruct (C59_lite_read_completes T tr L t0 h' sched' HL) as (N & HN); auto.
  - apply (FP lrothers); auto. intros o Ho. now apply HP.
  - rewrite FS. exact Hv.
  - exact (proj2 (FP (fun o => uno_issue o /\ lrothers o) HP) Hs).
  - exists N. intros M HM. destruct (FR M) as (k & Hk & Ek). specialize (HN k ltac:(lia)).
    unfold lrsys_run in HN. rewrite Ek in HN. unfold lrhsys_run. destruct (hu_run _ _ _ _ _ _ _ _ _) as [y l].
    cbv zeta in *. rewrite FS in HN. destruct HN as (N1 & N2 & N3 & N4 & _). auto 8.
Qed.
Print Assumptions C63_lite_read_completes.

Lemma lrw_transport {T} (tw : T -> Z -> list Z -> T * res unit) tr L dW dB dA dR t0 h sched :
  let run := hlrw_run L tw tr dW dB dA dR (hlrw_init t0) in
  hlx_fair (fun n => fst (run (h ++ first_steps sched n))) sched ->
  exists h' sched', fair lx_internal sched' /\ lx_wsubmitted h' = lx_wsubmitted (vtasks h) /\ lx_rsubmitted h' = lx_rsubmitted (vtasks h) /\
    (forall P : lxop _ _ -> Prop, (forall o, lx_internal o -> P o) -> (Forall P (vtasks h) -> Forall P h') /\ ((forall m, Forall P (vtasks [sched m])) -> forall m, P (sched' m))) /\
    forall n, exists k, (n <= k)%nat /\
      lrw_run L tw tr (lrw_init t0) (h' ++ first_steps sched' k) = (let '(z, l) := run (h ++ first_steps sched n) in (vabs z, l)).
Proof.
  intros run Hf. unfold run in *. clear run.
  pose proof (lrw_sims tw tr L dW dB dA dR h (hlrw_init t0) (vi_lrw t0)) as H1. unfold hlrw_run in *.
  destruct (hlx_run _ _ _ _ _ _ _ _ _ (hlrw_init t0) h) as [z1 l1] eqn:E1. destruct H1 as [I1 H1].
  set (ZST := vst L (log_write tw) (log_read tr) cp_w2r cp_r2w dW dB dA dR z1 sched).
  assert (Hf' : hlx_fair ZST sched).
  { assert (Est : forall t, fst (hlx_run L (log_write tw) (log_read tr) cp_w2r cp_r2w dW dB dA dR (hlrw_init t0) (h ++ first_steps sched t)) = ZST t).
    { intros t. rewrite hlxrun_app, E1. unfold ZST, vst. destruct (hlx_run _ _ _ _ _ _ _ _ _ z1 (first_steps sched t)). reflexivity. }
    destruct Hf as (F1 & F2 & F3 & F4). split; [exact F1|]. split; [exact F2|]. split; intros i; (eapply edges_ext; [|exact (F3 i) || exact (F4 i)]); intros t Ht; cbv beta in Ht; rewrite Est in Ht; exact Ht. }
  destruct (vclk_fair L (log_write tw) (log_read tr) cp_w2r cp_r2w dW dB dA dR cp1 cp2 cp3 cp4 z1 sched I1 Hf') as (sched' & F & FP & FR).
  exists (vsims L (log_write tw) (log_read tr) cp_w2r cp_r2w dW dB dA dR (hlrw_init t0) h), sched'.
  split; [exact F|]. split; [apply vsims_submitted|]. split; [apply vsims_submitted|]. split.
  - intros P HP. split; [intros Ht; now apply vsims_all|]. intros Hs. now apply FP.
  - intros n. destruct (FR n) as (k & Hk & Ek). exists k. split; [exact Hk|]. rewrite hlxrun_app, E1.
    change (lrw_init t0) with (vabs (hlrw_init t0)). unfold lrw_run in *. rewrite P_clkurw.lxrun_app, H1, Ek. unfold vst. destruct (hlx_run _ _ _ _ _ _ _ _ _ z1 (first_steps sched n)). reflexivity.
Qed.

(** Reads and writes together on an AxiLiteRam. *)
Theorem C63_lite_ram_completes : forall size L dW dB dA dR m0 h sched, 0 < size -> 0 < L -> size mod L = 0 -> sm_reachable size m0 -> Forall lx_nopoke (vtasks h) ->
  Forall lite_write_legal (lx_wsubmitted (vtasks h)) -> Forall lite_read_legal (lx_rsubmitted (vtasks h)) ->
  Forall (fun o => 0 <= lc_addr (snd o)) (lx_wsubmitted (vtasks h)) -> Forall (fun o => 0 <= lr_addr (snd o)) (lx_rsubmitted (vtasks h)) ->
  (forall m, Forall (fun o => lx_no_issue o /\ lx_nopoke o) (vtasks [sched m])) ->
  hlx_fair (fun n => fst (hlrw_run L ram_write ram_read dW dB dA dR (hlrw_init m0) (h ++ first_steps sched n))) sched ->
  exists N, forall M, (N <= M)%nat -> let '(z, l) := hlrw_run L ram_write ram_read dW dB dA dR (hlrw_init m0) (h ++ first_steps sched M) in
    Permutation (lwrites_of l) (lx_wsubmitted (vtasks h)) /\ Permutation (lreads_of l) (lx_rsubmitted (vtasks h)) /\
    map fst (completed (lw_outs l)) = lwrites_of l /\ map fst (completed (lr_outs l)) = lreads_of l /\
    Forall (fun d => lite_write_resp (snd d) = OKAY) (completed (lw_outs l)) /\
    Forall (fun d => snd (lite_read_resp L (snd (fst d)) (snd d)) = OKAY) (completed (lr_outs l)) /\
    peek (hlrw_target z) =f put (fun x => x mod size) (peek m0) (lite_op_bytes (lwrites_of l)) /\
    eng_is_idle (hu_m (hv_w z)) = true /\ eng_is_idle (hu_m (hv_r z)) = true.
Proof.
  intros size L dW dB dA dR m0 h sched Hs HL Hm Hr Hh HW HR HW0 HR0 Hsc Hf.
  destruct (lrw_transport _ _ _ _ _ _ _ _ h sched Hf) as (h' & sched' & F & FW & FD & FP & FR).
  assert (HP : forall o : lxop (sparse * list call) (sparse * list rcall), lx_internal o -> lx_no_issue o /\ lx_nopoke o) by (intros [o|o]; destruct o; cbn; tauto).
  destruct (C59_lite_ram_completes size L m0 h' sched' Hs HL Hm Hr) as (N & HN); auto; rewrite ?FW, ?FD; auto.
  - apply (FP lx_nopoke); auto. intros o Ho. now apply HP.
  - exact (proj2 (FP (fun o => lx_no_issue o /\ lx_nopoke o) HP) Hsc).
  - exists N. intros M HM. destruct (FR M) as (k & Hk & Ek). specialize (HN k ltac:(lia)). rewrite Ek in HN.
    destruct (hlrw_run _ _ _ _ _ _ _ _ _) as [z l]. cbv zeta in *. rewrite FW, FD in HN. exact HN.
Qed.
Print Assumptions C63_lite_ram_completes.

Theorem C63_lite_steady_is_fair : forall TW TR (st : nat -> hlxs TW TR) sched,
  (forall o, utask o -> forall n, exists m, (n <= m)%nat /\ sched m = QW (HUT o)) ->
  (forall o, utask o -> forall n, exists m, (n <= m)%nat /\ sched m = QR (HUT o)) ->
  (forall i n, exists m, (n <= m)%nat /\ sched m = QW (HUC i OEdge)) -> (forall i n, exists m, (n <= m)%nat /\ sched m = QR (HUC i OEdge)) ->
  (exists n0, forall t, (n0 <= t)%nat -> forall i, hucalm (hv_w (st t)) i /\ hucalm (hv_r (st t)) i) -> hlx_fair st sched.
Proof.
  intros TW TR st sched H1 H2 H3 H4 (n0 & H5). split; [exact H1|]. split; [exact H2|].
  split; intros i; (apply edges_steady; [exact (H3 i) || exact (H4 i)|]); exists n0; intros t Ht; now destruct (H5 t Ht i).
Qed.
Print Assumptions C63_lite_steady_is_fair.

Definition qno_pause {TW TR} (o : hlxop TW TR) : Prop := match o with QW o => uno_pause o | QR o => uno_pause o end.
Lemma lrw_calm {T} (tw : T -> Z -> list Z -> T * res unit) tr L dW dB dA dR z0 sched : vi cp_w2r cp_r2w z0 -> (forall i, hucalm (hv_w z0) i /\ hucalm (hv_r z0) i) -> (forall m, qno_pause (sched m)) ->
  forall t i, let z := fst (hlrw_run L tw tr dW dB dA dR z0 (first_steps sched t)) in hucalm (hv_w z) i /\ hucalm (hv_r z) i.
Proof.
  intros H0 C0 NP t. induction t as [|t IH]; [exact C0|]. unfold hlrw_run in *.
  pose proof (vst_S L (log_write tw) (log_read tr) cp_w2r cp_r2w dW dB dA dR z0 sched t) as Est.
  pose proof (vst_zi L (log_write tw) (log_read tr) cp_w2r cp_r2w dW dB dA dR cp1 cp2 cp3 cp4 z0 sched H0 t) as Q0. unfold vst in *. rewrite Est. clear Est.
  cbv zeta in *. set (st := fst (hlx_run _ _ _ _ _ _ _ _ _ z0 (first_steps sched t))) in *. clearbody st. specialize (NP t). destruct Q0 as (Iw & Ir & _).
  destruct (sched t) as [o|o]; cbn [hlx_step qno_pause] in *; unfold lwhsys_step, lrhsys_step in *.
  - pose proof (ucalm_step (lite_w_sends L) (lite_w_need L) lw_kind lws_act (lws_in (log_write tw) L true) dW dB _ _ Iw NP (fun i => proj1 (IH i))) as K.
    destruct (hu_step _ _ _ _ _ _ _ _ _) as [y l]. intros i. split; [exact (K i)|]. destruct (IH i) as [_ Q]. destruct i; exact Q.
  - pose proof (ucalm_step (lite_r_sends L) (lite_r_need L) lr_kind (lrs_act (log_read tr) L) lrs_in dA dR _ _ Ir NP (fun i => proj2 (IH i))) as K.
    destruct (hu_step _ _ _ _ _ _ _ _ _) as [y l]. intros i. split; [|exact (K i)]. destruct (IH i) as [Q _]. destruct i; exact Q.
Qed.
Lemma lrw_app {T} (tw : T -> Z -> list Z -> T * res unit) tr L dW dB dA dR z0 h1 h2 :
  fst (hlrw_run L tw tr dW dB dA dR z0 (h1 ++ h2)) = fst (hlrw_run L tw tr dW dB dA dR (fst (hlrw_run L tw tr dW dB dA dR z0 h1)) h2).
Proof. unfold hlrw_run. rewrite hlxrun_app. destruct (hlx_run _ _ _ _ _ _ _ _ _ z0 h1) as [z1 l1]. cbn [fst]. now destruct (hlx_run _ _ _ _ _ _ _ _ _ z1 h2). Qed.

(** ** examples: the operations of T_literw.v; the response sink of the write half and the address source of the read half are paused at first *)
Definition exl_hround {C S} : list (huop C S) :=
  [HUC ChA OEdge; HUC ChW OEdge; HUC ChB OEdge; HUT (UStart 0); HUT UGet; HUT USend; HUC ChA OSnk; HUC ChW OSnk; HUC ChW OSrc; HUT USlave; HUC ChB OSnk; HUC ChB OSrc;
   HUT URGet; HUT URecv; HUC ChB ORun].
Definition exl_hrounds (n : nat) : list (hlxop (sparse * list call) (sparse * list rcall)) := concat (repeat (map QW exl_hround ++ map QR exl_hround) n).
Definition exl_hpause (b : bool) : list (hlxop (sparse * list call) (sparse * list rcall)) := [QW (HUC ChB (OPauseK b)); QR (HUC ChA (OPauseS b))].
Definition exl_hh := map QW (map HUT (map UInit exl_ops)) ++ map QR (map HUT (map UInit exl_rops)) ++ exl_hpause true ++ exl_hrounds 5 ++ exl_hpause false.
Definition exl_hh1 (n : nat) := exl_hh ++ exl_hrounds n.
Definition exl_hh2 (n : nat) := map QR (map HUT (map UInit [exl_read 3 0 16])) ++ exl_hrounds n.
Definition exl_dA : lax := {| la_addr := 0; la_prot := 0 |}.
Definition exl_dR : lrd := {| lr_data := 0; lr_resp := OKAY |}.
Definition exl_hrun := hlrw_run 4 ram_write ram_read (LAW exl_dA) OKAY exl_dA exl_dR.
Definition exl_hrw (n m : nat) :=
  let '(z1, l1) := exl_hrun (hlrw_init (sm_init 16)) (exl_hh1 n) in let '(z, l2) := exl_hrun z1 (exl_hh2 m) in (z1, z, l1, l2).
Example C62_lite_nontrivial :
  let '(z1, z, l1, l2) := exl_hrw 30 24 in
  (exl_show l1, map (fun d => fst (fst d)) (completed (lw_outs l1)), exl_show l2) =
  ([(1, ([2; 3; 4; 5; 6; 7; 8; 9; 10; 11], OKAY)); (2, ([0; 1], OKAY))], [1; 2; 3],
   [(3, ([32; 33; 1; 2; 21; 22; 23; 6; 7; 8; 9; 10; 11; 0; 0; 31], OKAY))]).
Proof. vm_compute. reflexivity. Qed.
Definition exl_nopokeb {X Y} (o : lxop X Y) : bool := match o with VW (UPoke _) | VR (UPoke _) => false | _ => true end.
Lemma exl_nopokes {X Y} (l : list (lxop X Y)) : forallb exl_nopokeb l = true -> Forall lx_nopoke l.
Proof. rewrite forallb_forall, Forall_forall. intros H o Ho. specialize (H o Ho). destruct o as [o|o]; destruct o; cbn in *; auto; discriminate. Qed.
Example C62_lite_nontrivial_hyp : let '(z1, z, l1, l2) := exl_hrw 30 24 in
  Forall lite_write_legal (lwrites_of (l1 ++ l2)) /\ Forall lite_read_legal (lreads_of (l1 ++ l2)) /\
  Forall (fun o => 0 <= lc_addr (snd o)) (lwrites_of (l1 ++ l2)) /\ Forall (fun o => 0 <= lr_addr (snd o)) (lreads_of (l1 ++ l2)) /\
  Forall lx_nopoke (vtasks (exl_hh1 30 ++ exl_hh2 24)) /\ length (lreads_of l1) = 2%nat /\
  forall i p, nth_error (lwrites_of (l1 ++ l2)) i = Some p -> (i < length (completed (lw_outs l1)))%nat.
Proof.
  assert (E : let '(z1, z, l1, l2) := exl_hrw 30 24 in
    (lwrites_of (l1 ++ l2), lreads_of (l1 ++ l2), length (lreads_of l1), length (completed (lw_outs l1))) = (exl_ops, exl_rops ++ [exl_read 3 0 16], 2%nat, 3%nat)) by (vm_compute; reflexivity).
  destruct (exl_hrw 30 24) as [[[z1 z] l1] l2]. injection E as E1 E2 E3 E4. rewrite E1, E2, E4. clear E1 E2 E4.
  split; [repeat constructor; cbn; lia|]. split; [unfold exl_rops, lite_read_legal; cbn [app]; repeat (apply Forall_cons; [cbn; lia|]); apply Forall_nil|].
  split; [cbn; repeat (apply Forall_cons; [cbn; lia|]); apply Forall_nil|]. split; [cbn; repeat (apply Forall_cons; [cbn; lia|]); apply Forall_nil|].
  split; [apply exl_nopokes; vm_compute; reflexivity|]. split; [exact E3|].
  intros i p Hp. assert (Hne : nth_error exl_ops i <> None) by congruence. apply nth_error_Some in Hne. exact Hne.
Qed.

(** a fair clocked schedule: the one of T_literwlive.v with clock edges and passes for the steps of the channels *)
Definition exl_conv {C S} (o : uop C S) : huop C S :=
  match o with
  | ULoad k => HUC (if k then ChA else ChW) OEdge | UXfer k => HUC (if k then ChA else ChW) OSrc
  | ULoadB => HUC ChB OEdge | UXferB => HUC ChB OSnk
  | o => HUT o
  end.
Definition exl_hfair (m : nat) : hlxop (sparse * list call) (sparse * list rcall) := match exl_afair m with VW o => QW (exl_conv o) | VR o => QR (exl_conv o) end.
Lemma exl_hfair_np m : qno_pause (exl_hfair m).
Proof. unfold exl_hfair. destruct (exl_afair m) as [o|o]; destruct o; exact I. Qed.
Lemma exl_z0_vi : vi cp_w2r cp_r2w (fst (hlrw_run 4 ram_write ram_read (LAW exl_dA) OKAY exl_dA exl_dR (hlrw_init (sm_init 16)) exl_hh)).
Proof. pose proof (lrw_sims ram_write ram_read 4 (LAW exl_dA) OKAY exl_dA exl_dR exl_hh (hlrw_init (sm_init 16)) (vi_lrw _)) as H. destruct (hlrw_run _ _ _ _ _ _ _ _ _). apply H. Qed.
Lemma exl_z0_calm i : let z := fst (hlrw_run 4 ram_write ram_read (LAW exl_dA) OKAY exl_dA exl_dR (hlrw_init (sm_init 16)) exl_hh) in hucalm (hv_w z) i /\ hucalm (hv_r z) i.
Proof. destruct i; vm_compute; repeat split. Qed.
Example C63_lite_nontrivial_hyp : Forall lx_nopoke (vtasks exl_hh) /\ Forall lite_write_legal (lx_wsubmitted (vtasks exl_hh)) /\ Forall lite_read_legal (lx_rsubmitted (vtasks exl_hh)) /\
  Forall (fun o => 0 <= lc_addr (snd o)) (lx_wsubmitted (vtasks exl_hh)) /\ Forall (fun o => 0 <= lr_addr (snd o)) (lx_rsubmitted (vtasks exl_hh)) /\
  (forall m, Forall (fun o => lx_no_issue o /\ lx_nopoke o) (vtasks [exl_hfair m])) /\
  hlx_fair (fun n => fst (exl_hrun (hlrw_init (sm_init 16)) (exl_hh ++ first_steps exl_hfair n))) exl_hfair.
Proof.
  destruct C59_nontrivial_rw_hyp as (_ & HW & HR & HW0 & HR0 & Hok & Hfair).
  split; [apply exl_nopokes; vm_compute; reflexivity|]. split; [exact HW|]. split; [exact HR|]. split; [exact HW0|]. split; [exact HR0|]. split.
  - intros m. unfold exl_hfair. specialize (Hok m). destruct (exl_afair m) as [o|o]; destruct o; repeat constructor; apply Hok.
  - assert (F : forall o, lx_internal o -> forall n, exists m, (n <= m)%nat /\ exl_hfair m = match o with VW o => QW (exl_conv o) | VR o => QR (exl_conv o) end).
    { intros o Ho n. destruct (Hfair o Ho n) as (m & Hm & Em). exists m. split; [exact Hm|]. unfold exl_hfair. now rewrite Em. }
    apply C63_lite_steady_is_fair.
    + intros o Ho n. assert (Hi : uinternal o) by (destruct o; cbn in *; tauto). destruct (F (VW o) Hi n) as (m & Hm & Em). exists m. split; [exact Hm|]. rewrite Em. destruct o; cbn in *; tauto.
    + intros o Ho n. assert (Hi : uinternal o) by (destruct o; cbn in *; tauto). destruct (F (VR o) Hi n) as (m & Hm & Em). exists m. split; [exact Hm|]. rewrite Em. destruct o; cbn in *; tauto.
    + intros i n. destruct i; [exact (F (VW (ULoad true)) I n)|exact (F (VW (ULoad false)) I n)|exact (F (VW ULoadB) I n)].
    + intros i n. destruct i; [exact (F (VR (ULoad true)) I n)|exact (F (VR (ULoad false)) I n)|exact (F (VR ULoadB) I n)].
    + exists 0%nat. intros t _ i. unfold exl_hrun. rewrite lrw_app. exact (lrw_calm _ _ _ _ _ _ _ _ _ exl_z0_vi exl_z0_calm exl_hfair_np t i).
Qed.
Example C63_lite_nontrivial :
  let '(z, l) := exl_hrun (hlrw_init (sm_init 16)) (exl_hh ++ first_steps exl_hfair 1500) in
  (map (fun d => fst (fst d)) (completed (lw_outs l)), exl_show l, eng_is_idle (hu_m (hv_w z)), eng_is_idle (hu_m (hv_r z)), map (peek (hlrw_target z)) (zrange 0 16)) =
  ([1; 2; 3], [(1, ([2; 3; 4; 5; 6; 7; 8; 9; 10; 11], OKAY)); (2, ([0; 1], OKAY))], true, true, [32; 33; 1; 2; 21; 22; 23; 6; 7; 8; 9; 10; 11; 0; 0; 31]).
Proof. vm_compute. reflexivity. Qed.
