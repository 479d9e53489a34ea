(** C64 for AxiLiteMaster connected to AxiLiteSlave / AxiLiteRam: a reset at any moment. *)
From Coq Require Import ZArith Lia List Bool Permutation.
From Coq Require Import ZifyBool ZifyNat.
From Verif Require Import Py S_flat M_sparse S_sparse P_sparse M_memory P_memory M_axi S_axi P_axiram M_axil M_liteeng S_liteeng P_liteeng M_axieng M_sys S_sys M_axisys S_axisys P_sysram
  M_litesys S_litesys P_litesys T_litesys M_literw S_literw P_literw T_sysram T_literw S_live P_fair P_ulive T_litelive T_literwlive T_liteeng
  M_stream M_cchan P_cchan M_clk S_clk P_cchanlive P_clk P_clku P_clkrw P_clkurw P_flat P_clklive P_clkulive P_clkfair P_clkufair T_clk T_clklite M_rst S_rst P_rst P_rstans P_rsttgt.
Import ListNotations.
Open Scope Z_scope.

Lemma anew_sync {T} (a : T * list call) (b : T * list rcall) : cp_w2r a b = b -> cp_r2w b a = a -> cp_w2r (anew a) (anew b) = anew b /\ cp_r2w (anew b) (anew a) = anew a.
Proof. destruct a as [t l], b as [t' l']. unfold cp_w2r, cp_r2w, anew. cbn. intros H1 H2. injection H1 as H1. now rewrite H1. Qed.
Lemma vri_rw {T} (tw : T -> Z -> list Z -> T * res unit) tr L dW dB dA dR t0 h : vri cp_w2r cp_r2w (fst (vrw_run L tw tr dW dB dA dR (vrw_init t0) h)).
Proof. apply (vri_run L (log_write tw) (log_read tr) cp_w2r cp_r2w anew anew dW dB dA dR cp1 cp2 cp3 cp4 anew_sync). now apply vri_init. Qed.
Lemma others_pk {T} (o : lxop (T * list call) (T * list rcall)) : lx_others o -> lx_pk o.
Proof.
  destruct o as [o|o]; destruct o; cbn; auto; intros (g & ->) s; destruct s; cbn; lia.
Qed.

(** ** the reset *)
(** As long as reset is asserted, nothing is on the wires and nothing is queued on a channel. *)
Theorem C64_lite_silent : forall T (tw : T -> Z -> list Z -> T * res unit) tr L dW dB dA dR t0 h,
  let '(x, l) := vrw_run L tw tr dW dB dA dR (vrw_init t0) h in
  snd x = true -> hu_silent (hv_w (fst x)) /\ hu_silent (hv_r (fst x)).
Proof.
  intros T tw tr L dW dB dA dR t0 h. pose proof (vri_rw tw tr L dW dB dA dR t0 h) as H. destruct (vrw_run _ _ _ _ _ _ _ _ _) as [[z on] l]. cbn [fst snd] in *. intros ->.
  destruct H as [_ [(_ & A1 & A2 & A3) (_ & B1 & B2 & B3)]].
  assert (K : forall A (c : cchan A), cdead c -> cc_silent c) by (intros A c []; repeat split; auto).
  split; (split; [auto|split; auto]).
Qed.
Print Assumptions C64_lite_silent.

(** When reset is asserted the target is left as it is, and every operation that was ever started has completed, with its responses or with None: exactly once with responses, and not both. *)
Theorem C64_lite_reset : forall T (tw : T -> Z -> list Z -> T * res unit) tr L dW dB dA dR t0 h, 0 < L -> Forall lx_others (vrtasks h) ->
  let '(x0, l0) := vrw_run L tw tr dW dB dA dR (vrw_init t0) h in
  let '(x, l1) := vrw_run L tw tr dW dB dA dR x0 [VReset true] in
  let l := l0 ++ l1 in
  snd x0 = false ->
  snd x = true /\ vrw_target x = vrw_target x0 /\ fst (lrs_target (hu_s (hv_r (fst x)))) = vrw_target x0 /\
  completed (lw_outs l1) = [] /\ completed (lr_outs l1) = [] /\ v_inits x = v_inits x0 /\
  (Forall (fun o => are_bytes (lc_data (snd o))) (lwrites_of l) -> NoDup (lwrites_of l) -> finished_once (hu_m (hv_w (fst x))) (lw_outs l) true) /\
  (Forall (fun o => 0 <= lr_len (snd o)) (lreads_of l) -> NoDup (lreads_of l) -> finished_once (hu_m (hv_r (fst x))) (lr_outs l) true).
Proof.
  intros T tw tr L dW dB dA dR t0 h HL Hh.
  pose proof (vri_rw tw tr L dW dB dA dR t0 h) as I0.
  pose proof (winv_run L (log_write tw) (log_read tr) cp_w2r cp_r2w anew anew dW dB dA dR cp1 cp2 cp3 cp4 anew_sync (h ++ [VReset true]) (vrw_init t0) []) as HW.
  assert (Hp : Forall lx_pk (vrtasks (h ++ [@VReset (T * list call) (T * list rcall) true]))).
  { unfold vrtasks. rewrite flat_map_app. apply Forall_app. split; [|constructor]. eapply Forall_impl; [|exact Hh]. intros o. apply others_pk. }
  specialize (HW Hp (winv_init cp_w2r cp_r2w (t0, []) (t0, []) eq_refl eq_refl)).
  pose proof (vr_run_m L (log_write tw) (log_read tr) cp_w2r cp_r2w anew anew dW dB dA dR h (vrw_init t0)) as HM.
  unfold vrw_run in *. rewrite vrrun_app in HW. destruct (vr_run _ _ _ _ _ _ _ _ _ _ _ (vrw_init t0) h) as [[z on] l0].
  destruct HM as [(gw & Gw) (gr & Gr)]. cbn [fst snd] in *.
  destruct on. { destruct (vr_run _ _ _ _ _ _ _ _ _ _ _ _ [VReset true]). discriminate. }
  pose proof (vr_rst L (log_write tw) (log_read tr) cp_w2r cp_r2w anew anew dW dB dA dR cp1 cp2 cp3 cp4 anew_sync z I0) as HR.
  cbn [vr_run] in *. destruct (vr_step _ _ _ _ _ _ _ _ _ _ _ (z, false) (VReset true)) as [x o1] eqn:Ex.
  rewrite app_nil_r in *. cbn [app] in HW. destruct HR as (_ & HR2 & HR3 & _). destruct HW as (_ & _ & _ & Aw & Ar). intros _.
  cbn [vr_step Bool.eqb] in Ex. unfold hu_rst in Ex.
  destruct (eng_step (lite_w_sends L) (lite_w_need L) (hu_m (hv_w z)) (GReset true)) as [mw ow] eqn:Ew.
  destruct (eng_step (lite_r_sends L) (lite_r_need L) (hu_m (hv_r z)) (GReset true)) as [mr or] eqn:Er.
  injection Ex as <- <-. rewrite !wouts_app, !routs_app in *. rewrite (proj1 (wouts_inl ow)), (proj2 (wouts_inl ow)), (proj1 (wouts_inr or)), (proj2 (wouts_inr or)), !app_nil_r in *. cbn [app] in *.
  split; [reflexivity|]. split; [reflexivity|]. split; [destruct I0 as [(S1 & S2) _]; cbn in S1, S2; unfold cp_w2r in S1; unfold vrw_target, hlrw_target; cbn; rewrite <- S1; reflexivity|].
  assert (CN : forall (Cc Ee Rr : Type) (cs : list Cc), completed (map (fun c => ODone c None) cs ++ [OReset] : list (gout Cc Ee Rr)) = []) by (intros; induction cs; cbn; auto).
  split; [cbn in Ew; injection Ew as _ <-; apply CN|]. split; [cbn in Er; injection Er as _ <-; apply CN|]. split; [exact HR3|].
  split; unfold lwrites_of, lreads_of; rewrite ?wouts_app, ?routs_app, ?(wouts_app (map inl _)), ?(routs_app (map inl _)), ?(proj1 (wouts_inl ow)), ?(proj2 (wouts_inl ow)), ?(proj1 (wouts_inr or)), ?(proj2 (wouts_inr or)), ?app_nil_r; cbn [app]; intros Hv Hn.
  - pose proof (C32_lite_write_reset L (gw ++ [GReset true]) HL) as K. unfold lite_w_run in K. rewrite run_app in K. unfold vrw_init, hlrw_init, hlx_init, husys_init in Gw. cbn [fst hv_w hu_m] in Gw. rewrite Gw in K.
    cbn [eng_run] in K. rewrite Ew in K. rewrite app_nil_r in K. specialize (K Aw Hv Hn). unfold ends_in_reset in K. rewrite rev_app_distr in K. exact K.
  - pose proof (C32_lite_read_reset L (gr ++ [GReset true]) HL) as K. unfold lite_r_run in K. rewrite run_app in K. unfold vrw_init, hlrw_init, hlx_init, husys_init in Gr. cbn [fst hv_r hu_m] in Gr. rewrite Gr in K.
    cbn [eng_run] in K. rewrite Er in K. rewrite app_nil_r in K. specialize (K Ar Hv Hn). unfold ends_in_reset in K. rewrite rev_app_distr in K. exact K.
Qed.
Print Assumptions C64_lite_reset.

(** ** after the reset the system does nothing that a fresh one on the same target cannot do *)
Lemma rst_reach {T} (tw : T -> Z -> list Z -> T * res unit) tr L dW dB dA dR t0 h1 h2 : Forall v_calm h2 ->
  let '(x1, l1) := vrw_run L tw tr dW dB dA dR (vrw_init t0) h1 in
  snd x1 = false ->
  let '(x2, l2) := vrw_run L tw tr dW dB dA dR x1 [VReset true] in
  let '(x, l) := vrw_run L tw tr dW dB dA dR x2 h2 in
  vri cp_w2r cp_r2w x2 /\ vri cp_w2r cp_r2w x /\ lrw_run L tw tr (lrw_init (vrw_target x1)) (v_inits x1) = (vrabs x2, []) /\
  lrw_run L tw tr (lrw_init (vrw_target x1)) (v_inits x1 ++ vrsims L (log_write tw) (log_read tr) cp_w2r cp_r2w anew anew dW dB dA dR x2 h2) = (vrabs x, l).
Proof.
  intros Hc. pose proof (vri_rw tw tr L dW dB dA dR t0 h1) as I0.
  destruct (vrw_run L tw tr dW dB dA dR (vrw_init t0) h1) as [[z on] l1]. cbn [fst snd] in *. intros ->.
  pose proof (vr_rst L (log_write tw) (log_read tr) cp_w2r cp_r2w anew anew dW dB dA dR cp1 cp2 cp3 cp4 anew_sync z I0) as HR.
  unfold vrw_run in *. cbn [vr_run] in *. destruct (vr_step _ _ _ _ _ _ _ _ _ _ _ (z, false) (VReset true)) as [x2 o2].
  destruct HR as (I2 & _ & _ & HR). pose proof (vr_sims L (log_write tw) (log_read tr) cp_w2r cp_r2w anew anew dW dB dA dR cp1 cp2 cp3 cp4 h2 x2 I2 Hc) as HS.
  destruct (vr_run _ _ _ _ _ _ _ _ _ _ _ x2 h2) as [x l]. destruct HS as [I3 HS].
  assert (E0 : lrw_init (vrw_target (z, false)) = lx_init (anew (lws_target (hu_s (hv_w z)))) (anew (lrs_target (hu_s (hv_r z))))).
  { destruct I0 as [(S1 & S2) _]. cbn in S1, S2. unfold lrw_init. f_equal. unfold anew. rewrite <- S1. reflexivity. }
  rewrite E0. split; [exact I2|]. split; [exact I3|]. split; [exact HR|]. unfold lrw_run in *. rewrite P_clkurw.lxrun_app, HR, HS. reflexivity.
Qed.
Lemma inits_submitted {T} (x1 : vrsys (T * list call) (T * list rcall)) : lx_wsubmitted (v_inits x1) = v_wpend x1 /\ lx_rsubmitted (v_inits x1) = v_rpend x1.
Proof.
  unfold v_inits. rewrite usub_w_app, usub_r_app. destruct (sub_w_map (TR := T * list rcall) (map (@UInit _ (lwslv (T * list call))) (v_wpend x1))) as [-> ->].
  destruct (sub_r_map (TW := T * list call) (map (@UInit _ (lrslv (T * list rcall))) (v_rpend x1))) as [-> ->].
  assert (K : forall C S (l : list C), usubmitted (map (@UInit C S) l) = l) by (intros C0 S0 l0; induction l0 as [|c0 l0 IH]; [reflexivity|]; cbn; f_equal; exact IH). rewrite !K, app_nil_r. auto.
Qed.
Theorem C64_lite_refines : forall T (tw : T -> Z -> list Z -> T * res unit) tr L dW dB dA dR t0 h1 h2, Forall v_calm h2 ->
  let '(x1, l1) := vrw_run L tw tr dW dB dA dR (vrw_init t0) h1 in
  snd x1 = false ->
  let '(x2, l2) := vrw_run L tw tr dW dB dA dR x1 [VReset true] in
  let '(x, l) := vrw_run L tw tr dW dB dA dR x2 h2 in
  exists h', let '(z', l') := lrw_run L tw tr (lrw_init (vrw_target x1)) h' in
    l' = l /\ u_s (v_w z') = hu_s (hv_w (fst x)) /\ u_s (v_r z') = hu_s (hv_r (fst x)) /\
    eng_is_idle (u_m (v_w z')) = eng_is_idle (hu_m (hv_w (fst x))) /\ eng_is_idle (u_m (v_r z')) = eng_is_idle (hu_m (hv_r (fst x))) /\
    (snd x = false -> u_m (v_w z') = hu_m (hv_w (fst x)) /\ u_m (v_r z') = hu_m (hv_r (fst x))) /\
    lx_wsubmitted h' = v_wpend x1 ++ lx_wsubmitted (vrtasks h2) /\ lx_rsubmitted h' = v_rpend x1 ++ lx_rsubmitted (vrtasks h2) /\
    forall P : lxop _ _ -> Prop, (forall o, lx_internal o -> P o) -> Forall P (v_inits x1 ++ vrtasks h2) -> Forall P h'.
Proof.
  intros T tw tr L dW dB dA dR t0 h1 h2 Hc. pose proof (rst_reach tw tr L dW dB dA dR t0 h1 h2 Hc) as H.
  destruct (vrw_run L tw tr dW dB dA dR (vrw_init t0) h1) as [x1 l1]. intros E1. specialize (H E1).
  destruct (vrw_run L tw tr dW dB dA dR x1 [VReset true]) as [x2 l2]. destruct (vrw_run L tw tr dW dB dA dR x2 h2) as [x l]. destruct H as (_ & _ & _ & H).
  eexists. rewrite H. split; [reflexivity|]. destruct x as [z on]. cbn [vrabs fst snd].
  split; [destruct on; reflexivity|]. split; [destruct on; reflexivity|]. split; [destruct on; reflexivity|]. split; [destruct on; reflexivity|].
  split; [intros ->; auto|].
  pose proof (inits_submitted x1) as SI.
  destruct SI as [SI1 SI2]. rewrite !usub_w_app, !usub_r_app, SI1, SI2.
  destruct (vrsims_submitted L (log_write tw) (log_read tr) cp_w2r cp_r2w anew anew dW dB dA dR h2 x2) as [-> ->].
  split; [reflexivity|]. split; [reflexivity|]. intros P HP Ht. apply Forall_app in Ht. destruct Ht as [Ht1 Ht2]. apply Forall_app. split; [exact Ht1|]. now apply vrsims_all.
Qed.
Print Assumptions C64_lite_refines.

(** For example on an AxiLiteRam: what is written after the reset is read, on top of what the memory held at the reset (C58_ram_read_after_write). *)
Theorem C64_lite_ram_read_after_write : forall size L dW dB dA dR m0 h0 h1 h2, 0 < size -> 0 < L -> size mod L = 0 -> sm_reachable size m0 ->
  Forall lx_nopoke (vrtasks (h0 ++ h1 ++ h2)) -> Forall v_calm h1 -> Forall v_calm h2 ->
  let run := vrw_run L ram_write ram_read dW dB dA dR in
  let '(x0, l0) := run (vrw_init m0) h0 in
  snd x0 = false ->
  let '(xr, lr) := run x0 [VReset true] in
  let '(x1, l1) := run xr h1 in
  let '(x, l2) := run x1 h2 in
  let l := l1 ++ l2 in let W := lwrites_of l in let R := lreads_of l in
  Forall lite_write_legal W -> Forall lite_read_legal R -> Forall (fun o => 0 <= lc_addr (snd o)) W -> Forall (fun o => 0 <= lr_addr (snd o)) R ->
  forall j o rs, nth_error (completed (lr_outs l)) j = Some (o, rs) -> (length (lreads_of l1) <= j)%nat ->
    (forall i p, nth_error W i = Some p -> (i < length (completed (lw_outs l1)))%nat \/ ~ ltouches (fun x => x mod size) p o) ->
    lite_read_resp L (snd o) rs = (map (fun x => put (fun x => x mod size) (peek (vrw_target x0)) (lite_op_bytes W) (x mod size)) (zrange (lr_addr (snd o)) (lr_addr (snd o) + lr_len (snd o))), OKAY).
Proof.
  intros size L dW dB dA dR m0 h0 h1 h2 Hs HL Hm Hr Hh Hc1 Hc2. cbv zeta.
  unfold vrtasks in Hh. rewrite !flat_map_app in Hh. apply Forall_app in Hh. destruct Hh as [Hh0 Hh]. apply Forall_app in Hh. destruct Hh as [Hh1 Hh2].
  pose proof (vram_reach size L dW dB dA dR m0 h0 Hr Hh0) as Hr0.
  pose proof (rst_reach ram_write ram_read L dW dB dA dR m0 h0 h1 Hc1) as H.
  destruct (vrw_run L ram_write ram_read dW dB dA dR (vrw_init m0) h0) as [x0 l0]. intros E0. specialize (H E0). cbn [fst] in Hr0.
  destruct (vrw_run L ram_write ram_read dW dB dA dR x0 [VReset true]) as [xr lr]. 
  destruct (vrw_run L ram_write ram_read dW dB dA dR xr h1) as [x1 l1]. destruct H as (Ir & I1 & _ & H).
  pose proof (vr_sims L (log_write ram_write) (log_read ram_read) cp_w2r cp_r2w anew anew dW dB dA dR cp1 cp2 cp3 cp4 h2 x1 I1 Hc2) as H2. unfold vrw_run in *.
  destruct (vr_run _ _ _ _ _ _ _ _ _ _ _ x1 h2) as [x l2]. destruct H2 as [_ H2].
  assert (HP : forall o : lxop (sparse * list call) (sparse * list rcall), lx_internal o -> lx_nopoke o) by (intros [o|o]; destruct o; cbn; tauto).
  set (s1 := v_inits x0 ++ vrsims L (log_write ram_write) (log_read ram_read) cp_w2r cp_r2w anew anew dW dB dA dR xr h1) in *.
  set (s2 := vrsims L (log_write ram_write) (log_read ram_read) cp_w2r cp_r2w anew anew dW dB dA dR x1 h2) in *.
  assert (Hall : Forall lx_nopoke (s1 ++ s2)).
  { apply Forall_app. split; [apply Forall_app; split|]; try (apply vrsims_all; assumption).
    unfold v_inits. apply Forall_app. split; rewrite !Forall_map; apply Forall_forall; intros; exact I. }
  pose proof (C58_ram_read_after_write size L (vrw_target x0) s1 s2 Hs HL Hm Hr0 Hall) as K. rewrite H in K. unfold lrw_run in K. rewrite H2 in K. exact K.
Qed.
Print Assumptions C64_lite_ram_read_after_write.

(** ** completion: once reset is released, every operation completes under fair schedules (as C63) *)
Theorem C64_lite_ram_completes : forall size L dW dB dA dR m0 h0 h1 sched, 0 < size -> 0 < L -> size mod L = 0 -> sm_reachable size m0 ->
  Forall lx_nopoke (vrtasks (h0 ++ h1)) -> Forall v_calm h1 ->
  let run := vrw_run L ram_write ram_read dW dB dA dR in
  let '(x0, l0) := run (vrw_init m0) h0 in
  snd x0 = false ->
  let '(xr, lr) := run x0 [VReset true] in
  let '(x1, l1) := run xr h1 in
  snd x1 = false ->
  let SW := v_wpend x0 ++ lx_wsubmitted (vrtasks h1) in let SR := v_rpend x0 ++ lx_rsubmitted (vrtasks h1) in
  Forall lite_write_legal SW -> Forall lite_read_legal SR -> Forall (fun o => 0 <= lc_addr (snd o)) SW -> Forall (fun o => 0 <= lr_addr (snd o)) SR ->
  (forall m, Forall (fun o => lx_no_issue o /\ lx_nopoke o) (vtasks [sched m])) ->
  hlx_fair (fun n => fst (fst (run x1 (map VO (first_steps sched n))))) sched ->
  exists N, forall M, (N <= M)%nat -> let '(x, l2) := run x1 (map VO (first_steps sched M)) in
    let l := l1 ++ l2 in
    Permutation (lwrites_of l) SW /\ Permutation (lreads_of l) SR /\
    map fst (completed (lw_outs l)) = lwrites_of l /\ map fst (completed (lr_outs l)) = lreads_of l /\
    Forall (fun d => lite_write_resp (snd d) = OKAY) (completed (lw_outs l)) /\
    Forall (fun d => snd (lite_read_resp L (snd (fst d)) (snd d)) = OKAY) (completed (lr_outs l)) /\
    peek (vrw_target x) =f put (fun x => x mod size) (peek (vrw_target x0)) (lite_op_bytes (lwrites_of l)) /\
    eng_is_idle (hu_m (hv_w (fst x))) = true /\ eng_is_idle (hu_m (hv_r (fst x))) = true.
Proof.
  intros size L dW dB dA dR m0 h0 h1 sched Hs HL Hm Hr Hh Hc. cbv zeta.
  unfold vrtasks in Hh. rewrite flat_map_app in Hh. apply Forall_app in Hh. destruct Hh as [Hh0 Hh1].
  pose proof (vram_reach size L dW dB dA dR m0 h0 Hr Hh0) as Hr0.
  pose proof (C64_lite_refines sparse ram_write ram_read L dW dB dA dR m0 h0 h1 Hc) as HS.
  pose proof (rst_reach ram_write ram_read L dW dB dA dR m0 h0 h1 Hc) as HI.
  destruct (vrw_run L ram_write ram_read dW dB dA dR (vrw_init m0) h0) as [x0 l0]. intros E0. specialize (HS E0). specialize (HI E0). cbn [fst] in Hr0.
  destruct (vrw_run L ram_write ram_read dW dB dA dR x0 [VReset true]) as [xr lr].
  destruct (vrw_run L ram_write ram_read dW dB dA dR xr h1) as [[z1 on] l1]. cbn [fst snd] in *. intros -> HW HR HW0 HR0 Hsc Hf.
  destruct HI as (_ & I1 & _ & HI).
  assert (Er : forall hh, vrw_run L ram_write ram_read dW dB dA dR (z1, false) (map VO hh) = let '(z, l) := hlx_run L (log_write ram_write) (log_read ram_read) cp_w2r cp_r2w dW dB dA dR z1 hh in ((z, false), l)).
  { intros hh. unfold vrw_run. clear. revert z1. induction hh as [|o hh IH]; intros z1; [reflexivity|]. cbn [map vr_run vr_step andb hlx_run].
    destruct (hlx_step _ _ _ _ _ _ _ _ _ z1 o) as [z2 o2]. rewrite IH. destruct (hlx_run _ _ _ _ _ _ _ _ _ z2 hh). reflexivity. }
  assert (Iv : vi cp_w2r cp_r2w z1) by (destruct I1 as [K1 [K2 K3]]; split; [exact K2|split; [exact K3|exact K1]]).
  assert (Hf' : hlx_fair (vst L (log_write ram_write) (log_read ram_read) cp_w2r cp_r2w dW dB dA dR z1 sched) sched).
  { destruct Hf as (F1 & F2 & F3 & F4). split; [exact F1|]. split; [exact F2|].
    split; intros i; (eapply edges_ext; [|exact (F3 i) || exact (F4 i)]); intros t Ht; cbv beta in Ht; rewrite Er in Ht; unfold vst;
      destruct (hlx_run _ _ _ _ _ _ _ _ _ z1 (first_steps sched t)); exact Ht. }
  destruct (vclk_fair L (log_write ram_write) (log_read ram_read) cp_w2r cp_r2w dW dB dA dR cp1 cp2 cp3 cp4 z1 sched Iv Hf') as (sched' & F & FP & FR).
  assert (HP : forall o : lxop (sparse * list call) (sparse * list rcall), lx_internal o -> lx_no_issue o /\ lx_nopoke o) by (intros [o|o]; destruct o; cbn; tauto).
  set (s1 := v_inits x0 ++ vrsims L (log_write ram_write) (log_read ram_read) cp_w2r cp_r2w anew anew dW dB dA dR xr h1) in *.
  assert (SW : lx_wsubmitted s1 = v_wpend x0 ++ lx_wsubmitted (vrtasks h1) /\ lx_rsubmitted s1 = v_rpend x0 ++ lx_rsubmitted (vrtasks h1)).
  { unfold s1. rewrite !usub_w_app, !usub_r_app. destruct (vrsims_submitted L (log_write ram_write) (log_read ram_read) cp_w2r cp_r2w anew anew dW dB dA dR h1 xr) as [-> ->].
    destruct (inits_submitted x0) as [-> ->]. auto. }
  destruct SW as [SW SR].
  destruct (C59_lite_ram_completes size L (vrw_target x0) s1 sched' Hs HL Hm Hr0) as (N & HN); auto; rewrite ?SW, ?SR; auto.
  - apply Forall_app. split; [|apply vrsims_all; [intros o Ho; now apply HP|exact Hh1]].
    unfold v_inits. apply Forall_app. split; rewrite !Forall_map; apply Forall_forall; intros; exact I.
  - exact (FP (fun o => lx_no_issue o /\ lx_nopoke o) HP Hsc).
  - exists N. intros M HM. destruct (FR M) as (k & Hk & Ek). specialize (HN k ltac:(lia)). rewrite Er. unfold lrw_run in HN. rewrite P_clkurw.lxrun_app in HN. unfold lrw_run in HI. rewrite HI in HN. cbn [vrabs] in HN. rewrite Ek in HN.
    unfold vst in HN. destruct (hlx_run _ _ _ _ _ _ _ _ _ z1 (first_steps sched M)) as [z l2]. cbn [fst snd] in HN. cbv zeta in HN. rewrite SW, SR in HN. exact HN.
Qed.
Print Assumptions C64_lite_ram_completes.

(** ** examples: the operations of T_clklite.v; the reset comes when one write and one read have completed and write 2 has reached the memory but is not answered; write 4 and read 4 are called during
    reset *)
Definition exl_vops := map (@VO (sparse * list call) (sparse * list rcall)).
Definition exl_vrun := vrw_run 4 ram_write ram_read (LAW exl_dA) OKAY exl_dA exl_dR.
Definition exl_v0 := exl_vops (map QW (map HUT (map UInit exl_ops)) ++ map QR (map HUT (map UInit exl_rops)) ++ exl_hrounds 17) ++
  [VO (QW (HUT (UInit (5, {| lc_addr := 12; lc_data := [51]; lc_prot := 2 |}))))].
Definition exl_v1 := VO (QW (HUT (UIssue (4, {| lc_addr := 7; lc_data := [41; 42]; lc_prot := 2 |})))) :: VO (QR (HUT (UIssue (exl_read 4 6 4)))) :: exl_vops (exl_hrounds 1) ++ [VReset false].
Definition exl_v2 (n : nat) := exl_vops (exl_hrounds n).
Definition exl_v3 (n : nat) := exl_vops (map QR (map HUT (map UInit [exl_read 3 0 16])) ++ exl_hrounds n).
Example C64_lite_nontrivial :
  let '(x0, l0) := exl_vrun (vrw_init (sm_init 16)) exl_v0 in
  let '(xr, lr) := exl_vrun x0 [VReset true] in
  let '(x1, l1) := exl_vrun xr (exl_v1 ++ exl_v2 14) in
  let '(x, l2) := exl_vrun x1 (exl_v3 20) in
  (snd x0, map (fun d => fst (fst d)) (completed (lw_outs l0)), exl_show l0, map (peek (vrw_target x0)) (zrange 0 16), map fst (v_wpend x0)) =
    (false, [1], [(1, ([0; 0; 0; 0; 0; 0; 0; 0; 0; 0], OKAY))], [0; 0; 1; 2; 21; 22; 23; 6; 7; 8; 9; 10; 11; 0; 0; 0], [5]) /\
  (map fst (flushed (lw_outs lr)), map fst (flushed (lr_outs lr)), map (peek (vrw_target xr)) (zrange 0 16)) = ([3; 2], [2], [0; 0; 1; 2; 21; 22; 23; 6; 7; 8; 9; 10; 11; 0; 0; 0]) /\
  (map (fun d => fst (fst d)) (completed (lw_outs l1)), exl_show l1, exl_show l2) =
    ([4; 5], [(4, ([23; 6; 7; 8], OKAY))], [(3, ([0; 0; 1; 2; 21; 22; 23; 41; 42; 8; 9; 10; 51; 0; 0; 0], OKAY))]).
Proof. vm_compute. repeat split. Qed.
Definition exl_calmb {X Y} (o : vrop X Y) : bool := match o with VReset true => false | _ => true end.
Lemma exl_calms {X Y} (l : list (vrop X Y)) : forallb exl_calmb l = true -> Forall v_calm l.
Proof. rewrite forallb_forall, Forall_forall. intros H o Ho. specialize (H o Ho). destruct o as [o|[]]; cbn in *; auto; discriminate. Qed.
Example C64_lite_nontrivial_hyp :
  Forall lx_nopoke (vrtasks (exl_v0 ++ (exl_v1 ++ exl_v2 14) ++ exl_v3 20)) /\ Forall v_calm (exl_v1 ++ exl_v2 14) /\ Forall v_calm (exl_v3 20) /\
  let '(x0, l0) := exl_vrun (vrw_init (sm_init 16)) exl_v0 in
  let '(xr, lr) := exl_vrun x0 [VReset true] in
  let '(x1, l1) := exl_vrun xr (exl_v1 ++ exl_v2 14) in
  let '(x, l2) := exl_vrun x1 (exl_v3 20) in
  let l := l1 ++ l2 in let W := lwrites_of l in let R := lreads_of l in
  NoDup (lwrites_of (l0 ++ lr)) /\ NoDup (lreads_of (l0 ++ lr)) /\
  Forall (fun o => are_bytes (lc_data (snd o))) (lwrites_of (l0 ++ lr)) /\ Forall (fun o => 0 <= lr_len (snd o)) (lreads_of (l0 ++ lr)) /\
  Forall lite_write_legal W /\ Forall lite_read_legal R /\ Forall (fun o => 0 <= lc_addr (snd o)) W /\ Forall (fun o => 0 <= lr_addr (snd o)) R /\
  length (lreads_of l1) = 1%nat /\ forall i p, nth_error W i = Some p -> (i < length (completed (lw_outs l1)))%nat.
Proof.
  split; [apply exl_nopokes; vm_compute; reflexivity|]. split; [apply exl_calms; vm_compute; reflexivity|]. split; [apply exl_calms; vm_compute; reflexivity|].
  assert (E : let '(x0, l0) := exl_vrun (vrw_init (sm_init 16)) exl_v0 in
    let '(xr, lr) := exl_vrun x0 [VReset true] in
    let '(x1, l1) := exl_vrun xr (exl_v1 ++ exl_v2 14) in
    let '(x, l2) := exl_vrun x1 (exl_v3 20) in
    (lwrites_of (l0 ++ lr), lreads_of (l0 ++ lr), lwrites_of (l1 ++ l2), lreads_of (l1 ++ l2), length (lreads_of l1), length (completed (lw_outs l1))) =
    (exl_ops, exl_rops, [(4, {| lc_addr := 7; lc_data := [41; 42]; lc_prot := 2 |}); (5, {| lc_addr := 12; lc_data := [51]; lc_prot := 2 |})], [exl_read 4 6 4; exl_read 3 0 16], 1%nat, 2%nat)) by (vm_compute; reflexivity).
  destruct (exl_vrun (vrw_init (sm_init 16)) exl_v0) as [x0 l0]. destruct (exl_vrun x0 [VReset true]) as [xr lr]. destruct (exl_vrun xr (exl_v1 ++ exl_v2 14)) as [x1 l1].
  destruct (exl_vrun x1 (exl_v3 20)) as [x l2]. injection E as E1 E2 E3 E4 E5 E6. cbv zeta. rewrite E1, E2, E3, E4, E6. clear E1 E2 E3 E4 E6.
  split; [repeat constructor; cbn; intuition discriminate|]. split; [repeat constructor; cbn; intuition discriminate|].
  split; [repeat constructor; cbn; lia|]. split; [repeat (apply Forall_cons; [cbn; lia|]); apply Forall_nil|].
  split; [repeat constructor; cbn; lia|]. split; [unfold lite_read_legal; repeat (apply Forall_cons; [cbn; lia|]); apply Forall_nil|].
  split; [repeat (apply Forall_cons; [cbn; lia|]); apply Forall_nil|]. split; [repeat (apply Forall_cons; [cbn; lia|]); apply Forall_nil|]. split; [exact E5|].
  intros i p Hp. match type of Hp with nth_error ?l i = _ => assert (Hne : nth_error l i <> None) by congruence end. apply nth_error_Some in Hne. exact Hne.
Qed.
(** with the fair schedule of T_clklite.v *)
Definition exl_vx1 := let '(x0, l0) := exl_vrun (vrw_init (sm_init 16)) exl_v0 in let '(xr, lr) := exl_vrun x0 [VReset true] in fst (exl_vrun xr exl_v1).
Lemma exl_vx1_vi : vi cp_w2r cp_r2w (fst exl_vx1) /\ snd exl_vx1 = false.
Proof.
  pose proof (vri_rw ram_write ram_read 4 (LAW exl_dA) OKAY exl_dA exl_dR (sm_init 16) (exl_v0 ++ VReset true :: exl_v1)) as H.
  assert (E : fst (vrw_run 4 ram_write ram_read (LAW exl_dA) OKAY exl_dA exl_dR (vrw_init (sm_init 16)) (exl_v0 ++ VReset true :: exl_v1)) = exl_vx1).
  { change (VReset true :: exl_v1) with ([VReset true] ++ exl_v1). unfold exl_vx1, exl_vrun, vrw_run. rewrite vrrun_app. destruct (vr_run _ _ _ _ _ _ _ _ _ _ _ _ exl_v0) as [x0 l0]. rewrite vrrun_app.
    destruct (vr_run _ _ _ _ _ _ _ _ _ _ _ x0 [VReset true]) as [xr lr]. destruct (vr_run _ _ _ _ _ _ _ _ _ _ _ xr exl_v1) as [x1 l1]. reflexivity. }
  rewrite E in H. clear E. assert (E : snd exl_vx1 = false) by (vm_compute; reflexivity). split; [|exact E].
  destruct exl_vx1 as [z on]. cbn in E. subst on. destruct H as [K1 [K2 K3]]. split; [exact K2|split; [exact K3|exact K1]].
Qed.
Lemma exl_vx1_calm i : hucalm (hv_w (fst exl_vx1)) i /\ hucalm (hv_r (fst exl_vx1)) i.
Proof. destruct i; vm_compute; repeat split. Qed.
Example C64_lite_nontrivial_fair : (forall m, Forall (fun o => lx_no_issue o /\ lx_nopoke o) (vtasks [exl_hfair m])) /\
  hlx_fair (fun n => fst (fst (exl_vrun exl_vx1 (map VO (first_steps exl_hfair n))))) exl_hfair.
Proof.
  destruct C63_lite_nontrivial_hyp as (_ & _ & _ & _ & _ & H1 & (F1 & F2 & F3 & F4)). split; [exact H1|].
  destruct exl_vx1_vi as [Hv He]. pose proof exl_vx1_calm as Hc. destruct exl_vx1 as [z on]. cbn [fst snd] in *. subst on.
  assert (Er : forall hh, fst (fst (exl_vrun (z, false) (map VO hh))) = fst (hlrw_run 4 ram_write ram_read (LAW exl_dA) OKAY exl_dA exl_dR z hh)).
  { intros hh. unfold exl_vrun, vrw_run, hlrw_run. clear. revert z. induction hh as [|o hh IH]; intros z; [reflexivity|]. cbn [map vr_run vr_step andb hlx_run].
    destruct (hlx_step _ _ _ _ _ _ _ _ _ z o) as [z2 o2]. specialize (IH z2). destruct (vr_run _ _ _ _ _ _ _ _ _ _ _ (z2, false) (map VO hh)), (hlx_run _ _ _ _ _ _ _ _ _ z2 hh). exact IH. }
  apply C63_lite_steady_is_fair; [exact F1|exact F2| | |].
  - intros i n. destruct (F3 i n) as (m1 & m2 & m3 & Hm & E1 & _). exists m1. split; [lia|exact E1].
  - intros i n. destruct (F4 i n) as (m1 & m2 & m3 & Hm & E1 & _). exists m1. split; [lia|exact E1].
  - exists 0%nat. intros t _ i. rewrite Er. exact (lrw_calm _ _ _ _ _ _ _ _ _ Hv Hc exl_hfair_np t i).
Qed.
Example C64_lite_nontrivial_completes :
  let '(x, l) := exl_vrun exl_vx1 (map VO (first_steps exl_hfair 800)) in
  (map (fun d => fst (fst d)) (completed (lw_outs l)), exl_show l, eng_is_idle (hu_m (hv_w (fst x))), eng_is_idle (hu_m (hv_r (fst x))), map (peek (vrw_target x)) (zrange 0 16)) =
  ([4; 5], [(4, ([23; 41; 42; 8], OKAY))], true, true, [0; 0; 1; 2; 21; 22; 23; 41; 42; 8; 9; 10; 51; 0; 0; 0]).
Proof. vm_compute. reflexivity. Qed.
