(** C65 for AxiMaster connected to AxiSlave / AxiRam: a reset at any moment. *)
From Coq Require Import ZArith Lia List Bool Permutation.
From Coq Require Import ZifyBool ZifyNat.
From Verif Require Import Py S_flat M_sparse S_sparse P_sparse M_memory P_memory M_axi S_axi P_axiram M_liteeng M_axieng S_axieng P_axieng T_axieng M_sys S_sys P_sys T_sys T_sysrd
  M_axisys S_axisys P_sysram T_sysram M_litesys S_litesys M_literw S_live P_fair P_ulive P_ylive T_litelive T_axilive T_axirwlive
  M_stream M_cchan P_cchan M_clk S_clk P_cchanlive P_clk P_clkrw P_flat P_clklive P_clkfair T_clk M_rst S_rst P_rst P_rsttgt P_ren P_renx P_renrw P_rstx.
Import ListNotations.
Open Scope Z_scope.

Lemma xanew_sync {T} (a : T * list call) (b : T * list rcall) : cp_w2r a b = b -> cp_r2w b a = a -> cp_w2r (anew a) (anew b) = anew b /\ cp_r2w (anew b) (anew a) = anew a.
Proof. destruct a as [t l], b as [t' l']. unfold cp_w2r, cp_r2w, anew. cbn. intros H1 H2. injection H1 as H1. now rewrite H1. Qed.
Lemma zri_rw {T} (tw : T -> Z -> list Z -> T * res unit) tr c widn ridn dW dB dA dR t0 h : zri cp_w2r cp_r2w (fst (zrw_run c widn ridn tw tr dW dB dA dR (zrw_init t0) h)).
Proof. apply (zri_run c widn ridn (log_write tw) (log_read tr) cp_w2r cp_r2w anew anew dW dB dA dR cp1 cp2 cp3 cp4 xanew_sync). now apply zri_init. Qed.

(** ** the reset *)
(** As long as reset is asserted, nothing is on the wires and nothing is queued on a channel. *)
Theorem C65_axi_silent : forall T (tw : T -> Z -> list Z -> T * res unit) tr c widn ridn dW dB dA dR t0 h,
  let '(x, l) := zrw_run c widn ridn tw tr dW dB dA dR (zrw_init t0) h in
  snd x = true -> h_silent (hz_w (fst x)) /\ h_silent (hz_r (fst x)).
Proof.
  intros T tw tr c widn ridn dW dB dA dR t0 h. pose proof (zri_rw tw tr c widn ridn dW dB dA dR t0 h) as H. destruct (zrw_run _ _ _ _ _ _ _ _ _ _ _) as [[z on] l]. cbn [fst snd] in *. intros ->.
  destruct H as (_ & _ & _ & (_ & A1 & A2 & A3) & (_ & B1 & B2 & B3)).
  assert (K : forall A (c : cchan A), cdead c -> cc_silent c) by (intros A c0 []; repeat split; auto).
  split; (split; [auto|split; auto]).
Qed.
Print Assumptions C65_axi_silent.

(** When reset is asserted the target is left as it is, and the operations ever started are those completed with their responses together with those completed with None, each once; the master is idle. *)
Theorem C65_axi_reset : forall T (tw : T -> Z -> list Z -> T * res unit) tr c widn ridn dW dB dA dR t0 h,
  let '(x0, l0) := zrw_run c widn ridn tw tr dW dB dA dR (zrw_init t0) h in
  let '(x, l1) := zrw_run c widn ridn tw tr dW dB dA dR x0 [ZReset true] in
  let l := l0 ++ l1 in
  snd x0 = false ->
  snd x = true /\ zrw_target x = zrw_target x0 /\ fst (rs_target (h_s (hz_r (fst x)))) = zrw_target x0 /\
  xcompleted (w_outs l1) = [] /\ xcompleted (r_outs l1) = [] /\ xstarted (w_outs l1) = [] /\ xstarted (r_outs l1) = [] /\ z_inits x = z_inits x0 /\
  Permutation (xstarted (w_outs l)) (map (fun d => fst (fst d)) (xcompleted (w_outs l)) ++ xflushed (w_outs l)) /\
  Permutation (xstarted (r_outs l)) (map (fun d => fst (fst d)) (xcompleted (r_outs l)) ++ xflushed (r_outs l)) /\
  x_is_idle (h_m (hz_w (fst x))) = true /\ x_is_idle (h_m (hz_r (fst x))) = true /\ e_idle (h_m (hz_w (fst x))) = true /\ e_idle (h_m (hz_r (fst x))) = true.
Proof.
  intros T tw tr c widn ridn dW dB dA dR t0 h. pose proof (zri_rw tw tr c widn ridn dW dB dA dR t0 h) as I0.
  pose proof (zr_run_m c widn ridn (log_write tw) (log_read tr) cp_w2r cp_r2w anew anew dW dB dA dR h (zrw_init t0)) as HM.
  unfold zrw_run in *. destruct (zr_run _ _ _ _ _ _ _ _ _ _ _ _ _ (zrw_init t0) h) as [[z on] l0]. destruct HM as [(gw & Gw) (gr & Gr)]. cbn [fst snd] in *.
  destruct on. { destruct (zr_run _ _ _ _ _ _ _ _ _ _ _ _ _ _ [ZReset true]). discriminate. }
  pose proof (zr_rst c widn ridn (log_write tw) (log_read tr) cp_w2r cp_r2w anew anew dW dB dA dR cp1 cp2 cp3 cp4 xanew_sync z I0) as HR.
  cbn [zr_run] in *. destruct (zr_step _ _ _ _ _ _ _ _ _ _ _ _ _ (z, false) (ZReset true)) as [x o1] eqn:Ex.
  rewrite app_nil_r in *. destruct HR as (_ & HR2 & HR3 & _). intros _.
  cbn [zr_step Bool.eqb] in Ex. unfold h_rst in Ex.
  destruct (x_step (w_sends c) w_opens w_epat w_chk b_id op_id widn (h_m (hz_w z)) (PReset true)) as [mw ow] eqn:Ew.
  destruct (x_step (r_sends c) r_opens r_epat r_chk r_id op_id ridn (h_m (hz_r z)) (PReset true)) as [mr or] eqn:Er.
  injection Ex as <- <-. rewrite !zwouts_app, !zrouts_app in *. rewrite (proj1 (zouts_inl ow)), (proj2 (zouts_inl ow)), (proj1 (zouts_inr or)), (proj2 (zouts_inr or)), !app_nil_r in *. cbn [app fst hz_w hz_r h_m] in *.
  split; [reflexivity|]. split; [reflexivity|]. split; [destruct I0 as ((S1 & S2) & _); cbn in S1, S2; unfold cp_w2r in S1; unfold zrw_target, hrw_target; cbn; rewrite <- S1; reflexivity|].
  assert (CN : forall (Cc Ee Rr : Type) s e p k r a i (m m' : xeng Cc Ee Rr) os, x_step s e p k r a i m (PReset true) = (m', os) -> xcompleted os = [] /\ xstarted os = []).
  { clear. intros Cc Ee Rr s e p k r a i m m' os H. cbn [x_step] in H. unfold x_reset in H. destruct (mgr_flush (e_mgr m)) as [m1 fl]. injection H as _ <-.
    match goal with |- context[map XFlush ?L] => set (LL := L); clearbody LL end. induction LL as [|o LL [I1 I2]]; split; auto. }
  destruct (CN _ _ _ _ _ _ _ _ _ _ _ _ _ Ew) as [-> ->], (CN _ _ _ _ _ _ _ _ _ _ _ _ _ Er) as [-> ->]. clear CN.
  split; [reflexivity|]. split; [reflexivity|]. split; [reflexivity|]. split; [reflexivity|]. split; [exact HR3|].
  pose proof (C32_axi_write_reset c widn gw) as Kw. unfold w_run in Kw. rewrite xrun_app in Kw. unfold zrw_init, hrw_init, hax_init, hsys_init in Gw. cbn [fst hz_w h_m] in Gw. rewrite Gw in Kw.
  cbn [x_run] in Kw. rewrite Ew, app_nil_r in Kw.
  pose proof (C32_axi_read_reset c ridn gr) as Kr. unfold r_run in Kr. rewrite xrun_app in Kr. unfold zrw_init, hrw_init, hax_init, hsys_init in Gr. cbn [fst hz_r h_m] in Gr. rewrite Gr in Kr.
  cbn [x_run] in Kr. rewrite Er, app_nil_r in Kr. tauto.
Qed.
Print Assumptions C65_axi_reset.

(** ** after the reset the system does nothing that a fresh one on the same target cannot do *)
Lemma zinits_submitted {T} (x1 : zrsys (T * list call) (T * list rcall)) : a_wsubmitted (z_inits x1) = z_wpend x1 /\ a_rsubmitted (z_inits x1) = z_rpend x1.
Proof.
  unfold z_inits. rewrite sub_w_app, sub_r_app. destruct (zsub_w_map (TR := T * list rcall) (map (@YInit _ (wslv (T * list call))) (z_wpend x1))) as [-> ->].
  destruct (zsub_r_map (TW := T * list call) (map (@YInit _ (rslv (T * list rcall))) (z_rpend x1))) as [-> ->].
  assert (K : forall C S (l : list C), ysubmitted (map (@YInit C S) l) = l) by (intros C0 S0 l0; induction l0 as [|c0 l0 IH]; [reflexivity|]; cbn; f_equal; exact IH). rewrite !K, app_nil_r. auto.
Qed.
Notation same := (zsame cp_w2r cp_r2w).
Lemma zcalm_more {T} (tw : T -> Z -> list Z -> T * res unit) tr c widn ridn dW dB dA dR h x b : zri cp_w2r cp_r2w x -> same (zrabs x) b -> Forall z_calm h ->
  let '(x', l) := zrw_run c widn ridn tw tr dW dB dA dR x h in
  zri cp_w2r cp_r2w x' /\ exists h' b', rw_run c widn ridn tw tr b h' = (b', l) /\ same (zrabs x') b' /\
    a_wsubmitted h' = a_wsubmitted (zrtasks h) /\ a_rsubmitted h' = a_rsubmitted (zrtasks h) /\
    forall P : aop _ _ -> Prop, (forall o, a_internal o -> P o) -> Forall P (zrtasks h) -> Forall P h'.
Proof.
  intros Hi Hb Hc. pose proof (zr_sims c widn ridn (log_write tw) (log_read tr) cp_w2r cp_r2w anew anew dW dB dA dR cp1 cp2 cp3 cp4 h x Hi Hc) as HS.
  pose proof (zrsims_submitted c widn ridn (log_write tw) (log_read tr) cp_w2r cp_r2w anew anew dW dB dA dR h x) as [S1 S2].
  pose proof (fun P => zrsims_all c widn ridn (log_write tw) (log_read tr) cp_w2r cp_r2w anew anew dW dB dA dR P h x) as SA.
  unfold zrw_run. destruct (zr_run _ _ _ _ _ _ _ _ _ _ _ _ _ x h) as [x' l]. destruct HS as [I' HS]. split; [exact I'|].
  pose proof (zren_run c widn ridn (log_write tw) (log_read tr) cp_w2r cp_r2w cp1 cp2 cp3 cp4 (zrsims c widn ridn (log_write tw) (log_read tr) cp_w2r cp_r2w anew anew dW dB dA dR x h) _ b Hb) as K.
  rewrite HS in K. destruct K as (h' & b' & K1 & K2 & K3 & K4 & K5). exists h', b'. unfold rw_run. rewrite K3, K4, S1, S2.
  split; [exact K1|]. split; [exact K2|]. split; [reflexivity|]. split; [reflexivity|]. intros P HP Hh. apply K5; auto.
Qed.
Lemma zrst_reach {T} (tw : T -> Z -> list Z -> T * res unit) tr c widn ridn dW dB dA dR t0 h1 h2 : Forall z_calm h2 ->
  let '(x1, l1) := zrw_run c widn ridn tw tr dW dB dA dR (zrw_init t0) h1 in
  snd x1 = false ->
  let '(x2, l2) := zrw_run c widn ridn tw tr dW dB dA dR x1 [ZReset true] in
  let '(x, l) := zrw_run c widn ridn tw tr dW dB dA dR x2 h2 in
  zri cp_w2r cp_r2w x /\ exists h' b, rw_run c widn ridn tw tr (rw_init (zrw_target x1)) h' = (b, l) /\ same (zrabs x) b /\
    a_wsubmitted h' = z_wpend x1 ++ a_wsubmitted (zrtasks h2) /\ a_rsubmitted h' = z_rpend x1 ++ a_rsubmitted (zrtasks h2) /\
    forall P : aop _ _ -> Prop, (forall o, a_internal o -> P o) -> Forall P (z_inits x1 ++ zrtasks h2) -> Forall P h'.
Proof.
  intros Hc. pose proof (zri_rw tw tr c widn ridn dW dB dA dR t0 h1) as I0.
  destruct (zrw_run c widn ridn tw tr dW dB dA dR (zrw_init t0) h1) as [[z on] l1]. cbn [fst snd] in *. intros ->.
  pose proof (zr_rst c widn ridn (log_write tw) (log_read tr) cp_w2r cp_r2w anew anew dW dB dA dR cp1 cp2 cp3 cp4 xanew_sync z I0) as HR.
  unfold zrw_run at 1. cbn [zr_run]. destruct (zr_step _ _ _ _ _ _ _ _ _ _ _ _ _ (z, false) (ZReset true)) as [x2 o2].
  destruct HR as (I2 & _ & _ & b & HR & HB). pose proof (zcalm_more tw tr c widn ridn dW dB dA dR h2 x2 b I2 HB Hc) as K.
  destruct (zrw_run c widn ridn tw tr dW dB dA dR x2 h2) as [x l]. destruct K as (I3 & h' & b' & K1 & K2 & K3 & K4 & K5). split; [exact I3|].
  assert (E0 : rw_init (zrw_target (z, false)) = ax_init (anew (ws_target (h_s (hz_w z)))) (anew (rs_target (h_s (hz_r z))))).
  { destruct I0 as ((S1 & S2) & _). cbn in S1, S2. unfold rw_init. f_equal. unfold anew. rewrite <- S1. reflexivity. }
  exists (z_inits (z, false) ++ h'), b'. rewrite E0. unfold rw_run in *. rewrite axrun_app, HR, K1. split; [reflexivity|]. split; [exact K2|].
  rewrite sub_w_app, sub_r_app, K3, K4. destruct (zinits_submitted (z, false)) as [-> ->]. split; [reflexivity|]. split; [reflexivity|].
  intros P HP Ht. apply Forall_app in Ht. destruct Ht as [Ht1 Ht2]. apply Forall_app. split; [exact Ht1|]. now apply K5.
Qed.
Lemma same_facts {T} (x : zrsys (T * list call) (T * list rcall)) b : same (zrabs x) b ->
  y_s (z_w b) = h_s (hz_w (fst x)) /\ y_s (z_r b) = h_s (hz_r (fst x)) /\ x_is_idle (y_m (z_w b)) = x_is_idle (h_m (hz_w (fst x))) /\ x_is_idle (y_m (z_r b)) = x_is_idle (h_m (hz_r (fst x))) /\
  e_pend (y_m (z_w b)) = z_wpend x /\ e_pend (y_m (z_r b)) = z_rpend x.
Proof. intros [_ Hw Hr _ _]. rewrite Hw, Hr. destruct x as [z []]; repeat split. Qed.

(** After a reset the master may use other contexts of its managers than a fresh master would; nothing of that can be observed. *)
Theorem C65_axi_refines : forall T (tw : T -> Z -> list Z -> T * res unit) tr c widn ridn dW dB dA dR t0 h1 h2, Forall z_calm h2 ->
  let '(x1, l1) := zrw_run c widn ridn tw tr dW dB dA dR (zrw_init t0) h1 in
  snd x1 = false ->
  let '(x2, l2) := zrw_run c widn ridn tw tr dW dB dA dR x1 [ZReset true] in
  let '(x, l) := zrw_run c widn ridn tw tr dW dB dA dR x2 h2 in
  exists h', let '(z', l') := rw_run c widn ridn tw tr (rw_init (zrw_target x1)) h' in
    l' = l /\ y_s (z_w z') = h_s (hz_w (fst x)) /\ y_s (z_r z') = h_s (hz_r (fst x)) /\
    x_is_idle (y_m (z_w z')) = x_is_idle (h_m (hz_w (fst x))) /\ x_is_idle (y_m (z_r z')) = x_is_idle (h_m (hz_r (fst x))) /\
    e_pend (y_m (z_w z')) = z_wpend x /\ e_pend (y_m (z_r z')) = z_rpend x /\
    a_wsubmitted h' = z_wpend x1 ++ a_wsubmitted (zrtasks h2) /\ a_rsubmitted h' = z_rpend x1 ++ a_rsubmitted (zrtasks h2) /\
    forall P : aop _ _ -> Prop, (forall o, a_internal o -> P o) -> Forall P (z_inits x1 ++ zrtasks h2) -> Forall P h'.
Proof.
  intros T tw tr c widn ridn dW dB dA dR t0 h1 h2 Hc. pose proof (zrst_reach tw tr c widn ridn dW dB dA dR t0 h1 h2 Hc) as H.
  destruct (zrw_run c widn ridn tw tr dW dB dA dR (zrw_init t0) h1) as [x1 l1]. intros E1. specialize (H E1).
  destruct (zrw_run c widn ridn tw tr dW dB dA dR x1 [ZReset true]) as [x2 l2]. destruct (zrw_run c widn ridn tw tr dW dB dA dR x2 h2) as [x l].
  destruct H as (_ & h' & b & H & HB & S1 & S2 & SP). exists h'. rewrite H. destruct (same_facts x b HB) as (F1 & F2 & F3 & F4 & F5 & F6). split; [reflexivity|].
  split; [exact F1|]. split; [exact F2|]. split; [exact F3|]. split; [exact F4|]. split; [exact F5|]. split; [exact F6|]. auto.
Qed.
Print Assumptions C65_axi_refines.

(** For example on an AxiRam: what is written after the reset is read, on top of what the memory held at the reset (C55_ram_read_after_write). *)
Theorem C65_axi_ram_read_after_write : forall size c widn ridn dW dB dA dR m0 h0 h1 h2, 0 < size -> 0 < m_lanes c -> size mod m_lanes c = 0 -> sm_reachable size m0 ->
  0 < widn -> 0 < ridn -> Forall a_nopoke (zrtasks (h0 ++ h1 ++ h2)) -> Forall z_calm h1 -> Forall z_calm h2 ->
  let run := zrw_run c widn ridn ram_write ram_read dW dB dA dR in
  let '(x0, l0) := run (zrw_init m0) h0 in
  snd x0 = false ->
  let '(xr, lr) := run x0 [ZReset true] in
  let '(x1, l1) := run xr h1 in
  let '(x, l2) := run x1 h2 in
  let l := l1 ++ l2 in let W := writes_of widn l in let R := reads_of ridn l in
  Forall (fun p => write_legal (m_lanes c) (fst p)) W -> Forall (fun p => read_legal (m_lanes c) (fst p)) R ->
  exists rrss, length rrss = length R /\
    (forall u, exists k, (k <= length (with_tag u R))%nat /\
       completed_on u (r_outs l) = combine (firstn k (with_tag u R)) (firstn k (on_tag u R rrss))) /\
    forall j o u, nth_error R j = Some (o, u) -> (length (reads_of ridn l1) <= j)%nat ->
      (forall i p, nth_error W i = Some p ->
         ((i < length (writes_of widn l1))%nat /\ done_at (writes_of widn l1) (w_outs l1) i (snd p)) \/ ~ touches (fun x => x mod size) p o) ->
      exists rs, nth_error rrss j = Some rs /\
        read_returns c o u rs = Some (map (fun x => put (fun x => x mod size) (peek (zrw_target x0)) (op_bytes_of W) (x mod size)) (zrange (rc_addr (snd o)) (rc_addr (snd o) + rc_len (snd o))), OKAY).
Proof.
  intros size c widn ridn dW dB dA dR m0 h0 h1 h2 Hs HL Hm Hr Hwi Hri Hh Hc1 Hc2. cbv zeta.
  unfold zrtasks in Hh. rewrite !flat_map_app in Hh. apply Forall_app in Hh. destruct Hh as [Hh0 Hh]. apply Forall_app in Hh. destruct Hh as [Hh1 Hh2].
  pose proof (zram_reach size c widn ridn dW dB dA dR m0 h0 Hr Hh0) as Hr0.
  pose proof (zrst_reach ram_write ram_read c widn ridn dW dB dA dR m0 h0 h1 Hc1) as H.
  destruct (zrw_run c widn ridn ram_write ram_read dW dB dA dR (zrw_init m0) h0) as [x0 l0]. intros E0. specialize (H E0). cbn [fst] in Hr0.
  destruct (zrw_run c widn ridn ram_write ram_read dW dB dA dR x0 [ZReset true]) as [xr lr].
  destruct (zrw_run c widn ridn ram_write ram_read dW dB dA dR xr h1) as [x1 l1]. destruct H as (I1 & s1 & b1 & H & HB & _ & _ & A1).
  pose proof (zcalm_more ram_write ram_read c widn ridn dW dB dA dR h2 x1 b1 I1 HB Hc2) as H2.
  destruct (zrw_run c widn ridn ram_write ram_read dW dB dA dR x1 h2) as [x l2]. destruct H2 as (_ & s2 & b2 & H2 & _ & _ & _ & A2).
  assert (HP : forall o : aop (sparse * list call) (sparse * list rcall), a_internal o -> a_nopoke o) by (intros [o|o]; destruct o; cbn; tauto).
  assert (Hall : Forall a_nopoke (s1 ++ s2)).
  { apply Forall_app. split; [|now apply A2]. apply A1; [exact HP|]. apply Forall_app. split; [|exact Hh1].
    unfold z_inits. apply Forall_app. split; rewrite !Forall_map; apply Forall_forall; intros; exact I. }
  pose proof (C55_ram_read_after_write size c widn ridn (zrw_target x0) s1 s2 Hs HL Hm Hr0 Hwi Hri Hall) as K. rewrite H, H2 in K. exact K.
Qed.
Print Assumptions C65_axi_ram_read_after_write.

(** ** completion: once reset is released, every operation completes under fair schedules (as C63) *)
Theorem C65_axi_ram_completes : forall size c widn ridn dW dB dA dR m0 h0 h1 sched, 0 < size -> 0 < m_lanes c -> size mod m_lanes c = 0 -> sm_reachable size m0 ->
  0 < widn -> 0 < ridn -> Forall a_nopoke (zrtasks (h0 ++ h1)) -> Forall z_calm h1 ->
  let run := zrw_run c widn ridn ram_write ram_read dW dB dA dR in
  let '(x0, l0) := run (zrw_init m0) h0 in
  snd x0 = false ->
  let '(xr, lr) := run x0 [ZReset true] in
  let '(x1, l1) := run xr h1 in
  snd x1 = false ->
  let SW := z_wpend x0 ++ a_wsubmitted (zrtasks h1) in let SR := z_rpend x0 ++ a_rsubmitted (zrtasks h1) in
  Forall (write_legal (m_lanes c)) SW -> Forall (read_legal (m_lanes c)) SR ->
  (forall m, Forall (fun o => a_no_issue o /\ a_nopoke o) (ztasks [sched m])) ->
  hax_fair (fun n => fst (fst (run x1 (map ZO (first_steps sched n))))) sched ->
  exists N, forall M, (N <= M)%nat -> let '(x, l2) := run x1 (map ZO (first_steps sched M)) in
    let l := l1 ++ l2 in let W := writes_of widn l in let R := reads_of ridn l in
    Permutation (map fst W) SW /\ Permutation (map fst R) SR /\
    Permutation (map (fun d => fst (fst d)) (xcompleted (w_outs l))) (map fst W) /\
    Permutation (map (fun d => fst (fst d)) (xcompleted (r_outs l))) (map fst R) /\
    (exists wrss, Forall2 (fun p rs => write_returns c (fst p) (snd p) rs = Some OKAY) W wrss /\
       forall u, completed_on u (w_outs l) = combine (with_tag u W) (on_tag u W wrss)) /\
    (exists rrss, Forall2 (fun p rs => exists d, read_returns c (fst p) (snd p) rs = Some (d, OKAY)) R rrss /\
       forall u, completed_on u (r_outs l) = combine (with_tag u R) (on_tag u R rrss)) /\
    peek (zrw_target x) =f put (fun x => x mod size) (peek (zrw_target x0)) (op_bytes_of W) /\
    xcrashed (w_outs l) = false /\ xcrashed (r_outs l) = false /\ x_is_idle (h_m (hz_w (fst x))) = true /\ x_is_idle (h_m (hz_r (fst x))) = true.
Proof.
  intros size c widn ridn dW dB dA dR m0 h0 h1 sched Hs HL Hm Hr Hwi Hri Hh Hc. cbv zeta.
  unfold zrtasks in Hh. rewrite flat_map_app in Hh. apply Forall_app in Hh. destruct Hh as [Hh0 Hh1].
  pose proof (zram_reach size c widn ridn dW dB dA dR m0 h0 Hr Hh0) as Hr0.
  pose proof (zrst_reach ram_write ram_read c widn ridn dW dB dA dR m0 h0 h1 Hc) as HI.
  destruct (zrw_run c widn ridn ram_write ram_read dW dB dA dR (zrw_init m0) h0) as [x0 l0]. intros E0. specialize (HI E0). cbn [fst] in Hr0.
  destruct (zrw_run c widn ridn ram_write ram_read dW dB dA dR x0 [ZReset true]) as [xr lr].
  destruct (zrw_run c widn ridn ram_write ram_read dW dB dA dR xr h1) as [[z1 on] l1]. cbn [fst snd] in *. intros -> HW HR Hsc Hf.
  destruct HI as (I1 & s1 & b1 & HI & HB & SW & SR & A1). cbn [zrabs] in HB.
  assert (Er : forall hh, zrw_run c widn ridn ram_write ram_read dW dB dA dR (z1, false) (map ZO hh) = let '(z, l) := hax_run c widn ridn (log_write ram_write) (log_read ram_read) cp_w2r cp_r2w dW dB dA dR z1 hh in ((z, false), l)).
  { intros hh. unfold zrw_run. clear. revert z1. induction hh as [|o hh IH]; intros z1; [reflexivity|]. cbn [map zr_run zr_step andb hax_run].
    destruct (hax_step _ _ _ _ _ _ _ _ _ _ _ z1 o) as [z2 o2]. rewrite IH. destruct (hax_run _ _ _ _ _ _ _ _ _ _ _ z2 hh). reflexivity. }
  assert (Iv : zi cp_w2r cp_r2w z1) by (destruct I1 as (K1 & _ & _ & K2 & K3); split; [exact K2|split; [exact K3|exact K1]]).
  assert (Hf' : hax_fair (zst c widn ridn (log_write ram_write) (log_read ram_read) cp_w2r cp_r2w dW dB dA dR z1 sched) sched).
  { destruct Hf as (F1 & F2 & F3 & F4). split; [exact F1|]. split; [exact F2|].
    split; intros i; (eapply edges_ext; [|exact (F3 i) || exact (F4 i)]); intros t Ht; cbv beta in Ht; rewrite Er in Ht; unfold zst;
      destruct (hax_run _ _ _ _ _ _ _ _ _ _ _ z1 (first_steps sched t)); exact Ht. }
  destruct (zclk_fair c widn ridn (log_write ram_write) (log_read ram_read) cp_w2r cp_r2w dW dB dA dR cp1 cp2 cp3 cp4 z1 sched Iv Hf') as (sched' & F & FP & FR).
  destruct (ren_fair c widn ridn (log_write ram_write) (log_read ram_read) cp_w2r cp_r2w cp1 cp2 cp3 cp4 (zabs z1) b1 sched' HB F) as (sched2 & G & GP & GR).
  assert (HP : forall o : aop (sparse * list call) (sparse * list rcall), a_internal o -> a_no_issue o /\ a_nopoke o) by (intros [o|o]; destruct o; cbn; tauto).
  destruct (C60_ram_completes size c widn ridn (zrw_target x0) s1 sched2 Hs HL Hm Hr0 Hwi Hri) as (N & HN); auto; rewrite ?SW, ?SR; auto.
  - apply A1; [intros o Ho; now apply HP|]. apply Forall_app. split; [|exact Hh1].
    unfold z_inits. apply Forall_app. split; rewrite !Forall_map; apply Forall_forall; intros; exact I.
  - exact (GP (fun o => a_no_issue o /\ a_nopoke o) HP (FP (fun o => a_no_issue o /\ a_nopoke o) HP Hsc)).
  - exists N. intros M HM. destruct (FR M) as (k & Hk & Ek). destruct (GR k) as (k2 & Hk2 & Ek2). specialize (HN k2 ltac:(lia)).
    pose proof (bst_same c widn ridn (log_write ram_write) (log_read ram_read) cp_w2r cp_r2w cp1 cp2 cp3 cp4 (zabs z1) b1 sched' HB k) as Hb.
    rewrite Er. unfold rw_run in HN, HI. rewrite axrun_app, HI, Ek2 in HN. unfold ast in Hb. rewrite Ek in Hb, HN. cbn [fst snd] in Hb, HN. unfold zst in Hb.
    set (bn := bst _ _ _ _ _ _ _ _ _ _ k) in *. clearbody bn.
    destruct (hax_run _ _ _ _ _ _ _ _ _ _ _ z1 (first_steps sched M)) as [z l2]. cbn [fst snd] in HN, Hb. cbv zeta in HN. rewrite SW, SR in HN.
    destruct (same_facts (z, false) bn Hb) as (Q1 & Q2 & Q3 & Q4 & _). unfold rw_target in HN. rewrite Q1, Q3, Q4 in HN. exact HN.
Qed.
Print Assumptions C65_axi_ram_completes.

(** ** examples: the operations of T_sysram.v; at the reset read 1 has completed, write 1 has reached the memory but is not completed, write 2 is on its way, write 5 is called but its task did not
    run; write 4 and read 4 are called during reset.  The idle contexts of the manager are then not those of a fresh one. *)
Definition ex_zops := map (@ZO (sparse * list call) (sparse * list rcall)).
Definition ex_zrun := zrw_run ex_cfg 4 4 ram_write ram_read (EvAW ex_dA) ex_dB ex_dA ex_dR.
Definition ex_w4 := ex_write 4 None 7 [41; 42] 2.
Definition ex_w5 := ex_write 5 (Some 7) 12 [51] 2.
Definition ex_r4 := ex_read 4 (Some 7) 6 4 2.
Definition ex_zh0 := ex_zops (map KW (map HT (map YInit ex_ops)) ++ map KR (map HT (map YInit ex_rops)) ++ ex_hrounds 13) ++ [ZO (KW (HT (YInit ex_w5)))].
Definition ex_zh1 := ZO (KW (HT (YIssue ex_w4))) :: ZO (KR (HT (YIssue ex_r4))) :: ex_zops (ex_hrounds 1) ++ [ZReset false].
Definition ex_zh2 (n : nat) := ex_zops (ex_hrounds n).
Definition ex_zh3 (n : nat) := ex_zops (map KR (map HT (map YInit [ex_read 3 None 0 16 2])) ++ ex_hrounds n).
Definition ex_wnos (l : list aout) := map (fun d => fst (fst (fst (fst d)))) (xcompleted (w_outs l)).
Example C65_axi_nontrivial :
  let '(x0, l0) := ex_zrun (zrw_init (sm_init 16)) ex_zh0 in
  let '(xr, lr) := ex_zrun x0 [ZReset true] in
  let '(x1, l1) := ex_zrun xr (ex_zh1 ++ ex_zh2 14) in
  let '(x, l2) := ex_zrun x1 (ex_zh3 20) in
  (snd x0, ex_wnos l0, ex_show l0, map (peek (zrw_target x0)) (zrange 0 16), map (fun o => fst (fst o)) (z_wpend x0)) =
    (false, [], [(1, Some ([0; 3; 4; 5; 6; 7], OKAY))], [0; 0; 1; 2; 3; 4; 5; 6; 7; 8; 9; 10; 11; 0; 0; 0], [5]) /\
  (map (fun o => fst (fst o)) (xflushed (w_outs lr)), map (fun o => fst (fst o)) (xflushed (r_outs lr)), map (peek (zrw_target xr)) (zrange 0 16), m_idle (e_mgr (h_m (hz_w (fst xr))))) =
    ([3; 1; 2], [2], [0; 0; 1; 2; 3; 4; 5; 6; 7; 8; 9; 10; 11; 0; 0; 0], [1; 0]%nat) /\
  (ex_wnos l1, ex_show l1, ex_show l2) = ([4; 5], [(4, Some ([5; 6; 42; 8], OKAY))], [(3, Some ([0; 0; 1; 2; 3; 4; 5; 41; 42; 8; 9; 10; 51; 0; 0; 0], OKAY))]).
Proof. vm_compute. repeat split. Qed.
Definition ex_calmb {X Y} (o : zrop X Y) : bool := match o with ZReset true => false | _ => true end.
Lemma ex_calms {X Y} (l : list (zrop X Y)) : forallb ex_calmb l = true -> Forall z_calm l.
Proof. rewrite forallb_forall, Forall_forall. intros H o Ho. specialize (H o Ho). destruct o as [o|[]]; cbn in *; auto; discriminate. Qed.
Example C65_axi_nontrivial_hyp :
  Forall a_nopoke (zrtasks (ex_zh0 ++ (ex_zh1 ++ ex_zh2 14) ++ ex_zh3 20)) /\ Forall z_calm (ex_zh1 ++ ex_zh2 14) /\ Forall z_calm (ex_zh3 20) /\
  let '(x0, l0) := ex_zrun (zrw_init (sm_init 16)) ex_zh0 in
  let '(xr, lr) := ex_zrun x0 [ZReset true] in
  let '(x1, l1) := ex_zrun xr (ex_zh1 ++ ex_zh2 14) in
  let '(x, l2) := ex_zrun x1 (ex_zh3 20) in
  let l := l1 ++ l2 in let W := writes_of 4 l in let R := reads_of 4 l in
  Forall (fun p => write_legal 4 (fst p)) W /\ Forall (fun p => read_legal 4 (fst p)) R /\ length (reads_of 4 l1) = 1%nat /\ length R = 2%nat /\
  (forall i p, nth_error W i = Some p -> (i < length (writes_of 4 l1))%nat /\ done_at (writes_of 4 l1) (w_outs l1) i (snd p)) /\
  Forall (write_legal 4) (z_wpend x0 ++ a_wsubmitted (zrtasks ex_zh1)) /\ Forall (read_legal 4) (z_rpend x0 ++ a_rsubmitted (zrtasks ex_zh1)) /\
  length (z_wpend x0 ++ a_wsubmitted (zrtasks ex_zh1)) = 2%nat.
Proof.
  split; [apply ex_nopokes; vm_compute; reflexivity|]. split; [apply ex_calms; vm_compute; reflexivity|]. split; [apply ex_calms; vm_compute; reflexivity|].
  assert (E : let '(x0, l0) := ex_zrun (zrw_init (sm_init 16)) ex_zh0 in
    let '(xr, lr) := ex_zrun x0 [ZReset true] in
    let '(x1, l1) := ex_zrun xr (ex_zh1 ++ ex_zh2 14) in
    let '(x, l2) := ex_zrun x1 (ex_zh3 20) in
    (writes_of 4 (l1 ++ l2), reads_of 4 (l1 ++ l2), length (reads_of 4 l1), writes_of 4 l1, map (fun u => length (completed_on u (w_outs l1))) [0; 7], z_wpend x0, z_rpend x0) =
    ([(ex_w4, 0); (ex_w5, 7)], [(ex_r4, 7); (ex_read 3 None 0 16 2, 0)], 1%nat, [(ex_w4, 0); (ex_w5, 7)], [1; 1]%nat, [ex_w5], [])) by (vm_compute; reflexivity).
  assert (E1' : a_wsubmitted (zrtasks ex_zh1) = [ex_w4]) by (vm_compute; reflexivity). assert (E2' : a_rsubmitted (zrtasks ex_zh1) = [ex_r4]) by (vm_compute; reflexivity). rewrite E1', E2'. clear E1' E2'.
  destruct (ex_zrun (zrw_init (sm_init 16)) ex_zh0) as [x0 l0]. destruct (ex_zrun x0 [ZReset true]) as [xr lr]. destruct (ex_zrun xr (ex_zh1 ++ ex_zh2 14)) as [x1 l1].
  destruct (ex_zrun x1 (ex_zh3 20)) as [x l2]. injection E as E1 E2 E3 E4 A1 A2 E5 E6. cbv zeta. rewrite E1, E2, E4, E5, E6. clear E1 E2 E5 E6.
  split; [repeat constructor; cbn; try lia; try (exists 2; lia)|]. split; [repeat constructor; cbn; try lia; try (exists 2; lia)|]. split; [exact E3|]. split; [reflexivity|].
  split; [intros [|[|i]] p Hp; cbn in Hp; try (injection Hp as <-); try (destruct i; discriminate); unfold done_at; cbn [snd]; rewrite ?A1, ?A2; vm_compute; lia|].
  split; [repeat constructor; cbn; try lia; try (exists 2; lia)|]. split; [repeat constructor; cbn; try lia; try (exists 2; lia)|reflexivity].
Qed.
(** with the fair schedule of T_clk.v *)
Definition ex_zx1 := let '(x0, l0) := ex_zrun (zrw_init (sm_init 16)) ex_zh0 in let '(xr, lr) := ex_zrun x0 [ZReset true] in fst (ex_zrun xr ex_zh1).
Lemma ex_zx1_zi : zi cp_w2r cp_r2w (fst ex_zx1) /\ snd ex_zx1 = false.
Proof.
  pose proof (zri_rw ram_write ram_read ex_cfg 4 4 (EvAW ex_dA) ex_dB ex_dA ex_dR (sm_init 16) (ex_zh0 ++ ZReset true :: ex_zh1)) as H.
  assert (E : fst (zrw_run ex_cfg 4 4 ram_write ram_read (EvAW ex_dA) ex_dB ex_dA ex_dR (zrw_init (sm_init 16)) (ex_zh0 ++ ZReset true :: ex_zh1)) = ex_zx1).
  { change (ZReset true :: ex_zh1) with ([ZReset true] ++ ex_zh1). unfold ex_zx1, ex_zrun, zrw_run. rewrite zrrun_app. destruct (zr_run _ _ _ _ _ _ _ _ _ _ _ _ _ _ ex_zh0) as [x0 l0]. rewrite zrrun_app.
    destruct (zr_run _ _ _ _ _ _ _ _ _ _ _ _ _ x0 [ZReset true]) as [xr lr]. destruct (zr_run _ _ _ _ _ _ _ _ _ _ _ _ _ xr ex_zh1) as [x1 l1]. reflexivity. }
  rewrite E in H. clear E. assert (E : snd ex_zx1 = false) by (vm_compute; reflexivity). split; [|exact E].
  destruct ex_zx1 as [z on]. cbn in E. subst on. destruct H as (K1 & _ & _ & K2 & K3). split; [exact K2|split; [exact K3|exact K1]].
Qed.
Lemma ex_zx1_calm i : hcalm (hz_w (fst ex_zx1)) i /\ hcalm (hz_r (fst ex_zx1)) i.
Proof. destruct i; vm_compute; repeat split. Qed.
Example C65_axi_nontrivial_fair : (forall m, Forall (fun o => a_no_issue o /\ a_nopoke o) (ztasks [ex_hfair m])) /\
  hax_fair (fun n => fst (fst (ex_zrun ex_zx1 (map ZO (first_steps ex_hfair n))))) ex_hfair.
Proof.
  destruct C63_nontrivial_hyp as (_ & _ & _ & H1 & (F1 & F2 & F3 & F4)). split; [exact H1|].
  destruct ex_zx1_zi as [Hv He]. pose proof ex_zx1_calm as Hc. destruct ex_zx1 as [z on]. cbn [fst snd] in *. subst on.
  assert (Er : forall hh, fst (fst (ex_zrun (z, false) (map ZO hh))) = fst (hrw_run ex_cfg 4 4 ram_write ram_read (EvAW ex_dA) ex_dB ex_dA ex_dR z hh)).
  { intros hh. unfold ex_zrun, zrw_run, hrw_run. clear. revert z. induction hh as [|o hh IH]; intros z; [reflexivity|]. cbn [map zr_run zr_step andb hax_run].
    destruct (hax_step _ _ _ _ _ _ _ _ _ _ _ z o) as [z2 o2]. specialize (IH z2). destruct (zr_run _ _ _ _ _ _ _ _ _ _ _ _ _ (z2, false) (map ZO hh)), (hax_run _ _ _ _ _ _ _ _ _ _ _ z2 hh). exact IH. }
  apply C63_steady_is_fair; [exact F1|exact F2| | |].
  - intros i n. destruct (F3 i n) as (m1 & m2 & m3 & Hm & E1 & _). exists m1. split; [lia|exact E1].
  - intros i n. destruct (F4 i n) as (m1 & m2 & m3 & Hm & E1 & _). exists m1. split; [lia|exact E1].
  - exists 0%nat. intros t _ i. rewrite Er. exact (rw_calm _ _ _ _ _ _ _ _ _ _ _ Hv Hc ex_hfair_np t i).
Qed.
Example C65_axi_nontrivial_completes :
  let '(x, l) := ex_zrun ex_zx1 (map ZO (first_steps ex_hfair 1200)) in
  (ex_wnos l, ex_show l, x_is_idle (h_m (hz_w (fst x))), x_is_idle (h_m (hz_r (fst x))), map (peek (zrw_target x)) (zrange 0 16)) =
  ([4; 5], [(4, Some ([5; 41; 42; 8], OKAY))], true, true, [0; 0; 1; 2; 3; 4; 5; 41; 42; 8; 9; 10; 51; 0; 0; 0]).
Proof. vm_compute. reflexivity. Qed.
