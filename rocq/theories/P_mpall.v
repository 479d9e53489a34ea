(** Multi-port memories: all the ports together. *)
From Coq Require Import ZArith Lia List Bool.
From Coq Require Import ZifyBool ZifyNat.
From Verif Require Import Py S_flat M_axi S_axi P_axi P_axislave P_axiop P_axicomp P_axiram M_axil S_axil P_axil
  M_liteeng S_liteeng P_liteeng M_axieng S_axieng P_axieng P_axiattr T_axieng M_sys S_sys P_sys P_syswr P_sysrd T_sys T_sysrd M_axisys S_axisys P_sysram
  M_litesys S_litesys P_litesys P_litewr P_literd T_litesys M_literw S_literw P_literw M_mport S_mport P_mport P_mpaxi P_mplite.
Import ListNotations.
Open Scope Z_scope.

(** views with equal contents *)
Record view_eq (v v' : pview) : Prop := {
  ve_writes : forall k, pv_writes v' k = pv_writes v k;
  ve_wdone : forall k i, pv_wdone v' k i -> pv_wdone v k i;
  ve_wret : forall i r, pv_wret v' i r -> pv_wret v i r;
  ve_reads : forall k, pv_reads v' k = pv_reads v k;
  ve_rdone : forall k i, pv_rdone v' k i -> pv_rdone v k i;
  ve_rret : forall i r, pv_rret v' i r -> pv_rret v i r;
  ve_word : forall j x, pv_word v' j x = pv_word v j x }.
Lemma served_ext phi n m m' own own' v v' : served phi n m own v -> (forall k, (k <= n)%nat -> m' k = m k) -> (forall k, (k < n)%nat -> own' k = own k) -> view_eq v v' ->
  served phi n m' own' v'.
Proof.
  intros (H0 & bs & mom & H1 & H2 & H3 & H4 & H5 & H6 & H7 & H8 & H9 & H10 & H11) Em Eo [E1 E2 E3 E4 E5 E6 E7].
  assert (Hin : forall j x, in_read v' n j x -> in_read v n j x) by (intros j x (a & len & E & Hx); exists a, len; rewrite <- E4; auto).
  split; [intros k k' Hk; rewrite !E1, !E4; now apply H0|]. exists bs, mom.
  split; [intros k Hk E; apply H1; auto; now rewrite <- Eo|].
  split; [intros k Hk E; rewrite !Em by lia; apply H2; auto; now rewrite <- Eo|].
  split; [intros k Hk; rewrite E1; now apply H3|].
  split; [intros k i b Hk; rewrite E1; intros E Hb Hd; eapply H4; eauto|].
  split; [intros i r Hr; eapply H5; eauto|].
  split.
  { intros j a len d E Hd. rewrite E4 in E. rewrite (H6 j a len d E (E6 _ _ Hd)). f_equal. apply map_ext_in. intros x Hx. apply in_zrange in Hx.
    rewrite Em; auto. apply H7. exists a, len. auto. }
  split; [auto|]. split; [intros k j x Hk Hx; rewrite E4; auto|]. split; [eauto|]. split; [intros j x x' Hx Hx'; rewrite !E7; auto|]. auto.
Qed.
Lemma returned_ext n v v' : all_returned v n -> view_eq v' v -> all_returned v' n.
Proof. intros [H1 H2] [E1 E2 E3 E4 E5 E6 E7]. split; [intros i Hi; rewrite <- E1 in Hi; destruct (H1 i Hi) as [r Hr]; eauto|intros j Hj; rewrite <- E4 in Hj; destruct (H2 j Hj) as [r Hr]; eauto]. Qed.
Lemma axi_view_eq c widn ridn n l l' : (forall k, l' k = l k) -> view_eq (axi_view c widn ridn n l) (axi_view c widn ridn n l').
Proof. intros E. constructor; cbn; intros; rewrite ?E in *; auto. Qed.
Lemma lite_view_eq L n l l' : (forall k, l' k = l k) -> view_eq (lite_view L n l) (lite_view L n l').
Proof. intros E. constructor; cbn; intros; rewrite ?E in *; auto. Qed.

Lemma outs_at_app i a b : outs_at i (a ++ b) = outs_at i a ++ outs_at i b.
Proof. apply flat_map_app. Qed.
Lemma outs_at_pair i j os : outs_at i (map (pair j) os) = if Nat.eqb j i then os else [].
Proof. induction os as [|o os IH]; [now destruct (Nat.eqb j i)|]. unfold outs_at in *. cbn. rewrite IH. now destruct (Nat.eqb j i). Qed.
Lemma axi_outs_app a b : axi_outs (a ++ b) = axi_outs a ++ axi_outs b.
Proof. apply flat_map_app. Qed.
Lemma lite_outs_app a b : lite_outs (a ++ b) = lite_outs a ++ lite_outs b.
Proof. apply flat_map_app. Qed.
Lemma axi_outs_inl l : axi_outs (map inl l) = l.
Proof. induction l as [|a l IH]; [reflexivity|]. unfold axi_outs in *. cbn. now rewrite IH. Qed.
Lemma lite_outs_inr l : lite_outs (map inr l) = l.
Proof. induction l as [|a l IH]; [reflexivity|]. unfold lite_outs in *. cbn. now rewrite IH. Qed.

Section All.
Context {T : Type}.
Variables (inv : T -> Prop) (view : T -> flat).
Local Notation TW := (T * list call)%type.
Local Notation TR := (T * list rcall)%type.
Local Notation pstep := (p_step cp_w2r cp_r2w).
Local Notation pupd := (p_upd cp_w2r cp_r2w cp_up).
Local Notation pmem := (p_mem (T := T) (TW := TW) (TR := TR) fst).
Local Notation step := (mp_step (T := T) (TW := TW) (TR := TR) cp_w2r cp_r2w fst cp_up).
Local Notation run := (mpr_run (T := T)).

Lemma nth_share i q (l : list (pcfg TW TR * pst TW TR)) : forall k, nth_error (share cp_w2r cp_r2w fst cp_up i q l) k =
  if Nat.eqb k i then option_map (fun pq => (fst pq, q)) (nth_error l k) else option_map (fun pq => (fst pq, pupd (fst pq) (fun _ => pmem q) (snd pq))) (nth_error l k).
Proof.
  revert i. induction l as [|[p q0] l IH]; intros i k.
  - cbn. now destruct k, i, (Nat.eqb _ _).
  - destruct i as [|i], k as [|k]; cbn [share nth_error option_map fst snd Nat.eqb]; auto. now rewrite nth_error_map.
Qed.
Lemma mp_run_app s h1 h2 : run s (h1 ++ h2) = let '(s1, o1) := run s h1 in let '(s2, o2) := run s1 h2 in (s2, o1 ++ o2).
Proof.
  unfold mpr_run. revert s. induction h1 as [|o h1 IH]; intros s; cbn [app mp_run].
  - now destruct (mp_run cp_w2r cp_r2w fst cp_up s h2).
  - destruct (step s o) as [s1 o1]. rewrite IH. destruct (mp_run cp_w2r cp_r2w fst cp_up s1 h1) as [s2 o2]. destruct (mp_run cp_w2r cp_r2w fst cp_up s2 h2) as [s3 o3]. now rewrite app_assoc.
Qed.

(** what port i sees of a step after which the memory is t *)
Definition axi_seen (i : nat) (t : T) (o : mop T TW TR) : aop TW TR :=
  match o with
  | MPort j (OAxi o) => if Nat.eqb j i then o else BW (YPoke (ws_poke (cp_up (fun _ => t))))
  | MPort _ (OLite _) => BW (YPoke (ws_poke (cp_up (fun _ => t))))
  | MDirect f => BW (YPoke (ws_poke (cp_up f)))
  end.
Definition lite_seen (i : nat) (t : T) (o : mop T TW TR) : lxop TW TR :=
  match o with
  | MPort j (OLite o) => if Nat.eqb j i then o else VW (UPoke (lws_poke (cp_up (fun _ => t))))
  | MPort _ (OAxi _) => VW (UPoke (lws_poke (cp_up (fun _ => t))))
  | MDirect f => VW (UPoke (lws_poke (cp_up f)))
  end.
Fixpoint hist {X} (seen : T -> mop T TW TR -> X) (s : mps T TW TR) (h : list (mop T TW TR)) : list X :=
  match h with [] => [] | o :: h' => seen (mp_t (fst (step s o))) o :: hist seen (fst (step s o)) h' end.
Lemma hist_len {X} (seen : T -> mop T TW TR -> X) h : forall s, length (hist seen s h) = length h.
Proof. induction h as [|o h IH]; intros s; cbn; auto. Qed.
Lemma hist_firstn {X} (seen : T -> mop T TW TR -> X) h : forall s k, firstn k (hist seen s h) = hist seen s (firstn k h).
Proof. induction h as [|o h IH]; intros s [|k]; cbn; auto. now rewrite IH. Qed.
Lemma hist_nth {X} (seen : T -> mop T TW TR -> X) h : forall s k o, nth_error h k = Some o -> exists t, nth_error (hist seen s h) k = Some (seen t o).
Proof. induction h as [|o0 h IH]; intros s [|k] o E; try discriminate; cbn in *; [injection E as <-; eauto|now apply IH]. Qed.

(** the ports and the memory they see *)
Variable ps : list (mport T).
Definition q_ok (p : mport T) (q : pst TW TR) (t : T) : Prop :=
  match p, q with PtAxi _ _ _ _ _ _ _ _, QAxi z => rw_target z = t | PtLite _ _ _ _ _ _, QLite v => lrw_target v = t | _, _ => False end.
Definition Agree (s : mps T TW TR) : Prop :=
  forall i, match nth_error ps i with Some p => exists q, nth_error (mp_ports s) i = Some (pt_cfg p, q) /\ q_ok p q (mp_t s) | None => nth_error (mp_ports s) i = None end.
Lemma agree_init t : Agree (mpr_init t ps).
Proof.
  intros i. unfold mpr_init, mp_init. cbn [mp_ports mp_t]. rewrite map_map, nth_error_map. destruct (nth_error ps i) as [p|]; [|reflexivity]. cbn.
  eexists. split; [reflexivity|]. now destruct p.
Qed.
Lemma upd_ok p q t f : q_ok p q t -> q_ok p (pupd (pt_cfg p) f q) (f t).
Proof.
  destruct p, q; cbn; try tauto; unfold rw_target, lrw_target; intros <-; cbn.
  - now destruct (y_s (z_w z)).
  - now destruct (u_s (v_w v)).
Qed.
Lemma q_mem p q t : q_ok p q t -> pmem q = t.
Proof. destruct p, q; cbn; tauto. Qed.
Lemma agree_step s o : mop_ok inv ps o -> Agree s -> Agree (fst (step s o)).
Proof.
  intros Ho HA i. specialize (HA i) as HAi. destruct o as [j o|f]; cbn [mop_ok mp_step] in *.
  - destruct Ho as (p0 & Ep0 & Ho). pose proof (HA j) as HAj. rewrite Ep0 in HAj. destruct HAj as (q0 & Eq0 & Hq0). rewrite Eq0.
    destruct (pstep (pt_cfg p0) q0 o) as [q' os] eqn:Es. cbn [fst mp_t mp_ports]. rewrite nth_share. destruct (nth_error ps i) as [p|] eqn:Ep.
    + destruct HAi as (q & Eq & Hq). rewrite Eq. destruct (Nat.eqb_spec i j) as [->|Hij]; cbn [option_map fst snd].
      * rewrite Eq0 in Eq. injection Eq as E1 E2. subst. rewrite Ep0 in Ep. injection Ep as <-. eexists. split; [reflexivity|].
        destruct p0, q, o; cbn in Hq0, Ho, Es; try tauto.
        -- destruct (ax_step _ _ _ _ _ _ _ _ _). injection Es as <- _. reflexivity.
        -- destruct (lx_step _ _ _ _ _ _ _). injection Es as <- _. reflexivity.
      * eexists. split; [reflexivity|]. exact (upd_ok p q (mp_t s) (fun _ => pmem q') Hq).
    + rewrite HAi. now destruct (Nat.eqb i j).
  - cbn [fst mp_ports mp_t]. rewrite nth_error_map. destruct (nth_error ps i) as [p|]; [|now rewrite HAi].
    destruct HAi as (q & -> & Hq). cbn. eexists. split; [reflexivity|]. exact (upd_ok p q (mp_t s) f Hq).
Qed.

(** port i's run *)
Lemma proj_axi i c widn ridn tw tr lo hi phi : nth_error ps i = Some (PtAxi c widn ridn tw tr lo hi phi) -> forall h s z, Forall (mop_ok inv ps) h -> Agree s ->
  nth_error (mp_ports s) i = Some (CAxi c widn ridn (log_write tw) (log_read tr), QAxi z) ->
  exists z', ax_run c widn ridn (log_write tw) (log_read tr) cp_w2r cp_r2w z (hist (axi_seen i) s h) = (z', axi_outs (outs_at i (snd (run s h)))) /\
    nth_error (mp_ports (fst (run s h))) i = Some (CAxi c widn ridn (log_write tw) (log_read tr), QAxi z') /\ rw_target z' = mp_t (fst (run s h)) /\ Agree (fst (run s h)).
Proof.
  intros Ep. induction h as [|o h IH]; intros s z Hh HA Ez.
  - exists z. cbn. split; [reflexivity|]. split; [exact Ez|]. split; [|exact HA]. specialize (HA i). rewrite Ep in HA. destruct HA as (q & Eq & Hq).
    assert (q = QAxi z) as -> by (cbn in Eq; congruence). exact Hq.
  - inversion Hh as [|? ? Ho Hh']; subst. pose proof (agree_step s o Ho HA) as HA1. cbn [hist ax_run].
    unfold mpr_run in IH |- *. cbn [mp_run].
    assert (Hs : exists z1 os, ax_step c widn ridn (log_write tw) (log_read tr) cp_w2r cp_r2w z (axi_seen i (mp_t (fst (step s o))) o) = (z1, os) /\
       nth_error (mp_ports (fst (step s o))) i = Some (CAxi c widn ridn (log_write tw) (log_read tr), QAxi z1) /\ axi_outs (outs_at i (snd (step s o))) = os).
    { destruct o as [j o|f]; cbn [mop_ok mp_step] in *.
      - destruct Ho as (p0 & Ep0 & Ho). pose proof (HA j) as HAj. rewrite Ep0 in HAj. destruct HAj as (q0 & Eq0 & Hq0). rewrite Eq0.
        destruct (pstep (pt_cfg p0) q0 o) as [q' os] eqn:Es. cbn [fst snd mp_t mp_ports]. rewrite nth_share, Ez. cbn [option_map fst snd]. rewrite outs_at_pair.
        destruct (Nat.eqb_spec i j) as [->|Hij].
        + rewrite Nat.eqb_refl. rewrite Ez in Eq0. injection Eq0 as E1 E2. rewrite Ep in Ep0. injection Ep0 as <-. subst q0. destruct o as [o|o]; [|destruct Ho].
          cbn [pt_cfg p_step axi_seen] in Es |- *. rewrite Nat.eqb_refl. destruct (ax_step c widn ridn (log_write tw) (log_read tr) cp_w2r cp_r2w z o) as [z1 os1]. injection Es as <- <-.
          exists z1, os1. split; [reflexivity|]. split; [reflexivity|]. apply axi_outs_inl.
        + assert (Es' : axi_seen i (pmem q') (MPort j o) = BW (YPoke (ws_poke (cp_up (fun _ => pmem q'))))) by (destruct o; cbn; auto; now rewrite (proj2 (Nat.eqb_neq j i) (fun K => Hij (eq_sym K)))).
          rewrite Es'. rewrite (proj2 (Nat.eqb_neq j i) (fun K => Hij (eq_sym K))). cbn. eexists. eexists. split; [reflexivity|]. split; reflexivity.
      - cbn [fst snd mp_ports mp_t axi_seen]. rewrite nth_error_map, Ez. cbn. eexists. eexists. split; [reflexivity|]. split; reflexivity. }
    destruct Hs as (z1 & os & E1 & E2 & E3). rewrite E1. destruct (IH _ z1 Hh' HA1 E2) as (z' & K1 & K2 & K3 & K4). rewrite K1. destruct (step s o) as [s1 o1]. cbn [fst snd] in *.
    destruct (mp_run cp_w2r cp_r2w fst cp_up s1 h) as [s2 o2]. cbn [fst snd] in *. exists z'. rewrite outs_at_app, axi_outs_app, E3. auto.
Qed.
Lemma proj_lite i L tw tr lo hi phi : nth_error ps i = Some (PtLite L tw tr lo hi phi) -> forall h s z, Forall (mop_ok inv ps) h -> Agree s ->
  nth_error (mp_ports s) i = Some (CLite L (log_write tw) (log_read tr), QLite z) ->
  exists z', lx_run L (log_write tw) (log_read tr) cp_w2r cp_r2w z (hist (lite_seen i) s h) = (z', lite_outs (outs_at i (snd (run s h)))) /\
    nth_error (mp_ports (fst (run s h))) i = Some (CLite L (log_write tw) (log_read tr), QLite z') /\ lrw_target z' = mp_t (fst (run s h)) /\ Agree (fst (run s h)).
Proof.
  intros Ep. induction h as [|o h IH]; intros s z Hh HA Ez.
  - exists z. cbn. split; [reflexivity|]. split; [exact Ez|]. split; [|exact HA]. specialize (HA i). rewrite Ep in HA. destruct HA as (q & Eq & Hq).
    assert (q = QLite z) as -> by (cbn in Eq; congruence). exact Hq.
  - inversion Hh as [|? ? Ho Hh']; subst. pose proof (agree_step s o Ho HA) as HA1. cbn [hist lx_run].
    unfold mpr_run in IH |- *. cbn [mp_run].
    assert (Hs : exists z1 os, lx_step L (log_write tw) (log_read tr) cp_w2r cp_r2w z (lite_seen i (mp_t (fst (step s o))) o) = (z1, os) /\
       nth_error (mp_ports (fst (step s o))) i = Some (CLite L (log_write tw) (log_read tr), QLite z1) /\ lite_outs (outs_at i (snd (step s o))) = os).
    { destruct o as [j o|f]; cbn [mop_ok mp_step] in *.
      - destruct Ho as (p0 & Ep0 & Ho). pose proof (HA j) as HAj. rewrite Ep0 in HAj. destruct HAj as (q0 & Eq0 & Hq0). rewrite Eq0.
        destruct (pstep (pt_cfg p0) q0 o) as [q' os] eqn:Es. cbn [fst snd mp_t mp_ports]. rewrite nth_share, Ez. cbn [option_map fst snd]. rewrite outs_at_pair.
        destruct (Nat.eqb_spec i j) as [->|Hij].
        + rewrite Nat.eqb_refl. rewrite Ez in Eq0. injection Eq0 as E1 E2. rewrite Ep in Ep0. injection Ep0 as <-. subst q0. destruct o as [o|o]; [destruct Ho|].
          cbn [pt_cfg p_step lite_seen] in Es |- *. rewrite Nat.eqb_refl. destruct (lx_step L (log_write tw) (log_read tr) cp_w2r cp_r2w z o) as [z1 os1]. injection Es as <- <-.
          exists z1, os1. split; [reflexivity|]. split; [reflexivity|]. apply lite_outs_inr.
        + assert (Es' : lite_seen i (pmem q') (MPort j o) = VW (UPoke (lws_poke (cp_up (fun _ => pmem q'))))) by (destruct o; cbn; auto; now rewrite (proj2 (Nat.eqb_neq j i) (fun K => Hij (eq_sym K)))).
          rewrite Es'. rewrite (proj2 (Nat.eqb_neq j i) (fun K => Hij (eq_sym K))). cbn. eexists. eexists. split; [reflexivity|]. split; reflexivity.
      - cbn [fst snd mp_ports mp_t lite_seen]. rewrite nth_error_map, Ez. cbn. eexists. eexists. split; [reflexivity|]. split; reflexivity. }
    destruct Hs as (z1 & os & E1 & E2 & E3). rewrite E1. destruct (IH _ z1 Hh' HA1 E2) as (z' & K1 & K2 & K3 & K4). rewrite K1. destruct (step s o) as [s1 o1]. cbn [fst snd] in *.
    destruct (mp_run cp_w2r cp_r2w fst cp_up s1 h) as [s2 o2]. cbn [fst snd] in *. exists z'. rewrite outs_at_app, lite_outs_app, E3. auto.
Qed.

Hypothesis Hps : Forall (pt_ok inv view) ps.
Variable t0 : T.
Hypothesis Ht0 : inv t0.
Local Notation s0 := (mpr_init t0 ps).

Lemma pt_nth i p : nth_error ps i = Some p -> pt_ok inv view p.
Proof. intros E. exact (proj1 (Forall_forall _ _) Hps _ (nth_error_In _ _ E)). Qed.

Section AxiPort.
Variables (i : nat) (c : mcfg) (widn ridn : Z) (tw : tgt_w T) (tr : tgt_r T) (lo hi : Z) (phi : Z -> Z).
Hypothesis Ep : nth_error ps i = Some (PtAxi c widn ridn tw tr lo hi phi).
Variable h : list (mop T TW TR).
Hypothesis Hh : Forall (mop_ok inv ps) h.
Local Notation H := (hist (axi_seen i) s0 h).

Lemma axi_at k : exists z', ax_run c widn ridn (log_write tw) (log_read tr) cp_w2r cp_r2w (rw_init t0) (firstn k H) = (z', axi_outs (outs_after s0 h i k)) /\
    nth_error (mp_ports (fst (run s0 (firstn k h)))) i = Some (CAxi c widn ridn (log_write tw) (log_read tr), QAxi z') /\ rw_target z' = mem_after s0 h k.
Proof.
  rewrite hist_firstn. destruct (proj_axi i c widn ridn tw tr lo hi phi Ep (firstn k h) s0 (rw_init t0)) as (z' & K1 & K2 & K3 & _).
  - rewrite <- (firstn_skipn k h) in Hh. now apply Forall_app in Hh.
  - apply agree_init.
  - unfold mpr_init, mp_init. cbn [mp_ports]. rewrite map_map, nth_error_map, Ep. reflexivity.
  - exists z'. auto.
Qed.
Lemma axi_tgt k : rw_target (Zk tw tr c widn ridn t0 H k) = mem_after s0 h k.
Proof. unfold Zk. destruct (axi_at k) as (z' & -> & _ & E). exact E. Qed.
Lemma axi_lk k : lk tw tr c widn ridn t0 H k = axi_outs (outs_after s0 h i k).
Proof. unfold lk. now destruct (axi_at k) as (z' & -> & _ & E). Qed.
Lemma axi_ops k o : nth_error h k = Some o -> exists o', nth_error H k = Some o' /\ a_env o' /\ a_pokeb o' = negb (step_of i o).
Proof.
  intros E. destruct (hist_nth (axi_seen i) h s0 k o E) as [t Et]. eexists. split; [exact Et|].
  pose proof (proj1 (Forall_forall _ _) Hh _ (nth_error_In _ _ E)) as Ho. destruct o as [j o|f]; cbn [mop_ok step_of axi_seen] in *; [|split; cbn; eauto].
  destruct Ho as (p & Ej & Ho). destruct (Nat.eqb_spec j i) as [->|Hij].
  - rewrite Ep in Ej. injection Ej as <-. destruct o as [o|o]; [|destruct Ho]. cbn in Ho. destruct o as [o|o], o; cbn in *; tauto.
  - destruct o; split; cbn; eauto.
Qed.
Lemma axi_own k : ownk H k = own_steps h i k.
Proof.
  unfold ownk, own_steps. destruct (nth_error h k) as [o|] eqn:E.
  - destruct (axi_ops k o E) as (o' & -> & _ & ->). now destruct (step_of i o).
  - assert (nth_error H k = None) as -> by (apply nth_error_None; rewrite hist_len; now apply nth_error_None). reflexivity.
Qed.
Lemma axi_envs : Forall a_env H.
Proof.
  apply Forall_forall. intros o' Hin. apply In_nth_error in Hin as [k Ek]. assert (Hk : (k < length h)%nat) by (rewrite <- (hist_len (axi_seen i) h s0); apply nth_error_Some; congruence).
  destruct (nth_error h k) as [o|] eqn:E; [|apply nth_error_None in E; lia]. destruct (axi_ops k o E) as (o'' & E' & K & _). congruence.
Qed.
Hypothesis Hinv : forall k, (k < length h)%nat -> own_steps h i k = false -> inv (mem_after s0 h k) -> inv (mem_after s0 h (S k)).
Hypothesis Hleg : pt_legal (PtAxi c widn ridn tw tr lo hi phi) (outs_after s0 h i (length h)).

Lemma axi_henv : forall k, (k < length H)%nat -> ownk H k = false -> inv (rw_target (Zk tw tr c widn ridn t0 H k)) -> inv (rw_target (Zk tw tr c widn ridn t0 H (S k))).
Proof. intros k. rewrite hist_len, axi_own, !axi_tgt. apply Hinv. Qed.
Lemma axi_legal : Forall (write_in (m_lanes c) lo hi) (writes_of widn (lk tw tr c widn ridn t0 H (length H))) /\
  Forall (read_in (m_lanes c) lo hi) (reads_of ridn (lk tw tr c widn ridn t0 H (length H))).
Proof. rewrite hist_len, axi_lk. exact Hleg. Qed.
Lemma axi_port_inv k : (k <= length h)%nat -> inv (mem_after s0 h k).
Proof.
  intros Hk. destruct (pt_nth i _ Ep) as (P1 & P2 & P3 & P4 & P5 & P6). rewrite <- axi_tgt.
  apply (inv_k lo hi phi inv view tw tr c P1 P2 P3 P4 widn ridn P5 P6 t0 Ht0 H axi_envs axi_henv (proj1 axi_legal) (proj2 axi_legal)). now rewrite hist_len.
Qed.
Lemma axi_port_served : served phi (length h) (fun k => view (mem_after s0 h k)) (own_steps h i) (pt_view (PtAxi c widn ridn tw tr lo hi phi) (length h) (outs_after s0 h i)).
Proof.
  destruct (pt_nth i _ Ep) as (P1 & P2 & P3 & P4 & P5 & P6).
  pose proof (axi_served lo hi phi inv view tw tr c P1 P2 P3 P4 widn ridn P5 P6 t0 Ht0 H axi_envs axi_henv (proj1 axi_legal) (proj2 axi_legal)) as K. rewrite hist_len in K.
  eapply served_ext; [exact K| | |].
  - intros k _. cbv beta. now rewrite axi_tgt.
  - intros k _. now rewrite axi_own.
  - apply axi_view_eq. intros k. now rewrite axi_lk.
Qed.
Lemma axi_port_quiet : port_quiet (fst (run s0 h)) i -> all_returned (pt_view (PtAxi c widn ridn tw tr lo hi phi) (length h) (outs_after s0 h i)) (length h).
Proof.
  intros Hq. destruct (pt_nth i _ Ep) as (P1 & P2 & P3 & P4 & P5 & P6).
  pose proof (axi_quiet lo hi phi inv view tw tr c P1 P2 P3 P4 widn ridn P5 P6 t0 Ht0 H axi_envs axi_henv (proj1 axi_legal) (proj2 axi_legal)) as K. rewrite hist_len in K.
  eapply returned_ext; [apply K|apply axi_view_eq; intros k; cbv beta; apply axi_lk].
  destruct (axi_at (length h)) as (z' & E1 & E2 & _). unfold Zk. rewrite E1. cbn [fst]. rewrite firstn_all in E2.
  intros o Ho. specialize (Hq (OAxi o) Ho). cbn [mp_step] in Hq. rewrite E2 in Hq. cbn [p_step] in Hq.
  destruct (ax_step c widn ridn (log_write tw) (log_read tr) cp_w2r cp_r2w z' o) as [z1 os]. injection Hq as Q1 Q2.
  apply map_eq_nil, map_eq_nil in Q2. subst os. f_equal. apply (f_equal mp_ports), (f_equal (fun l => nth_error l i)) in Q1. cbn [mp_ports] in Q1. rewrite nth_share, Nat.eqb_refl, E2 in Q1. cbn in Q1. congruence.
Qed.
End AxiPort.

Section LitePort.
Variables (i : nat) (L : Z) (tw : tgt_w T) (tr : tgt_r T) (lo hi : Z) (phi : Z -> Z).
Hypothesis Ep : nth_error ps i = Some (PtLite L tw tr lo hi phi).
Variable h : list (mop T TW TR).
Hypothesis Hh : Forall (mop_ok inv ps) h.
Local Notation H := (hist (lite_seen i) s0 h).

Lemma lite_at k : exists z', lx_run L (log_write tw) (log_read tr) cp_w2r cp_r2w (lrw_init t0) (firstn k H) = (z', lite_outs (outs_after s0 h i k)) /\
    nth_error (mp_ports (fst (run s0 (firstn k h)))) i = Some (CLite L (log_write tw) (log_read tr), QLite z') /\ lrw_target z' = mem_after s0 h k.
Proof.
  rewrite hist_firstn. destruct (proj_lite i L tw tr lo hi phi Ep (firstn k h) s0 (lrw_init t0)) as (z' & K1 & K2 & K3 & _).
  - rewrite <- (firstn_skipn k h) in Hh. now apply Forall_app in Hh.
  - apply agree_init.
  - unfold mpr_init, mp_init. cbn [mp_ports]. rewrite map_map, nth_error_map, Ep. reflexivity.
  - exists z'. auto.
Qed.
Lemma lite_tgt k : lrw_target (Vk tw tr L t0 H k) = mem_after s0 h k.
Proof. unfold Vk. destruct (lite_at k) as (z' & -> & _ & E). exact E. Qed.
Lemma lite_lk k : vlk tw tr L t0 H k = lite_outs (outs_after s0 h i k).
Proof. unfold vlk. now destruct (lite_at k) as (z' & -> & _ & E). Qed.
Lemma lite_ops k o : nth_error h k = Some o -> exists o', nth_error H k = Some o' /\ v_env o' /\ v_pokeb o' = negb (step_of i o).
Proof.
  intros E. destruct (hist_nth (lite_seen i) h s0 k o E) as [t Et]. eexists. split; [exact Et|].
  pose proof (proj1 (Forall_forall _ _) Hh _ (nth_error_In _ _ E)) as Ho. destruct o as [j o|f]; cbn [mop_ok step_of lite_seen] in *; [|split; cbn; eauto].
  destruct Ho as (p & Ej & Ho). destruct (Nat.eqb_spec j i) as [->|Hij].
  - rewrite Ep in Ej. injection Ej as <-. destruct o as [o|o]; [destruct Ho|]. cbn in Ho. destruct o as [o|o], o; cbn in *; tauto.
  - destruct o; split; cbn; eauto.
Qed.
Lemma lite_own k : vownk H k = own_steps h i k.
Proof.
  unfold vownk, own_steps. destruct (nth_error h k) as [o|] eqn:E.
  - destruct (lite_ops k o E) as (o' & -> & _ & ->). now destruct (step_of i o).
  - assert (nth_error H k = None) as -> by (apply nth_error_None; rewrite hist_len; now apply nth_error_None). reflexivity.
Qed.
Lemma lite_envs : Forall v_env H.
Proof.
  apply Forall_forall. intros o' Hin. apply In_nth_error in Hin as [k Ek]. assert (Hk : (k < length h)%nat) by (rewrite <- (hist_len (lite_seen i) h s0); apply nth_error_Some; congruence).
  destruct (nth_error h k) as [o|] eqn:E; [|apply nth_error_None in E; lia]. destruct (lite_ops k o E) as (o'' & E' & K & _). congruence.
Qed.
Hypothesis Hinv : forall k, (k < length h)%nat -> own_steps h i k = false -> inv (mem_after s0 h k) -> inv (mem_after s0 h (S k)).
Hypothesis Hleg : pt_legal (PtLite L tw tr lo hi phi) (outs_after s0 h i (length h)).

Lemma lite_henv : forall k, (k < length H)%nat -> vownk H k = false -> inv (lrw_target (Vk tw tr L t0 H k)) -> inv (lrw_target (Vk tw tr L t0 H (S k))).
Proof. intros k. rewrite hist_len, lite_own, !lite_tgt. apply Hinv. Qed.
Lemma lite_legal : Forall (lwrite_in lo hi) (lwrites_of (vlk tw tr L t0 H (length H))) /\ Forall (lread_in lo hi) (lreads_of (vlk tw tr L t0 H (length H))).
Proof. rewrite hist_len, lite_lk. exact Hleg. Qed.
Lemma lite_port_inv k : (k <= length h)%nat -> inv (mem_after s0 h k).
Proof.
  intros Hk. destruct (pt_nth i _ Ep) as (P1 & P2 & P3 & P4). rewrite <- lite_tgt.
  apply (linv_k lo hi phi inv view tw tr L P1 P2 P3 P4 t0 Ht0 H lite_envs lite_henv (proj1 lite_legal) (proj2 lite_legal)). now rewrite hist_len.
Qed.
Lemma lite_port_served : served phi (length h) (fun k => view (mem_after s0 h k)) (own_steps h i) (pt_view (PtLite L tw tr lo hi phi) (length h) (outs_after s0 h i)).
Proof.
  destruct (pt_nth i _ Ep) as (P1 & P2 & P3 & P4).
  pose proof (lite_served lo hi phi inv view tw tr L P1 P2 P3 P4 t0 Ht0 H lite_envs lite_henv (proj1 lite_legal) (proj2 lite_legal)) as K. rewrite hist_len in K.
  eapply served_ext; [exact K| | |].
  - intros k _. cbv beta. now rewrite lite_tgt.
  - intros k _. now rewrite lite_own.
  - apply lite_view_eq. intros k. now rewrite lite_lk.
Qed.
Lemma lite_port_quiet : port_quiet (fst (run s0 h)) i -> all_returned (pt_view (PtLite L tw tr lo hi phi) (length h) (outs_after s0 h i)) (length h).
Proof.
  intros Hq. destruct (pt_nth i _ Ep) as (P1 & P2 & P3 & P4).
  pose proof (lite_quiet lo hi inv tw tr L P2 t0 H lite_envs lite_henv (proj1 lite_legal) (proj2 lite_legal)) as K. rewrite hist_len in K.
  eapply returned_ext; [apply K|apply lite_view_eq; intros k; cbv beta; apply lite_lk].
  destruct (lite_at (length h)) as (z' & E1 & E2 & _). unfold Vk. rewrite E1. cbn [fst]. rewrite firstn_all in E2.
  intros o Ho. specialize (Hq (OLite o) Ho). cbn [mp_step] in Hq. rewrite E2 in Hq. cbn [p_step] in Hq.
  destruct (lx_step L (log_write tw) (log_read tr) cp_w2r cp_r2w z' o) as [z1 os]. injection Hq as Q1 Q2.
  apply map_eq_nil, map_eq_nil in Q2. subst os. f_equal. apply (f_equal mp_ports), (f_equal (fun l => nth_error l i)) in Q1. cbn [mp_ports] in Q1. rewrite nth_share, Nat.eqb_refl, E2 in Q1. cbn in Q1. congruence.
Qed.
End LitePort.

(** ** all of them *)
Variable h : list (mop T TW TR).
Hypothesis Hh : Forall (mop_ok inv ps) h.
Hypothesis Hleg : forall i p, nth_error ps i = Some p -> pt_legal p (outs_after s0 h i (length h)).

Lemma mem_S k o : nth_error h k = Some o -> fst (run s0 (firstn (S k) h)) = fst (step (fst (run s0 (firstn k h))) o).
Proof.
  intros E. rewrite (firstn_snoc _ _ _ E), mp_run_app. destruct (run s0 (firstn k h)) as [s l]. unfold mpr_run. cbn [mp_run fst]. now destruct (step s o).
Qed.
Lemma outs_pre i k k' : (k <= k')%nat -> exists d, outs_after s0 h i k' = outs_after s0 h i k ++ d.
Proof.
  intros Hk. assert (E : firstn k' h = firstn k h ++ skipn k (firstn k' h)).
  { rewrite <- (firstn_skipn k (firstn k' h)) at 1. rewrite firstn_firstn. f_equal. f_equal. lia. }
  unfold outs_after. rewrite E, mp_run_app. destruct (run s0 (firstn k h)) as [s l]. destruct (run s _) as [s' l']. cbn [snd]. rewrite outs_at_app. now eexists.
Qed.
Lemma legal_pre (p : mport T) l d : pt_legal p (l ++ d) -> pt_legal p l.
Proof.
  destruct p; cbn [pt_legal]; rewrite ?axi_outs_app, ?lite_outs_app.
  - intros [A B]. destruct (zW_app widn (axi_outs l) (axi_outs d)) as [w Ew]. destruct (zR_app ridn (axi_outs l) (axi_outs d)) as [r Er].
    rewrite Ew in A. rewrite Er in B. apply Forall_app in A, B. tauto.
  - rewrite vW_app, vR_app. intros [A B]. apply Forall_app in A, B. tauto.
Qed.
Lemma mem_firstn k k' : (k' <= k)%nat -> mem_after s0 (firstn k h) k' = mem_after s0 h k'.
Proof. intros Hk. unfold mem_after. rewrite firstn_firstn, Nat.min_l by lia. reflexivity. Qed.
Lemma own_firstn i k k' : (k' < k)%nat -> own_steps (firstn k h) i k' = own_steps h i k'.
Proof.
  intros Hk. unfold own_steps. replace (nth_error (firstn k h) k') with (nth_error h k'); auto. rewrite <- (firstn_skipn k h) at 1.
  destruct (Nat.lt_ge_cases k' (length (firstn k h))) as [|K]; [now rewrite nth_error_app1 by lia|].
  assert (length h <= k')%nat by (rewrite firstn_length in K; lia). rewrite firstn_skipn. transitivity (@None (mop T TW TR)); [|symmetry]; apply nth_error_None; lia.
Qed.
Lemma all_inv k : (k <= length h)%nat -> inv (mem_after s0 h k).
Proof.
  enough (K : forall k', (k' <= k)%nat -> (k <= length h)%nat -> inv (mem_after s0 h k')) by (intros Hk; now apply K).
  induction k as [|k IH]; intros k' Hk' Hk; [replace k' with 0%nat by lia; exact Ht0|]. destruct (Nat.eq_dec k' (S k)) as [->|]; [|apply IH; lia].
  destruct (nth_error h k) as [o|] eqn:E; [|apply nth_error_None in E; lia]. pose proof (proj1 (Forall_forall _ _) Hh _ (nth_error_In _ _ E)) as Ho. destruct o as [j o|f].
  - destruct Ho as (p & Ej & Ho). rewrite <- (mem_firstn (S k) (S k)) by lia. set (h' := firstn (S k) h).
    assert (Hl : length h' = S k) by (unfold h'; rewrite firstn_length; lia).
    assert (Hh' : Forall (mop_ok inv ps) h') by (rewrite <- (firstn_skipn (S k) h) in Hh; now apply Forall_app in Hh).
    assert (Hi' : forall k0, (k0 < length h')%nat -> own_steps h' j k0 = false -> inv (mem_after s0 h' k0) -> inv (mem_after s0 h' (S k0))).
    { intros k0 Hk0 Hown _. rewrite Hl in Hk0. unfold h'. rewrite mem_firstn by lia. destruct (Nat.eq_dec k0 k) as [->|]; [|apply IH; lia].
      unfold h' in Hown. rewrite own_firstn in Hown by lia. unfold own_steps in Hown. rewrite E in Hown. cbn in Hown. rewrite Nat.eqb_refl in Hown. discriminate. }
    assert (Hg' : pt_legal p (outs_after s0 h' j (length h'))).
    { pose proof (Hleg j p Ej) as G. destruct (outs_pre j (S k) (length h) ltac:(lia)) as [d Ed]. rewrite Ed in G. apply legal_pre in G.
      rewrite Hl. unfold outs_after, h' in *. rewrite firstn_firstn, Nat.min_id. exact G. }
    destruct p.
    + apply (axi_port_inv j c widn ridn tw tr lo hi phi Ej h' Hh' Hi' Hg'). lia.
    + apply (lite_port_inv j L tw tr lo hi phi Ej h' Hh' Hi' Hg'). lia.
  - unfold mem_after. rewrite (mem_S k _ E). cbn [mp_step fst mp_t]. apply Ho. apply IH; lia.
Qed.
Theorem ports_main :
  (forall k, (k <= length h)%nat -> inv (mem_after s0 h k)) /\
  (forall k f, nth_error h k = Some (MDirect f) -> mem_after s0 h (S k) = f (mem_after s0 h k)) /\
  forall i p, nth_error ps i = Some p ->
    served (pt_phi p) (length h) (fun k => view (mem_after s0 h k)) (own_steps h i) (pt_view p (length h) (outs_after s0 h i)) /\
    (port_quiet (fst (run s0 h)) i -> all_returned (pt_view p (length h) (outs_after s0 h i)) (length h)).
Proof.
  split; [exact all_inv|]. split.
  - intros k f E. unfold mem_after. now rewrite (mem_S k _ E).
  - intros i p Ep. pose proof (Hleg i p Ep) as G.
    assert (Hi : forall k, (k < length h)%nat -> own_steps h i k = false -> inv (mem_after s0 h k) -> inv (mem_after s0 h (S k))) by (intros k Hk _ _; apply all_inv; lia).
    destruct p.
    + split; [exact (axi_port_served i c widn ridn tw tr lo hi phi Ep h Hh Hi G)|exact (axi_port_quiet i c widn ridn tw tr lo hi phi Ep h Hh Hi G)].
    + split; [exact (lite_port_served i L tw tr lo hi phi Ep h Hh Hi G)|exact (lite_port_quiet i L tw tr lo hi phi Ep h Hh Hi G)].
Qed.
End All.
