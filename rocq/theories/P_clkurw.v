(** The clocked AxiLiteMaster - AxiLiteSlave system on one target (M_clk.v) is an instance of the system of M_literw.v. *)
From Coq Require Import ZArith Lia List Bool.
From Coq Require Import ZifyBool ZifyNat.
From Verif Require Import Py M_axi M_axil M_liteeng M_axieng M_cchan P_cchan M_sys S_sys M_litesys S_litesys S_live M_axisys S_axisys M_literw S_literw M_clk S_clk P_clk P_clku P_clkrw.
Import ListNotations.
Open Scope Z_scope.

Section Rw.
Context {TW TR : Type}.
Variable L : Z.
Variable tw : TW -> Z -> list Z -> TW * res unit.
Variable tr : TR -> Z -> Z -> TR * res (list Z).
Variable w2r : TW -> TR -> TR.
Variable r2w : TR -> TW -> TW.
Variables (dW : lev) (dB : resp_t) (dA : lax) (dRd : lrd).
Hypothesis W1 : forall a b r, w2r b (w2r a r) = w2r b r.
Hypothesis W2 : forall a r, r2w (w2r a r) a = a.
Hypothesis R1 : forall a b w, r2w b (r2w a w) = r2w b w.
Hypothesis R2 : forall a w, w2r (r2w a w) a = a.
Notation lxrun := (lx_run L tw tr w2r r2w).
Notation lxstep := (lx_step L tw tr w2r r2w).
Notation hlxstep := (hlx_step L tw tr w2r r2w dW dB dA dRd).
Notation hlxrun := (hlx_run L tw tr w2r r2w dW dB dA dRd).
Notation wrun := (u_run (lite_w_sends L) (lite_w_need L) lw_kind lws_act (lws_in tw L true)).
Notation rrun := (u_run (lite_r_sends L) (lite_r_need L) lr_kind (lrs_act tr L) lrs_in).

(** both sides have the same target *)
Definition usynced (w : lwslv TW) (r : lrslv TR) : Prop := w2r (lws_target w) (lrs_target r) = lrs_target r /\ r2w (lrs_target r) (lws_target w) = lws_target w.
Definition ur_told (w : lwslv TW) (r : lrslv TR) : lrslv TR := lrs_poke (w2r (lws_target w)) r.
Definition uw_told (r : lrslv TR) (w : lwslv TW) : lwslv TW := lws_poke (r2w (lrs_target r)) w.
Lemma utold_r w r : usynced w r -> ur_told w r = r.
Proof. intros [H _]. unfold ur_told. destruct r; cbn in *; now rewrite H. Qed.
Lemma utold_w w r : usynced w r -> uw_told r w = w.
Proof. intros [_ H]. unfold uw_told. destruct w; cbn in *; now rewrite H. Qed.
Lemma utold_twice_r w1 w2 r : ur_told w2 (ur_told w1 r) = ur_told w2 r.
Proof. unfold ur_told. destruct r; cbn; now rewrite W1. Qed.
Lemma utold_twice_w r1 r2 w : uw_told r2 (uw_told r1 w) = uw_told r2 w.
Proof. unfold uw_told. destruct w; cbn; now rewrite R1. Qed.
Lemma usynced_r w r : usynced w (ur_told w r).
Proof. unfold usynced, ur_told. destruct r; cbn; now rewrite W1, W2. Qed.
Lemma usynced_w w r : usynced (uw_told r w) r.
Proof. unfold usynced, uw_told. destruct w; cbn; now rewrite R1, R2. Qed.

Definition vsync (z : lxs TW TR) : Prop := usynced (u_s (v_w z)) (u_s (v_r z)).
Lemma uset_s_id {C E R S} (y : usys C E R S) : uset_s y (u_s y) = y. Proof. destruct y; reflexivity. Qed.

Lemma lx_run_w l : forall z, vsync z -> lxrun z (map VW l) =
  let '(w, os) := wrun (v_w z) l in ({| v_w := w; v_r := uset_s (v_r z) (ur_told (u_s w) (u_s (v_r z))) |}, map inl os).
Proof.
  induction l as [|o l IH]; intros z Hz; cbn [map lx_run u_run].
  - rewrite (utold_r _ _ Hz), uset_s_id. destruct z; reflexivity.
  - cbn [lx_step]. unfold lwsys_step. destruct (u_step _ _ _ _ _ (v_w z) o) as [w1 o1]. rewrite IH by apply usynced_r. cbn [v_w v_r].
    destruct (wrun w1 l) as [w2 o2]. rewrite map_app. f_equal. f_equal. unfold uset_s at 1 3. cbn [u_s u_m u_a u_w u_b]. fold (ur_told (u_s w1) (u_s (v_r z))). now rewrite utold_twice_r.
Qed.
Lemma lx_run_r l : forall z, vsync z -> lxrun z (map VR l) =
  let '(r, os) := rrun (v_r z) l in ({| v_w := uset_s (v_w z) (uw_told (u_s r) (u_s (v_w z))); v_r := r |}, map inr os).
Proof.
  induction l as [|o l IH]; intros z Hz; cbn [map lx_run u_run].
  - rewrite (utold_w _ _ Hz), uset_s_id. destruct z; reflexivity.
  - cbn [lx_step]. unfold lrsys_step. destruct (u_step _ _ _ _ _ (v_r z) o) as [w1 o1]. rewrite IH by apply usynced_w. cbn [v_w v_r].
    destruct (rrun w1 l) as [w2 o2]. rewrite map_app. f_equal. f_equal. unfold uset_s at 1 3. cbn [u_s u_m u_a u_w u_b]. fold (uw_told (u_s w1) (u_s (v_w z))). now rewrite utold_twice_w.
Qed.
Lemma lxrun_app h1 : forall h2 z, lxrun z (h1 ++ h2) = let '(z1, o1) := lxrun z h1 in let '(z2, o2) := lxrun z1 h2 in (z2, o1 ++ o2).
Proof.
  induction h1 as [|o h1 IH]; intros h2 z; cbn [app lx_run].
  - destruct (lxrun z h2). reflexivity.
  - destruct (lxstep z o) as [z1 o1]. rewrite IH. destruct (lxrun z1 h1) as [z2 o2]. destruct (lxrun z2 h2) as [z3 o3]. now rewrite app_assoc.
Qed.

Definition vabs (z : hlxs TW TR) : lxs TW TR := {| v_w := huabs (hv_w z); v_r := huabs (hv_r z) |}.
Definition vi (z : hlxs TW TR) : Prop := hui (hv_w z) /\ hui (hv_r z) /\ vsync (vabs z).
Definition vsim (z : hlxs TW TR) (o : hlxop TW TR) : list (lxop TW TR) :=
  match o with
  | QW o => map VW (husim lws_act (hv_w z) o)
  | QR o => map VR (husim (lrs_act tr L) (hv_r z) o)
  end.
Lemma v_sim z o : vi z -> let '(z', os) := hlxstep z o in vi z' /\ lxrun (vabs z) (vsim z o) = (vabs z', os).
Proof.
  intros (H1 & H2 & H3). destruct o as [o|o]; cbn [hlx_step vsim].
  - unfold lwhsys_step. pose proof (hu_sim (lite_w_sends L) (lite_w_need L) lw_kind lws_act (lws_in tw L true) dW dB (hv_w z) o H1) as Hs.
    destruct (hu_step _ _ _ _ _ dW dB (hv_w z) o) as [w os]. destruct Hs as [Hi Hs]. split.
    + split; [exact Hi|]. split; [exact H2|]. unfold vsync, vabs. cbn. apply usynced_r.
    + rewrite lx_run_w by exact H3. cbn [vabs v_w v_r]. rewrite Hs. reflexivity.
  - unfold lrhsys_step. pose proof (hu_sim (lite_r_sends L) (lite_r_need L) lr_kind (lrs_act tr L) lrs_in dA dRd (hv_r z) o H2) as Hs.
    destruct (hu_step _ _ _ _ _ dA dRd (hv_r z) o) as [r os]. destruct Hs as [Hi Hs]. split.
    + split; [exact H1|]. split; [exact Hi|]. unfold vsync, vabs. cbn. apply usynced_w.
    + rewrite lx_run_r by exact H3. cbn [vabs v_w v_r]. rewrite Hs. reflexivity.
Qed.
Fixpoint vsims (z : hlxs TW TR) (h : list (hlxop TW TR)) : list (lxop TW TR) :=
  match h with [] => [] | o :: h' => vsim z o ++ vsims (fst (hlxstep z o)) h' end.
Lemma v_sims h : forall z, vi z -> let '(z', os) := hlxrun z h in vi z' /\ lxrun (vabs z) (vsims z h) = (vabs z', os).
Proof.
  induction h as [|o h IH]; intros z H; cbn [hlx_run vsims lx_run]; [auto|].
  pose proof (v_sim z o H) as H1. destruct (hlxstep z o) as [z1 o1]. destruct H1 as [H1 E1]. specialize (IH z1 H1).
  destruct (hlxrun z1 h) as [z2 o2]. destruct IH as [H2 E2]. split; [exact H2|]. cbn [fst]. rewrite lxrun_app, E1, E2. reflexivity.
Qed.

(** the steps of user and tasks *)
Lemma vsim_all (P : lxop TW TR -> Prop) z o : (forall o, lx_internal o -> P o) -> Forall P (vtasks [o]) -> Forall P (vsim z o).
Proof.
  intros HP H. destruct o as [o|o]; cbn [vsim]; apply Forall_map; apply husim_all; try (intros o' Ho; apply HP; exact Ho);
  destruct o as [o|i o]; cbn in *; auto; apply Forall_inv in H; constructor; auto.
Qed.
Lemma vsims_all (P : lxop TW TR -> Prop) h : forall z, (forall o, lx_internal o -> P o) -> Forall P (vtasks h) -> Forall P (vsims z h).
Proof.
  induction h as [|o h IH]; intros z HP H; cbn [vsims]; [constructor|]. change (o :: h) with ([o] ++ h) in H. unfold vtasks in H. rewrite flat_map_app in H.
  apply Forall_app in H. destruct H as [H1 H2]. apply Forall_app. split; [now apply vsim_all|now apply IH].
Qed.
Lemma vsim_w z o : lx_wsubmitted (vsim z o) = lx_wsubmitted (vtasks [o]).
Proof.
  unfold lx_wsubmitted. destruct o as [o|o]; cbn [vsim].
  - rewrite (flat_map_concat_map _ (map _ _)), map_map, <- flat_map_concat_map. 
    replace (flat_map _ (husim lws_act (hv_w z) o)) with (husim lws_act (hv_w z) o) by (induction (husim lws_act (hv_w z) o); cbn; congruence).
    rewrite (husim_submitted (R := resp_t)). destruct o; reflexivity.
  - rewrite (flat_map_concat_map _ (map _ _)), map_map, <- flat_map_concat_map.
    replace (flat_map _ (husim (lrs_act tr L) (hv_r z) o)) with (@nil (uop (Z * lwcmd) (lwslv TW))) by (induction (husim (lrs_act tr L) (hv_r z) o); cbn; congruence).
    destruct o; reflexivity.
Qed.
Lemma vsim_r z o : lx_rsubmitted (vsim z o) = lx_rsubmitted (vtasks [o]).
Proof.
  unfold lx_rsubmitted. destruct o as [o|o]; cbn [vsim].
  - rewrite (flat_map_concat_map _ (map _ _)), map_map, <- flat_map_concat_map.
    replace (flat_map _ (husim lws_act (hv_w z) o)) with (@nil (uop (Z * lrcmd) (lrslv TR))) by (induction (husim lws_act (hv_w z) o); cbn; congruence).
    destruct o; reflexivity.
  - rewrite (flat_map_concat_map _ (map _ _)), map_map, <- flat_map_concat_map. 
    replace (flat_map _ (husim (lrs_act tr L) (hv_r z) o)) with (husim (lrs_act tr L) (hv_r z) o) by (induction (husim (lrs_act tr L) (hv_r z) o); cbn; congruence).
    rewrite (husim_submitted (R := lrd)). destruct o; reflexivity.
Qed.
Lemma usub_w_app (a b : list (lxop TW TR)) : lx_wsubmitted (a ++ b) = lx_wsubmitted a ++ lx_wsubmitted b.
Proof. unfold lx_wsubmitted, usubmitted. now rewrite !flat_map_app. Qed.
Lemma usub_r_app (a b : list (lxop TW TR)) : lx_rsubmitted (a ++ b) = lx_rsubmitted a ++ lx_rsubmitted b.
Proof. unfold lx_rsubmitted, usubmitted. now rewrite !flat_map_app. Qed.
Lemma vsims_submitted h : forall z, lx_wsubmitted (vsims z h) = lx_wsubmitted (vtasks h) /\ lx_rsubmitted (vsims z h) = lx_rsubmitted (vtasks h).
Proof.
  induction h as [|o h IH]; intros z; cbn [vsims]; [auto|]. destruct (IH (fst (hlxstep z o))) as [I1 I2].
  change (o :: h) with ([o] ++ h). unfold vtasks. rewrite flat_map_app. fold (vtasks [o]) (vtasks h).
  rewrite !usub_w_app, !usub_r_app, vsim_w, vsim_r, I1, I2. auto.
Qed.
Lemma vi_init t t' : w2r t t' = t' -> r2w t' t = t -> vi (hlx_init t t').
Proof. intros H1 H2. split; [apply hui_init|]. split; [apply hui_init|]. split; assumption. Qed.
End Rw.
