(** The clocked AxiMaster - AxiSlave system on one target (M_clk.v) is an instance of the system of M_axisys.v. *)
From Coq Require Import ZArith Lia List Bool.
From Coq Require Import ZifyBool ZifyNat.
From Verif Require Import Py M_axi M_axil M_liteeng M_axieng M_cchan P_cchan M_sys S_sys M_litesys S_litesys S_live M_axisys S_axisys M_literw S_literw M_clk S_clk P_clk P_clku.
Import ListNotations.
Open Scope Z_scope.

Section Rw.
Context {TW TR : Type}.
Variable c : mcfg.
Variables widn ridn : Z.
Variable tw : TW -> Z -> list Z -> TW * res unit.
Variable tr : TR -> Z -> Z -> TR * res (list Z).
Variable w2r : TW -> TR -> TR.
Variable r2w : TR -> TW -> TW.
Variables (dW : wev) (dB : bch) (dA : axc) (dRd : rch).
Hypothesis W1 : forall a b r, w2r b (w2r a r) = w2r b r.
Hypothesis W2 : forall a r, r2w (w2r a r) a = a.
Hypothesis R1 : forall a b w, r2w b (r2w a w) = r2w b w.
Hypothesis R2 : forall a w, w2r (r2w a w) a = a.
Notation axrun := (ax_run c widn ridn tw tr w2r r2w).
Notation axstep := (ax_step c widn ridn tw tr w2r r2w).
Notation haxstep := (hax_step c widn ridn tw tr w2r r2w dW dB dA dRd).
Notation haxrun := (hax_run c widn ridn tw tr w2r r2w dW dB dA dRd).
Notation wrun := (y_run (w_sends c) w_opens w_epat w_chk b_id op_id widn w_opens ws_act (ws_in tw (m_lanes c) true)).
Notation rrun := (y_run (r_sends c) r_opens r_epat r_chk r_id op_id ridn r_kind (rs_act tr (m_lanes c)) (rs_in (m_lanes c))).

(** both sides have the same target *)
Definition synced (w : wslv TW) (r : rslv TR) : Prop := w2r (ws_target w) (rs_target r) = rs_target r /\ r2w (rs_target r) (ws_target w) = ws_target w.
Definition r_told (w : wslv TW) (r : rslv TR) : rslv TR := rs_poke (w2r (ws_target w)) r.
Definition w_told (r : rslv TR) (w : wslv TW) : wslv TW := ws_poke (r2w (rs_target r)) w.
Lemma told_r w r : synced w r -> r_told w r = r.
Proof. intros [H _]. unfold r_told. destruct r; cbn in *; now rewrite H. Qed.
Lemma told_w w r : synced w r -> w_told r w = w.
Proof. intros [_ H]. unfold w_told. destruct w; cbn in *; now rewrite H. Qed.
Lemma told_twice_r w1 w2 r : r_told w2 (r_told w1 r) = r_told w2 r.
Proof. unfold r_told. destruct r; cbn; now rewrite W1. Qed.
Lemma told_twice_w r1 r2 w : w_told r2 (w_told r1 w) = w_told r2 w.
Proof. unfold w_told. destruct w; cbn; now rewrite R1. Qed.
Lemma synced_r w r : synced w (r_told w r).
Proof. unfold synced, r_told. destruct r; cbn; now rewrite W1, W2. Qed.
Lemma synced_w w r : synced (w_told r w) r.
Proof. unfold synced, w_told. destruct w; cbn; now rewrite R1, R2. Qed.

Definition zsync (z : axs TW TR) : Prop := synced (y_s (z_w z)) (y_s (z_r z)).
Lemma set_s_id {C E R S} (y : sys C E R S) : set_s y (y_s y) = y. Proof. destruct y; reflexivity. Qed.

Lemma ax_run_w l : forall z, zsync z -> axrun z (map BW l) =
  let '(w, os) := wrun (z_w z) l in ({| z_w := w; z_r := set_s (z_r z) (r_told (y_s w) (y_s (z_r z))) |}, map inl os).
Proof.
  induction l as [|o l IH]; intros z Hz; cbn [map ax_run y_run].
  - rewrite (told_r _ _ Hz), set_s_id. destruct z; reflexivity.
  - cbn [ax_step]. unfold wsys_step. destruct (y_step _ _ _ _ _ _ widn _ _ _ (z_w z) o) as [w1 o1]. rewrite IH by apply synced_r. cbn [z_w z_r].
    destruct (wrun w1 l) as [w2 o2]. rewrite map_app. f_equal. f_equal. unfold set_s at 1 3. cbn [y_s y_m y_a y_w y_b]. fold (r_told (y_s w1) (y_s (z_r z))). now rewrite told_twice_r.
Qed.
Lemma ax_run_r l : forall z, zsync z -> axrun z (map BR l) =
  let '(r, os) := rrun (z_r z) l in ({| z_w := set_s (z_w z) (w_told (y_s r) (y_s (z_w z))); z_r := r |}, map inr os).
Proof.
  induction l as [|o l IH]; intros z Hz; cbn [map ax_run y_run].
  - rewrite (told_w _ _ Hz), set_s_id. destruct z; reflexivity.
  - cbn [ax_step]. unfold rsys_step. destruct (y_step _ _ _ _ _ _ ridn _ _ _ (z_r z) o) as [w1 o1]. rewrite IH by apply synced_w. cbn [z_w z_r].
    destruct (rrun w1 l) as [w2 o2]. rewrite map_app. f_equal. f_equal. unfold set_s at 1 3. cbn [y_s y_m y_a y_w y_b]. fold (w_told (y_s w1) (y_s (z_w z))). now rewrite told_twice_w.
Qed.
Lemma axrun_app h1 : forall h2 z, axrun z (h1 ++ h2) = let '(z1, o1) := axrun z h1 in let '(z2, o2) := axrun z1 h2 in (z2, o1 ++ o2).
Proof.
  induction h1 as [|o h1 IH]; intros h2 z; cbn [app ax_run].
  - destruct (axrun z h2). reflexivity.
  - destruct (axstep z o) as [z1 o1]. rewrite IH. destruct (axrun z1 h1) as [z2 o2]. destruct (axrun z2 h2) as [z3 o3]. now rewrite app_assoc.
Qed.

Definition zabs (z : haxs TW TR) : axs TW TR := {| z_w := habs (hz_w z); z_r := habs (hz_r z) |}.
Definition zi (z : haxs TW TR) : Prop := hi (hz_w z) /\ hi (hz_r z) /\ zsync (zabs z).
Definition zsim (z : haxs TW TR) (o : haop TW TR) : list (aop TW TR) :=
  match o with
  | KW o => map BW (hsim ws_act (hz_w z) o)
  | KR o => map BR (hsim (rs_act tr (m_lanes c)) (hz_r z) o)
  end.
Lemma z_sim z o : zi z -> let '(z', os) := haxstep z o in zi z' /\ axrun (zabs z) (zsim z o) = (zabs z', os).
Proof.
  intros (H1 & H2 & H3). destruct o as [o|o]; cbn [hax_step zsim].
  - unfold whsys_step. pose proof (h_sim (w_sends c) w_opens w_epat w_chk b_id op_id widn w_opens ws_act (ws_in tw (m_lanes c) true) dW dB (hz_w z) o H1) as Hs.
    destruct (h_step _ _ _ _ _ _ widn _ _ _ dW dB (hz_w z) o) as [w os]. destruct Hs as [Hi Hs]. split.
    + split; [exact Hi|]. split; [exact H2|]. unfold zsync, zabs. cbn. apply synced_r.
    + rewrite ax_run_w by exact H3. cbn [zabs z_w z_r]. rewrite Hs. reflexivity.
  - unfold rhsys_step. pose proof (h_sim (r_sends c) r_opens r_epat r_chk r_id op_id ridn r_kind (rs_act tr (m_lanes c)) (rs_in (m_lanes c)) dA dRd (hz_r z) o H2) as Hs.
    destruct (h_step _ _ _ _ _ _ ridn _ _ _ dA dRd (hz_r z) o) as [r os]. destruct Hs as [Hi Hs]. split.
    + split; [exact H1|]. split; [exact Hi|]. unfold zsync, zabs. cbn. apply synced_w.
    + rewrite ax_run_r by exact H3. cbn [zabs z_w z_r]. rewrite Hs. reflexivity.
Qed.
Fixpoint zsims (z : haxs TW TR) (h : list (haop TW TR)) : list (aop TW TR) :=
  match h with [] => [] | o :: h' => zsim z o ++ zsims (fst (haxstep z o)) h' end.
Lemma z_sims h : forall z, zi z -> let '(z', os) := haxrun z h in zi z' /\ axrun (zabs z) (zsims z h) = (zabs z', os).
Proof.
  induction h as [|o h IH]; intros z H; cbn [hax_run zsims ax_run]; [auto|].
  pose proof (z_sim z o H) as H1. destruct (haxstep z o) as [z1 o1]. destruct H1 as [H1 E1]. specialize (IH z1 H1).
  destruct (haxrun z1 h) as [z2 o2]. destruct IH as [H2 E2]. split; [exact H2|]. cbn [fst]. rewrite axrun_app, E1, E2. reflexivity.
Qed.

(** the steps of user and tasks *)
Lemma zsim_all (P : aop TW TR -> Prop) z o : (forall o, a_internal o -> P o) -> Forall P (ztasks [o]) -> Forall P (zsim z o).
Proof.
  intros HP H. destruct o as [o|o]; cbn [zsim]; apply Forall_map; apply hsim_all; try (intros o' Ho; apply HP; exact Ho);
  destruct o as [o|i o]; cbn in *; auto; apply Forall_inv in H; constructor; auto.
Qed.
Lemma zsims_all (P : aop TW TR -> Prop) h : forall z, (forall o, a_internal o -> P o) -> Forall P (ztasks h) -> Forall P (zsims z h).
Proof.
  induction h as [|o h IH]; intros z HP H; cbn [zsims]; [constructor|]. change (o :: h) with ([o] ++ h) in H. unfold ztasks in H. rewrite flat_map_app in H.
  apply Forall_app in H. destruct H as [H1 H2]. apply Forall_app. split; [now apply zsim_all|now apply IH].
Qed.
Lemma zsim_w z o : a_wsubmitted (zsim z o) = a_wsubmitted (ztasks [o]).
Proof.
  unfold a_wsubmitted. destruct o as [o|o]; cbn [zsim].
  - rewrite (flat_map_concat_map _ (map _ _)), map_map, <- flat_map_concat_map. 
    replace (flat_map _ (hsim ws_act (hz_w z) o)) with (hsim ws_act (hz_w z) o) by (induction (hsim ws_act (hz_w z) o); cbn; congruence).
    rewrite (hsim_submitted (R := bch)). destruct o; reflexivity.
  - rewrite (flat_map_concat_map _ (map _ _)), map_map, <- flat_map_concat_map.
    replace (flat_map _ (hsim (rs_act tr (m_lanes c)) (hz_r z) o)) with (@nil (yop wop (wslv TW))) by (induction (hsim (rs_act tr (m_lanes c)) (hz_r z) o); cbn; congruence).
    destruct o; reflexivity.
Qed.
Lemma zsim_r z o : a_rsubmitted (zsim z o) = a_rsubmitted (ztasks [o]).
Proof.
  unfold a_rsubmitted. destruct o as [o|o]; cbn [zsim].
  - rewrite (flat_map_concat_map _ (map _ _)), map_map, <- flat_map_concat_map.
    replace (flat_map _ (hsim ws_act (hz_w z) o)) with (@nil (yop rop (rslv TR))) by (induction (hsim ws_act (hz_w z) o); cbn; congruence).
    destruct o; reflexivity.
  - rewrite (flat_map_concat_map _ (map _ _)), map_map, <- flat_map_concat_map. 
    replace (flat_map _ (hsim (rs_act tr (m_lanes c)) (hz_r z) o)) with (hsim (rs_act tr (m_lanes c)) (hz_r z) o) by (induction (hsim (rs_act tr (m_lanes c)) (hz_r z) o); cbn; congruence).
    rewrite (hsim_submitted (R := rch)). destruct o; reflexivity.
Qed.
Lemma sub_w_app (a b : list (aop TW TR)) : a_wsubmitted (a ++ b) = a_wsubmitted a ++ a_wsubmitted b.
Proof. unfold a_wsubmitted, ysubmitted. now rewrite !flat_map_app. Qed.
Lemma sub_r_app (a b : list (aop TW TR)) : a_rsubmitted (a ++ b) = a_rsubmitted a ++ a_rsubmitted b.
Proof. unfold a_rsubmitted, ysubmitted. now rewrite !flat_map_app. Qed.
Lemma zsims_submitted h : forall z, a_wsubmitted (zsims z h) = a_wsubmitted (ztasks h) /\ a_rsubmitted (zsims z h) = a_rsubmitted (ztasks h).
Proof.
  induction h as [|o h IH]; intros z; cbn [zsims]; [auto|]. destruct (IH (fst (haxstep z o))) as [I1 I2].
  change (o :: h) with ([o] ++ h). unfold ztasks. rewrite flat_map_app. fold (ztasks [o]) (ztasks h).
  rewrite !sub_w_app, !sub_r_app, zsim_w, zsim_r, I1, I2. auto.
Qed.
Lemma zi_init t t' : w2r t t' = t' -> r2w t' t = t -> zi (hax_init t t').
Proof. intros H1 H2. split; [apply hi_init|]. split; [apply hi_init|]. split; assumption. Qed.
End Rw.
