(** Reset of a clocked channel and of the AXI-Lite system (M_rst.v). *)
From Coq Require Import ZArith Lia List Bool.
From Coq Require Import ZifyBool ZifyNat.
From Verif Require Import Py M_stream M_axi M_axil M_liteeng M_axieng M_cchan P_cchan M_sys S_sys M_litesys S_litesys S_live M_axisys S_axisys M_literw S_literw M_clk S_clk
  P_clk P_clku P_clkrw P_clkurw M_rst S_rst.
Import ListNotations.
Open Scope Z_scope.

(** ** a channel during reset *)
Record cdead {A} (c : cchan A) : Prop := {
  cd_sl : s_limit (cc_src c) = 2; cd_kl : k_limit (cc_snk c) = 2; cd_st : s_task (cc_src c) = TDead; cd_kt : k_task (cc_snk c) = KDead;
  cd_sq : s_q (cc_src c) = []; cd_kq : k_q (cc_snk c) = []; cd_v : s_valid (cc_src c) = false; cd_r : k_ready (cc_snk c) = false; cd_e : cc_edge c = None }.

Lemma rst_dead {A} (c : cchan A) : ci c -> cdead (cc_rst c true).
Proof. intros H. constructor; cbn; try reflexivity; [apply (ci_sl c H)|apply (ci_kl c H)]. Qed.
Lemma dead_pass {A} (c : cchan A) : cdead c -> cc_srcpass (cc_snkpass c) = c.
Proof. intros []. unfold cc_srcpass, cc_snkpass. rewrite cd_e0, cd_e0. reflexivity. Qed.
Lemma dead_step {A} (d : A) c o : cdead c -> cdead (cc_step d c o).
Proof.
  intros H. destruct o as [b|b| | | |]; cbn [cc_step].
  - destruct H. constructor; cbn; auto.
  - destruct H. constructor; cbn; auto; destruct (Bool.eqb _ _); cbn; auto. rewrite cd_kt0. reflexivity.
  - destruct H. constructor; cbn; auto. rewrite cd_kt0. reflexivity.
  - rewrite dead_pass by exact H. destruct H. unfold cc_sample, cc_settle. cbn. rewrite cd_st0, cd_kt0. cbn. unfold rises. rewrite cd_v0, cd_r0. cbn. constructor; cbn; auto. rewrite cd_kt0. reflexivity.
  - unfold cc_srcpass. rewrite (cd_e c H). exact H.
  - unfold cc_snkpass. rewrite (cd_e c H). exact H.
Qed.
Lemma dead_release {A} (c : cchan A) : cdead c -> ci (cc_rst c false) /\ cabs (cc_rst c false) = chan_new.
Proof.
  intros H. destruct H as [H1 H2 H3 H4 H5 H6 H7 H8 H9]. split.
  - constructor; cbn; rewrite ?H1, ?H2, ?H3, ?H4, ?H5, ?H6, ?H7, ?H8, ?H9; try discriminate; auto; cbn; lia.
  - unfold cabs, taken, coming, wire, cc_rst, chan_new. cbn. rewrite H9, H5, H6, H7. reflexivity.
Qed.

(** ** an AXI-Lite half during reset, and the fresh queue level system with the same operations *)
Section Half.
Context {C E R S : Type}.
Variable sends : C -> list E.
Variable need : C -> nat.
Variable kind : E -> bool.
Variable act : S -> sact R S.
Variable sin : S -> E -> S.
Variable dE : E.
Variable dR : R.
Notation hstep := (hu_step sends need kind act sin dE dR).
Notation ystep := (u_step sends need kind act sin).
Notation yrun := (u_run sends need kind act sin).

Definition awake (m : eng C E R) : eng C E R :=
  {| g_pend := g_pend m; g_q := g_q m; g_cur := None; g_wtask := true; g_rq := []; g_rcur := None; g_rtask := true; g_inflight := g_inflight m; g_idle := g_idle m |}.
Definition asleep (m : eng C E R) : Prop := g_cur m = None /\ g_wtask m = false /\ g_rq m = [] /\ g_rcur m = None /\ g_rtask m = false.
Definition udead (y : husys C E R S) : Prop := asleep (hu_m y) /\ cdead (hu_a y) /\ cdead (hu_w y) /\ cdead (hu_b y).
Definition dabs (y : husys C E R S) : usys C E R S := {| u_m := awake (hu_m y); u_a := chan_new; u_w := chan_new; u_b := chan_new; u_s := hu_s y |}.
Definition dsim (o : huop C S) : list (uop C S) := match o with HUT (UIssue c) => [UIssue c] | HUT (UInit c) => [UInit c] | HUT (UStart n) => [UStart n] | HUT (UPoke f) => [UPoke f] | _ => [] end.

Lemma dead_sim y o : udead y -> o <> HUT USlave -> let '(y', os) := hstep y o in udead y' /\ yrun (dabs y) (dsim o) = (dabs y', os).
Proof.
  intros (Hm & Ha & Hw & Hb) Ho. pose proof Hm as (M1 & M2 & M3 & M4 & M5).
  assert (Q : udead y) by (split; auto).
  destruct o as [o|i o].
  - destruct o as [c|c|n| | | | |k|k| | | |f]; cbn [hu_step dsim];
      try (split; [exact Q|reflexivity]); try (exfalso; apply Ho; reflexivity).
    + unfold hum_step. cbn. unfold um_step. cbn. destruct (nth_error (g_pend (hu_m y)) n); cbn; [split; [split; [exact Hm|auto]|reflexivity]|].
      split; [destruct y; exact Q|destruct y; reflexivity].
    + unfold hum_step. cbn. rewrite M2. split; [destruct y; exact Q|destruct y; reflexivity].
    + unfold unext. rewrite M2. split; [exact Q|reflexivity].
    + unfold hum_step. cbn. rewrite M5. split; [destruct y; exact Q|destruct y; reflexivity].
    + unfold uwaits. rewrite M5. split; [exact Q|reflexivity].
  - destruct i; cbn [hu_step dsim u_run]; (split; [|reflexivity]); (split; [exact Hm|]); cbn; repeat (split; [auto using dead_step|]); auto using dead_step.
Qed.
(** reset is asserted *)
Lemma rst_sim restart y s1 : hui y -> restart (hu_s y) = s1 -> let '(y', os) := hu_rst sends need restart y true in
  udead y' /\ yrun (usys_init s1) (map UInit (g_pend (hu_m y))) = (dabs y', []) /\ hu_s y' = s1 /\ g_pend (hu_m y') = g_pend (hu_m y).
Proof.
  intros (H1 & H2 & H3) Hs. unfold hu_rst. cbn [eng_step eng_reset]. split.
  { split; [repeat split|]. split; [now apply rst_dead|]. split; now apply rst_dead. }
  split; [|split; [exact Hs|reflexivity]].
  assert (K : forall l pre, yrun {| u_m := {| g_pend := pre; g_q := []; g_cur := None; g_wtask := true; g_rq := []; g_rcur := None; g_rtask := true; g_inflight := 0; g_idle := true |};
      u_a := chan_new; u_w := chan_new; u_b := chan_new; u_s := s1 |} (map UInit l) =
    ({| u_m := {| g_pend := pre ++ l; g_q := []; g_cur := None; g_wtask := true; g_rq := []; g_rcur := None; g_rtask := true; g_inflight := 0; g_idle := true |};
      u_a := chan_new; u_w := chan_new; u_b := chan_new; u_s := s1 |}, [])).
  { induction l as [|c l IH]; intros pre; [cbn; now rewrite app_nil_r|]. cbn [map u_run u_step]. unfold um_step. cbn [eng_step u_m]. unfold eng_set_pend, uset_m. cbn [u_m u_a u_w u_b u_s g_pend g_q g_cur g_wtask g_rq g_rcur g_rtask g_inflight g_idle].
    rewrite (IH (pre ++ [c])), <- app_assoc. reflexivity. }
  specialize (K (g_pend (hu_m y)) []). unfold usys_init, eng_init. rewrite K. unfold dabs. cbn. rewrite Hs. reflexivity.
Qed.
(** reset is released *)
Lemma release_sim restart y : udead y -> let '(y', os) := hu_rst sends need restart y false in hui y' /\ huabs y' = dabs y /\ os = [].
Proof.
  intros ((M1 & M2 & M3 & M4 & M5) & Ha & Hw & Hb). unfold hu_rst. cbn [eng_step eng_reset].
  destruct (dead_release _ Ha) as [A1 A2], (dead_release _ Hw) as [W1 W2], (dead_release _ Hb) as [B1 B2].
  split; [hsp|]. split; [|reflexivity]. unfold huabs, dabs, awake. cbn [hu_m hu_a hu_w hu_b hu_s]. now rewrite A2, W2, B2, M1, M3, M4.
Qed.
Lemma dsim_all (P : uop C S -> Prop) o : Forall P (utasks [o]) -> Forall P (dsim o).
Proof. destruct o as [o|i o]; [|constructor]. cbn. intros H. apply Forall_inv in H. destruct o; constructor; auto. Qed.
Lemma dsim_submitted o : usubmitted (dsim o) = usubmitted (utasks [o]).
Proof. destruct o as [o|i o]; [|reflexivity]. destruct o; reflexivity. Qed.
End Half.

(** ** both halves *)
Section Rw.
Context {TW TR : Type}.
Variable L : Z.
Variable tw : TW -> Z -> list Z -> TW * res unit.
Variable tr : TR -> Z -> Z -> TR * res (list Z).
Variable w2r : TW -> TR -> TR.
Variable r2w : TR -> TW -> TW.
Variables (rtw : TW -> TW) (rtr : TR -> TR).
Variables (dW : lev) (dB : resp_t) (dA : lax) (dRd : lrd).
Hypothesis W1 : forall a b r, w2r b (w2r a r) = w2r b r.
Hypothesis W2 : forall a r, r2w (w2r a r) a = a.
Hypothesis R1 : forall a b w, r2w b (r2w a w) = r2w b w.
Hypothesis R2 : forall a w, w2r (r2w a w) a = a.
Hypothesis RT : forall a b, w2r a b = b -> r2w b a = a -> w2r (rtw a) (rtr b) = rtr b /\ r2w (rtr b) (rtw a) = rtw a.
Notation lxrun := (lx_run L tw tr w2r r2w).
Notation vrstep := (vr_step L tw tr w2r r2w rtw rtr dW dB dA dRd).
Notation vrrun := (vr_run L tw tr w2r r2w rtw rtr dW dB dA dRd).
Notation hlxstep := (hlx_step L tw tr w2r r2w dW dB dA dRd).
Notation hlxrun := (hlx_run L tw tr w2r r2w dW dB dA dRd).

Definition vrabs (x : vrsys TW TR) : lxs TW TR :=
  let '(z, on) := x in if on then {| v_w := dabs (hv_w z); v_r := dabs (hv_r z) |} else vabs z.
Definition vri (x : vrsys TW TR) : Prop :=
  vsync w2r r2w (vrabs x) /\ (let '(z, on) := x in if on then udead (hv_w z) /\ udead (hv_r z) else hui (hv_w z) /\ hui (hv_r z)).
Definition vrsim (x : vrsys TW TR) (o : vrop TW TR) : list (lxop TW TR) :=
  match o with
  | VO o => if snd x then match o with QW o => map VW (dsim o) | QR o => map VR (dsim o) end else vsim L tr (fst x) o
  | VReset _ => []
  end.
Lemma slave_no o : v_slave (TW := TW) (TR := TR) o = false -> match o with QW o => o <> HUT USlave | QR o => o <> HUT USlave end.
Proof. destruct o as [o|o]; intros H ->; discriminate. Qed.

Lemma vr_sim x o : vri x -> v_calm o -> let '(x', os) := vrstep x o in vri x' /\ lxrun (vrabs x) (vrsim x o) = (vrabs x', os).
Proof.
  destruct x as [z on]. intros [Hs Hi] Hc. destruct o as [o|b]; cbn [vr_step vrsim fst snd].
  - destruct on; cbn [andb].
    + destruct Hi as [Iw Ir]. destruct (v_slave o) eqn:Eo.
      { split; [split; auto|]. destruct o as [o|o]; destruct o as [[]|]; try discriminate Eo; reflexivity. }
      apply slave_no in Eo. destruct o as [o|o]; cbn [hlx_step].
      * unfold lwhsys_step. pose proof (dead_sim (lite_w_sends L) (lite_w_need L) lw_kind lws_act (lws_in tw L true) dW dB (hv_w z) o Iw Eo) as H.
        destruct (hu_step _ _ _ _ _ dW dB (hv_w z) o) as [w os]. destruct H as [Hi H]. rewrite lx_run_w by assumption. cbn [vrabs v_w v_r]. rewrite H. split; [|reflexivity].
        split; [unfold vsync; cbn; now apply usynced_r|]. split; [exact Hi|exact Ir].
      * unfold lrhsys_step. pose proof (dead_sim (lite_r_sends L) (lite_r_need L) lr_kind (lrs_act tr L) lrs_in dA dRd (hv_r z) o Ir Eo) as H.
        destruct (hu_step _ _ _ _ _ dA dRd (hv_r z) o) as [r os]. destruct H as [Hi H]. rewrite lx_run_r by assumption. cbn [vrabs v_w v_r]. rewrite H. split; [|reflexivity].
        split; [unfold vsync; cbn; now apply usynced_w|]. split; [exact Iw|exact Hi].
    + pose proof (v_sim L tw tr w2r r2w dW dB dA dRd W1 W2 R1 R2 z o (conj (proj1 Hi) (conj (proj2 Hi) Hs))) as H.
      destruct (hlxstep z o) as [z' os]. destruct H as [(H1 & H2 & H3) H]. split; [|exact H]. split; [exact H3|auto].
  - destruct b; [destruct Hc|]. destruct on; cbn [Bool.eqb]; [|split; [split; auto|reflexivity]].
    destruct Hi as [Iw Ir].
    pose proof (release_sim (lite_w_sends L) (lite_w_need L) (fun s => LWIdle (rtw (lws_target s))) (hv_w z) Iw) as Hw.
    destruct (hu_rst _ _ (fun s => LWIdle (rtw (lws_target s))) (hv_w z) false) as [w ow]. destruct Hw as (Hw & Ew & ->).
    pose proof (release_sim (lite_r_sends L) (lite_r_need L) (fun s => LRIdle (rtr (lrs_target s))) (hv_r z) Ir) as Hr.
    destruct (hu_rst _ _ (fun s => LRIdle (rtr (lrs_target s))) (hv_r z) false) as [r or]. destruct Hr as (Hr & Er & ->).
    cbn [map app lx_run]. assert (Ez : vabs {| hv_w := w; hv_r := r |} = vrabs (z, true)) by (unfold vabs; cbn; now rewrite Ew, Er).
    split; [|now rewrite <- Ez]. split; [cbn [vrabs]; rewrite Ez; exact Hs|auto].
Qed.
Fixpoint vrsims (x : vrsys TW TR) (h : list (vrop TW TR)) : list (lxop TW TR) :=
  match h with [] => [] | o :: h' => vrsim x o ++ vrsims (fst (vrstep x o)) h' end.
Lemma vr_sims h : forall x, vri x -> Forall v_calm h -> let '(x', os) := vrrun x h in vri x' /\ lxrun (vrabs x) (vrsims x h) = (vrabs x', os).
Proof.
  induction h as [|o h IH]; intros x H Hc; cbn [vr_run vrsims lx_run]; [auto|]. inversion Hc as [|? ? Hc1 Hc2]; subst.
  pose proof (vr_sim x o H Hc1) as H1. destruct (vrstep x o) as [x1 o1]. destruct H1 as [H1 E1]. specialize (IH x1 H1 Hc2).
  destruct (vrrun x1 h) as [x2 o2]. destruct IH as [H2 E2]. split; [exact H2|]. cbn [fst]. rewrite lxrun_app, E1, E2. reflexivity.
Qed.
(** reset is asserted *)
Lemma vr_rst z : vri (z, false) -> let '(x', os) := vrstep (z, false) (VReset true) in
  vri x' /\ snd x' = true /\ v_inits x' = v_inits (z, false) /\ lxrun (lx_init (rtw (lws_target (hu_s (hv_w z)))) (rtr (lrs_target (hu_s (hv_r z))))) (v_inits (z, false)) = (vrabs x', []).
Proof.
  intros [[S1 S2] [Iw Ir]]. cbn [vr_step Bool.eqb]. cbn in S1, S2.
  pose proof (rst_sim (lite_w_sends L) (lite_w_need L) lw_kind lws_act (lws_in tw L true) (fun s => LWIdle (rtw (lws_target s))) (hv_w z) _ Iw eq_refl) as Hw.
  destruct (hu_rst _ _ (fun s => LWIdle (rtw (lws_target s))) (hv_w z) true) as [w ow]. destruct Hw as (Hw & Ew & Sw & Pw).
  pose proof (rst_sim (lite_r_sends L) (lite_r_need L) lr_kind (lrs_act tr L) lrs_in (fun s => LRIdle (rtr (lrs_target s))) (hv_r z) _ Ir eq_refl) as Hr.
  destruct (hu_rst _ _ (fun s => LRIdle (rtr (lrs_target s))) (hv_r z) true) as [r or]. destruct Hr as (Hr & Er & Sr & Pr).
  destruct (RT _ _ S1 S2) as [T1 T2].
  split; [|split; [reflexivity|split]].
  - split; [|auto]. cbn. unfold vsync, usynced. cbn. rewrite Sw, Sr. cbn. auto.
  - unfold v_inits, v_wpend, v_rpend. cbn. now rewrite Pw, Pr.
  - unfold v_inits, v_wpend, v_rpend. cbn [fst]. rewrite lxrun_app. rewrite lx_run_w by (auto; unfold vsync, usynced; cbn; auto). cbn [lx_init v_w v_r]. rewrite Ew. cbn [map app].
    change (u_s (dabs w)) with (hu_s w). rewrite Sw. cbn [usys_init u_s]. unfold ur_told. cbn [lrs_poke lws_target]. rewrite T1. unfold uset_s. cbn [u_m u_a u_w u_b].
    rewrite lx_run_r by (auto; unfold vsync, usynced; cbn; rewrite Sw; cbn; auto). cbn [v_w v_r]. unfold usys_init in *. cbn [u_m u_a u_w u_b u_s] in *. rewrite Er. cbn [map app vrabs]. f_equal. f_equal.
    change (u_s (dabs r)) with (hu_s r). change (u_s (dabs w)) with (hu_s w). rewrite Sr, Sw. unfold uw_told. cbn [lws_poke lrs_target]. rewrite T2, <- Sw. destruct w; reflexivity.
Qed.
Lemma vri_init t t' : w2r t t' = t' -> r2w t' t = t -> vri (hlx_init t t', false).
Proof. intros H1 H2. destruct (vi_init w2r r2w t t' H1 H2) as (A & B & D). split; auto. Qed.
Lemma vri_step x o : vri x -> vri (fst (vrstep x o)).
Proof.
  intros H. destruct o as [o|[]].
  - pose proof (vr_sim x (VO o) H I) as K. destruct (vrstep x (VO o)). apply K.
  - destruct x as [z []]; [exact H|]. pose proof (vr_rst z H) as K. destruct (vrstep (z, false) (VReset true)). apply K.
  - pose proof (vr_sim x (VReset false) H I) as K. destruct (vrstep x (VReset false)). apply K.
Qed.
Lemma vri_run h : forall x, vri x -> vri (fst (vrrun x h)).
Proof.
  induction h as [|o h IH]; intros x H; [exact H|]. cbn [vr_run]. pose proof (vri_step x o H) as H1. destruct (vrstep x o) as [x1 o1]. specialize (IH x1 H1). destruct (vrrun x1 h). exact IH.
Qed.
Lemma vrrun_app h1 : forall h2 x, vrrun x (h1 ++ h2) = let '(x1, o1) := vrrun x h1 in let '(x2, o2) := vrrun x1 h2 in (x2, o1 ++ o2).
Proof.
  induction h1 as [|o h1 IH]; intros h2 x; cbn [app vr_run].
  - destruct (vrrun x h2). reflexivity.
  - destruct (vrstep x o) as [x1 o1]. rewrite IH. destruct (vrrun x1 h1) as [x2 o2]. destruct (vrrun x2 h2) as [x3 o3]. now rewrite app_assoc.
Qed.

(** the steps of user and tasks *)
Lemma vrsim_all (P : lxop TW TR -> Prop) x o : (forall o, lx_internal o -> P o) -> Forall P (vrtasks [o]) -> Forall P (vrsim x o).
Proof.
  intros HP H. destruct o as [o|b]; [|constructor]. cbn [vrtasks flat_map] in H. rewrite app_nil_r in H. cbn [vrsim]. destruct (snd x); [|now apply vsim_all].
  destruct o as [o|o]; apply Forall_map; apply dsim_all; destruct o as [o|i o]; cbn in *; auto; apply Forall_inv in H; constructor; auto.
Qed.
Lemma vrsims_all (P : lxop TW TR -> Prop) h : forall x, (forall o, lx_internal o -> P o) -> Forall P (vrtasks h) -> Forall P (vrsims x h).
Proof.
  induction h as [|o h IH]; intros x HP H; cbn [vrsims]; [constructor|]. change (o :: h) with ([o] ++ h) in H. unfold vrtasks in H. rewrite flat_map_app in H.
  apply Forall_app in H. destruct H as [H1 H2]. apply Forall_app. split; [now apply vrsim_all|now apply IH].
Qed.
Lemma fm_some {X} (l : list X) : flat_map (fun x => [x]) l = l. Proof. induction l; cbn; congruence. Qed.
Lemma fm_none {X Y} (l : list X) : flat_map (fun _ => @nil Y) l = []. Proof. induction l; cbn; congruence. Qed.
Lemma sub_w_map (l : list (uop (Z * lwcmd) (lwslv TW))) : lx_wsubmitted (map (VW (TR := TR)) l) = usubmitted l /\ lx_rsubmitted (map (VW (TR := TR)) l) = [].
Proof.
  unfold lx_wsubmitted, lx_rsubmitted. rewrite !(flat_map_concat_map _ (map _ _)), !map_map, <- !flat_map_concat_map, fm_some, fm_none. auto.
Qed.
Lemma sub_r_map (l : list (uop (Z * lrcmd) (lrslv TR))) : lx_rsubmitted (map (VR (TW := TW)) l) = usubmitted l /\ lx_wsubmitted (map (VR (TW := TW)) l) = [].
Proof.
  unfold lx_wsubmitted, lx_rsubmitted. rewrite !(flat_map_concat_map _ (map _ _)), !map_map, <- !flat_map_concat_map, fm_some, fm_none. auto.
Qed.
Lemma vrsim_submitted x o : lx_wsubmitted (vrsim x o) = lx_wsubmitted (vrtasks [o]) /\ lx_rsubmitted (vrsim x o) = lx_rsubmitted (vrtasks [o]).
Proof.
  destruct o as [o|b]; [|auto]. cbn [vrtasks flat_map]. rewrite app_nil_r. cbn [vrsim]. destruct (snd x); [|split; [apply vsim_w|apply vsim_r]].
  destruct o as [o|o].
  - destruct (sub_w_map (dsim o)) as [-> ->]. rewrite dsim_submitted. destruct o; auto.
  - destruct (sub_r_map (dsim o)) as [-> ->]. rewrite dsim_submitted. destruct o; auto.
Qed.
Lemma vrsims_submitted h : forall x, lx_wsubmitted (vrsims x h) = lx_wsubmitted (vrtasks h) /\ lx_rsubmitted (vrsims x h) = lx_rsubmitted (vrtasks h).
Proof.
  induction h as [|o h IH]; intros x; cbn [vrsims]; [auto|]. destruct (IH (fst (vrstep x o))) as [I1 I2]. destruct (vrsim_submitted x o) as [J1 J2].
  change (o :: h) with ([o] ++ h). unfold vrtasks. rewrite flat_map_app. fold (vrtasks [o]) (vrtasks h).
  rewrite !usub_w_app, !usub_r_app, J1, J2, I1, I2. auto.
Qed.
End Rw.
