(** Reset of the clocked AXI system (M_rst.v). *)
From Coq Require Import ZArith Lia List Bool Permutation.
From Coq Require Import ZifyBool ZifyNat.
From Verif Require Import Py M_stream M_axi M_axil M_liteeng M_axieng S_axieng P_liteeng P_axitag P_axieng P_ren M_cchan P_cchan M_sys S_sys M_litesys S_litesys S_live M_axisys S_axisys M_literw S_literw M_clk S_clk
  P_clk P_clku P_clkrw M_rst S_rst P_rst P_renx P_renrw.
Import ListNotations.
Open Scope Z_scope.

Section Half.
Context {C E R S : Type}.
Variable sends : C -> Z -> list E.
Variable opens : E -> bool.
Variable epat : E -> list bool.
Variable chk : bool -> R -> bool.
Variable rtag : R -> Z.
Variable ask : C -> option Z.
Variable idn : Z.
Variable kind : E -> bool.
Variable act : S -> sact R S.
Variable sin : S -> E -> S.
Variable dE : E.
Variable dR : R.
Notation xstep := (x_step sends opens epat chk rtag ask idn).
Notation xrun := (x_run sends opens epat chk rtag ask idn).
Notation hstep := (h_step sends opens epat chk rtag ask idn kind act sin dE dR).
Notation ystep := (y_step sends opens epat chk rtag ask idn kind act sin).
Notation yrun := (y_run sends opens epat chk rtag ask idn kind act sin).
Notation hrst := (h_rst sends opens epat chk rtag ask idn).

(** the manager stays well formed *)
Lemma xmwf_ctx (s : xeng C E R) t i x c bid got cmdq respq act' : mwf (e_mgr s) -> In (t, i) (m_map (e_mgr s)) -> x_tag x = Some t -> bid = Some t -> x_task x <> TNone ->
  mwf (e_mgr (fst (x_ctx s i x c bid got cmdq respq act'))).
Proof.
  intros W Hi H1 H2 H3. rewrite x_ctx_upd. cbn [fst e_mgr x_mgr]. apply (upd_spec (e_mgr s) t i); cbn; auto; destruct (Nat.leb _ _); auto; discriminate.
Qed.
Lemma xmwf_step (s : xeng C E R) o : mwf (e_mgr s) -> mwf (e_mgr (fst (xstep s o))).
Proof.
  intros W. destruct o as [c|c|n| | |r|i|i|b]; cbn [x_step]; auto.
  - destruct (nth_error (e_pend s) n); auto.
  - destruct (e_wtask s), (e_cur s) as [[[? ?] ?]|], (e_q s); auto. destruct (x_choose ask idn s c) as [t id]. unfold x_go. destruct (sends c t); auto. now apply start_cmd_spec.
  - destruct (e_wtask s), (e_cur s) as [[[? ?] [|? l]]|]; auto. unfold x_go. destruct l; auto. now apply start_cmd_spec.
  - destruct (e_rtask s); auto. unfold x_resp. destruct (0 <? e_act s (rtag r)); auto. now apply put_resp_spec.
  - destruct (nth_error (m_ctxs (e_mgr s)) i) as [x|] eqn:En; auto. destruct (x_task x) eqn:Et; auto. destruct (x_cur x) eqn:Ec; auto. destruct (x_cmdq x) eqn:Eq; auto.
    destruct (busy_mapped _ i x W En) as (t & Hi & -> & _ & Ht); [intros (_ & H & _); congruence|]. apply (xmwf_ctx s t); auto. congruence.
  - destruct (nth_error (m_ctxs (e_mgr s)) i) as [x|] eqn:En; auto. destruct (x_task x) eqn:Et; auto. destruct (x_cur x) as [[[c bid] got]|] eqn:Ec; auto. destruct (x_respq x) eqn:Eq; auto.
    destruct (busy_mapped _ i x W En) as (t & Hi & Hx & _ & Ht); [intros (H & _); congruence|]. pose proof (wf_map _ W _ _ Hi) as (_ & _ & Hb). rewrite <- Hx, Ec in Hb.
    destruct (_ && _).
    + apply (xmwf_ctx s t); auto. congruence.
    + cbn [fst e_mgr x_mgr]. apply (mgr_set_spec (e_mgr s) t i); auto; cbn; auto; try discriminate.
  - unfold x_reset. destruct b; auto. pose proof (mgr_flush_spec _ W) as H. destruct (mgr_flush (e_mgr s)). apply H.
Qed.
Lemma hmwf_step y o : mwf (e_mgr (h_m y)) -> mwf (e_mgr (h_m (fst (hstep y o)))).
Proof.
  intros W. assert (K : forall y p, mwf (e_mgr (h_m y)) -> mwf (e_mgr (h_m (fst (hm_step sends opens epat chk rtag ask idn (S := S) y p))))).
  { intros y1 p W1. unfold hm_step. pose proof (xmwf_step (h_m y1) p W1) as K. destruct (xstep (h_m y1) p). exact K. }
  destruct o as [o|i o]; [|destruct i; exact W]. destruct o as [c|c|n| | | |i|i|k|k| | | |f]; cbn [h_step]; try (apply K; exact W); try exact W.
  - destruct (e_wtask (h_m y)); try exact W. destruct (next_send (h_m y)); try exact W. destruct (cc_room _); [|exact W]. apply K. destruct (kind e); exact W.
  - destruct (e_rtask (h_m y)); try exact W. destruct (cc_got (h_b y)); try exact W. apply K. exact W.
  - destruct (act (h_s y)) as [k|r s|s|]; try exact W.
    + destruct (cc_got (hfwd y k)); [exact W|]. destruct k; exact W.
    + destruct (cc_room _); exact W.
Qed.

(** ** a half during reset *)
Definition xawake (m : xeng C E R) : xeng C E R :=
  {| e_pend := e_pend m; e_q := e_q m; e_cur := e_cur m; e_wtask := TRun; e_mgr := e_mgr m; e_rtask := TRun; e_act := e_act m; e_id := e_id m; e_inflight := e_inflight m; e_idle := e_idle m |}.
Definition xasleep (m : xeng C E R) : Prop := e_cur m = None /\ e_wtask m = TNone /\ e_rtask m = TNone /\ m_map (e_mgr m) = [] /\ mwf (e_mgr m).
Definition xdead (y : hsys C E R S) : Prop := xasleep (h_m y) /\ cdead (h_a y) /\ cdead (h_w y) /\ cdead (h_b y).
Definition xdabs (y : hsys C E R S) : sys C E R S := {| y_m := xawake (h_m y); y_a := chan_new; y_w := chan_new; y_b := chan_new; y_s := h_s y |}.
Definition xdsim (o : hop C S) : list (yop C S) := match o with HT (YIssue c) => [YIssue c] | HT (YInit c) => [YInit c] | HT (YStart n) => [YStart n] | HT (YPoke f) => [YPoke f] | _ => [] end.

Lemma xdead_sim y o : xdead y -> o <> HT YSlave -> let '(y', os) := hstep y o in xdead y' /\ yrun (xdabs y) (xdsim o) = (xdabs y', os).
Proof.
  intros (Hm & Ha & Hw & Hb) Ho. pose proof Hm as (M1 & M2 & M3 & M4 & M5).
  assert (Q : xdead y) by (split; auto).
  assert (U : forall i, xstep (h_m y) (PCGet i) = (h_m y, []) /\ xstep (h_m y) (PCResp i) = (h_m y, [])).
  { intros i. apply unmapped_get; [exact M5|]. unfold mapped. now rewrite M4. }
  destruct o as [o|i o].
  - destruct o as [c|c|n| | | |i|i|k|k| | | |f]; cbn [h_step xdsim];
      try (split; [exact Q|reflexivity]); try (exfalso; apply Ho; reflexivity).
    + unfold hm_step. cbn [x_step y_run y_step]. unfold m_step. cbn [x_step xdabs y_m xawake e_pend]. destruct (nth_error (e_pend (h_m y)) n); [split; [split; [exact Hm|auto]|reflexivity]|].
      split; [destruct y; exact Q|destruct y; reflexivity].
    + unfold hm_step. cbn [x_step]. rewrite M2. split; [destruct y; exact Q|destruct y; reflexivity].
    + rewrite M2. split; [exact Q|reflexivity].
    + rewrite M3. split; [exact Q|reflexivity].
    + unfold hm_step. rewrite (proj1 (U i)). split; [destruct y; exact Q|destruct y; reflexivity].
    + unfold hm_step. rewrite (proj2 (U i)). split; [destruct y; exact Q|destruct y; reflexivity].
  - destruct i; cbn [h_step xdsim y_run]; (split; [|reflexivity]); (split; [exact Hm|]); cbn; repeat (split; [auto using dead_step|]); auto using dead_step.
Qed.
Lemma flush_quiet (m m' : mgr C R) : (forall x, In x (m_ctxs m') -> x_task x = TNone) -> mwf m' -> quiet m'.
Proof.
  intros H W i Hi. rewrite H; [discriminate|]. apply nth_In. apply (wf_all m' W). apply in_or_app. now right.
Qed.
Lemma xrst_sim restart y s1 : hi y -> mwf (e_mgr (h_m y)) -> restart (h_s y) = s1 -> let '(y', os) := hrst restart y true in
  xdead y' /\ h_s y' = s1 /\ e_pend (h_m y') = e_pend (h_m y) /\ msim (e_mgr (h_m y')) mgr_new /\
  yrun (sys_init s1) (map YInit (e_pend (h_m y))) = (wmy (xdabs y') mgr_new, []).
Proof.
  intros (H1 & H2 & H3) W Hs. unfold h_rst. cbn [x_step x_reset]. pose proof (mgr_flush_spec _ W) as F. destruct (mgr_flush (e_mgr (h_m y))) as [m' l]. destruct F as (W' & _ & F1 & F2 & _).
  split. { split; [split; [reflexivity|split; [reflexivity|split; [reflexivity|split; assumption]]]|]. split; [now apply rst_dead|]. split; now apply rst_dead. }
  split; [exact Hs|]. split; [reflexivity|]. split.
  { cbn. split; [exact W'|]. split; [apply mwf_new|]. split; [now apply (flush_quiet m')|]. split; [intros i []|]. intros t. unfold view. rewrite F1. reflexivity. }
  assert (K : forall l' pre, yrun {| y_m := {| e_pend := pre; e_q := []; e_cur := None; e_wtask := TRun; e_mgr := mgr_new; e_rtask := TRun; e_act := fun _ => 0; e_id := 0; e_inflight := 0; e_idle := true |};
      y_a := chan_new; y_w := chan_new; y_b := chan_new; y_s := s1 |} (map YInit l') =
    ({| y_m := {| e_pend := pre ++ l'; e_q := []; e_cur := None; e_wtask := TRun; e_mgr := mgr_new; e_rtask := TRun; e_act := fun _ => 0; e_id := 0; e_inflight := 0; e_idle := true |};
      y_a := chan_new; y_w := chan_new; y_b := chan_new; y_s := s1 |}, [])).
  { clear. induction l' as [|c l' IH]; intros pre; [cbn; now rewrite app_nil_r|]. cbn [map y_run y_step]. unfold m_step. cbn [x_step y_m]. unfold x_set_pend, set_m.
    cbn [y_m y_a y_w y_b y_s e_pend e_q e_cur e_wtask e_mgr e_rtask e_act e_id e_inflight e_idle]. rewrite (IH (pre ++ [c])), <- app_assoc. reflexivity. }
  specialize (K (e_pend (h_m y)) []). unfold sys_init, xeng_init. rewrite K. unfold xdabs, wmy, wm. cbn. rewrite Hs. reflexivity.
Qed.
Lemma xrelease_sim restart y : xdead y -> let '(y', os) := hrst restart y false in hi y' /\ habs y' = xdabs y /\ os = [] /\ e_mgr (h_m y') = e_mgr (h_m y).
Proof.
  intros ((M1 & M2 & M3 & M4 & M5) & Ha & Hw & Hb). unfold h_rst. cbn [x_step x_reset].
  destruct (dead_release _ Ha) as [A1 A2], (dead_release _ Hw) as [W1 W2], (dead_release _ Hb) as [B1 B2].
  split; [hsp|]. split; [|split; reflexivity]. unfold habs, xdabs, xawake. cbn [h_m h_a h_w h_b h_s]. now rewrite A2, W2, B2, M2, M3.
Qed.
Lemma xdsim_all (P : yop C S -> Prop) o : Forall P (tasks [o]) -> Forall P (xdsim o).
Proof. destruct o as [o|i o]; [|constructor]. cbn. intros H. apply Forall_inv in H. destruct o; constructor; auto. Qed.
Lemma xdsim_submitted o : ysubmitted (xdsim o) = ysubmitted (tasks [o]).
Proof. destruct o as [o|i o]; [|reflexivity]. destruct o; reflexivity. Qed.

(** the master takes engine steps only *)
Lemma h_step_m y o : let '(y', os) := hstep y o in exists g, xrun (h_m y) g = (h_m y', os).
Proof.
  assert (K1 : forall y p, let '(y', os) := hm_step sends opens epat chk rtag ask idn (S := S) y p in exists g, xrun (h_m y) g = (h_m y', os)).
  { intros y1 p. unfold hm_step. destruct (xstep (h_m y1) p) as [m os] eqn:Ex. exists [p]. cbn [x_run]. rewrite Ex, app_nil_r. reflexivity. }
  assert (K0 : exists g, xrun (h_m y) g = (h_m y, [])) by (exists []; reflexivity).
  destruct o as [o|i o]; [|destruct i; exact K0]. destruct o as [c|c|n| | | |i|i|k|k| | | |f]; cbn [h_step]; try apply K1; try exact K0.
  - destruct (e_wtask (h_m y)); try exact K0. destruct (next_send (h_m y)); try exact K0. destruct (cc_room _); [|exact K0].
    pose proof (K1 (hset_fwd y (kind e) (cc_send (hfwd y (kind e)) e)) PSend) as K. replace (h_m (hset_fwd y (kind e) _)) with (h_m y) in K by (destruct (kind e); reflexivity). exact K.
  - destruct (e_rtask (h_m y)); try exact K0. destruct (cc_got (h_b y)) as [|r q]; try exact K0. exact (K1 (hset_b y (cc_recv (h_b y))) (PResp r)).
  - destruct (act (h_s y)) as [k|r s|s|]; try exact K0.
    + destruct (cc_got (hfwd y k)); [exact K0|]. destruct k; exact K0.
    + destruct (cc_room _); exact K0.
Qed.
End Half.

Section Rw.
Context {TW TR : Type}.
Variable c : mcfg.
Variables widn ridn : Z.
Variable tw : TW -> Z -> list Z -> TW * res unit.
Variable tr : TR -> Z -> Z -> TR * res (list Z).
Variable w2r : TW -> TR -> TR.
Variable r2w : TR -> TW -> TW.
Variables (rtw : TW -> TW) (rtr : TR -> TR).
Variables (dW : wev) (dB : bch) (dA : axc) (dRd : rch).
Hypothesis W1 : forall a b r, w2r b (w2r a r) = w2r b r.
Hypothesis W2 : forall a r, r2w (w2r a r) a = a.
Hypothesis R1 : forall a b w, r2w b (r2w a w) = r2w b w.
Hypothesis R2 : forall a w, w2r (r2w a w) a = a.
Hypothesis RT : forall a b, w2r a b = b -> r2w b a = a -> w2r (rtw a) (rtr b) = rtr b /\ r2w (rtr b) (rtw a) = rtw a.
Notation axrun := (ax_run c widn ridn tw tr w2r r2w).
Notation zrstep := (zr_step c widn ridn tw tr w2r r2w rtw rtr dW dB dA dRd).
Notation zrrun := (zr_run c widn ridn tw tr w2r r2w rtw rtr dW dB dA dRd).
Notation haxstep := (hax_step c widn ridn tw tr w2r r2w dW dB dA dRd).
Notation wmgr z := (e_mgr (h_m (hz_w z))).
Notation rmgr z := (e_mgr (h_m (hz_r z))).

Definition zrabs (x : zrsys TW TR) : axs TW TR :=
  let '(z, on) := x in if on then {| z_w := xdabs (hz_w z); z_r := xdabs (hz_r z) |} else zabs z.
Definition zri (x : zrsys TW TR) : Prop :=
  zsync w2r r2w (zrabs x) /\ mwf (wmgr (fst x)) /\ mwf (rmgr (fst x)) /\ (let '(z, on) := x in if on then xdead (hz_w z) /\ xdead (hz_r z) else hi (hz_w z) /\ hi (hz_r z)).
Definition zrsim (x : zrsys TW TR) (o : zrop TW TR) : list (aop TW TR) :=
  match o with
  | ZO o => if snd x then match o with KW o => map BW (xdsim o) | KR o => map BR (xdsim o) end else zsim c tr (fst x) o
  | ZReset _ => []
  end.
Lemma zslave_no o : z_slave (TW := TW) (TR := TR) o = false -> match o with KW o => o <> HT YSlave | KR o => o <> HT YSlave end.
Proof. destruct o as [o|o]; intros H ->; discriminate. Qed.

Lemma zr_sim x o : zri x -> z_calm o -> let '(x', os) := zrstep x o in zri x' /\ axrun (zrabs x) (zrsim x o) = (zrabs x', os).
Proof.
  destruct x as [z on]. intros (Hs & Mw & Mr & Hi) Hc. cbn [fst] in *. destruct o as [o|b]; cbn [zr_step zrsim fst snd].
  - destruct on; cbn [andb].
    + destruct Hi as [Iw Ir]. destruct (z_slave o) eqn:Eo.
      { split; [split; auto|]. destruct o as [o|o]; destruct o as [[]|]; try discriminate Eo; reflexivity. }
      apply zslave_no in Eo. destruct o as [o|o]; cbn [hax_step].
      * unfold whsys_step. pose proof (xdead_sim (w_sends c) w_opens w_epat w_chk b_id op_id widn w_opens ws_act (ws_in tw (m_lanes c) true) dW dB (hz_w z) o Iw Eo) as H.
        destruct (h_step _ _ _ _ _ _ _ _ _ _ dW dB (hz_w z) o) as [w os]. destruct H as [Hi H]. rewrite ax_run_w by assumption. cbn [zrabs z_w z_r]. rewrite H. split; [|reflexivity].
        split; [unfold zsync; cbn; now apply synced_r|]. split; [apply Hi|]. split; [exact Mr|]. split; [exact Hi|exact Ir].
      * unfold rhsys_step. pose proof (xdead_sim (r_sends c) r_opens r_epat r_chk r_id op_id ridn r_kind (rs_act tr (m_lanes c)) (rs_in (m_lanes c)) dA dRd (hz_r z) o Ir Eo) as H.
        destruct (h_step _ _ _ _ _ _ _ _ _ _ dA dRd (hz_r z) o) as [r os]. destruct H as [Hi H]. rewrite ax_run_r by assumption. cbn [zrabs z_w z_r]. rewrite H. split; [|reflexivity].
        split; [unfold zsync; cbn; now apply synced_w|]. split; [exact Mw|]. split; [apply Hi|]. split; [exact Iw|exact Hi].
    + pose proof (z_sim c widn ridn tw tr w2r r2w dW dB dA dRd W1 W2 R1 R2 z o (conj (proj1 Hi) (conj (proj2 Hi) Hs))) as H.
      assert (Hm : mwf (wmgr (fst (haxstep z o))) /\ mwf (rmgr (fst (haxstep z o)))).
      { destruct o as [o|o]; cbn [hax_step].
        - unfold whsys_step. pose proof (hmwf_step (w_sends c) w_opens w_epat w_chk b_id op_id widn w_opens ws_act (ws_in tw (m_lanes c) true) dW dB (hz_w z) o Mw) as K.
          destruct (h_step _ _ _ _ _ _ _ _ _ _ dW dB (hz_w z) o) as [w os]. split; [exact K|exact Mr].
        - unfold rhsys_step. pose proof (hmwf_step (r_sends c) r_opens r_epat r_chk r_id op_id ridn r_kind (rs_act tr (m_lanes c)) (rs_in (m_lanes c)) dA dRd (hz_r z) o Mr) as K.
          destruct (h_step _ _ _ _ _ _ _ _ _ _ dA dRd (hz_r z) o) as [w os]. split; [exact Mw|exact K]. }
      destruct (haxstep z o) as [z' os]. destruct H as [(H1 & H2 & H3) H]. split; [|exact H]. split; [exact H3|]. split; [apply Hm|]. split; [apply Hm|auto].
  - destruct b; [destruct Hc|]. destruct on; cbn [Bool.eqb]; [|split; [split; auto|reflexivity]].
    destruct Hi as [Iw Ir].
    pose proof (xrelease_sim (w_sends c) w_opens w_epat w_chk b_id op_id widn (fun s => WIdle (rtw (ws_target s))) (hz_w z) Iw) as Hw.
    destruct (h_rst _ _ _ _ _ _ _ (fun s => WIdle (rtw (ws_target s))) (hz_w z) false) as [w ow]. destruct Hw as (Hw & Ew & -> & Gw).
    pose proof (xrelease_sim (r_sends c) r_opens r_epat r_chk r_id op_id ridn (fun s => RIdle (rtr (rs_target s))) (hz_r z) Ir) as Hr.
    destruct (h_rst _ _ _ _ _ _ _ (fun s => RIdle (rtr (rs_target s))) (hz_r z) false) as [r or]. destruct Hr as (Hr & Er & -> & Gr).
    cbn [map app ax_run]. assert (Ez : zabs {| hz_w := w; hz_r := r |} = zrabs (z, true)) by (unfold zabs; cbn; now rewrite Ew, Er).
    split; [|now rewrite <- Ez]. split; [cbn [zrabs]; rewrite Ez; exact Hs|]. cbn. rewrite Gw, Gr. auto.
Qed.
Fixpoint zrsims (x : zrsys TW TR) (h : list (zrop TW TR)) : list (aop TW TR) :=
  match h with [] => [] | o :: h' => zrsim x o ++ zrsims (fst (zrstep x o)) h' end.
Lemma zr_sims h : forall x, zri x -> Forall z_calm h -> let '(x', os) := zrrun x h in zri x' /\ axrun (zrabs x) (zrsims x h) = (zrabs x', os).
Proof.
  induction h as [|o h IH]; intros x H Hc; cbn [zr_run zrsims ax_run]; [auto|]. inversion Hc as [|? ? Hc1 Hc2]; subst.
  pose proof (zr_sim x o H Hc1) as H1. destruct (zrstep x o) as [x1 o1]. destruct H1 as [H1 E1]. specialize (IH x1 H1 Hc2).
  destruct (zrrun x1 h) as [x2 o2]. destruct IH as [H2 E2]. split; [exact H2|]. cbn [fst]. rewrite axrun_app, E1, E2. reflexivity.
Qed.
(** reset is asserted *)
Lemma zr_rst z : zri (z, false) -> let '(x', os) := zrstep (z, false) (ZReset true) in
  zri x' /\ snd x' = true /\ z_inits x' = z_inits (z, false) /\
  exists b, axrun (ax_init (rtw (ws_target (h_s (hz_w z)))) (rtr (rs_target (h_s (hz_r z))))) (z_inits (z, false)) = (b, []) /\ zsame w2r r2w (zrabs x') b.
Proof.
  intros ([S1 S2] & Mw & Mr & [Iw Ir]). cbn [zr_step Bool.eqb]. cbn in S1, S2, Mw, Mr.
  pose proof (xrst_sim (w_sends c) w_opens w_epat w_chk b_id op_id widn w_opens ws_act (ws_in tw (m_lanes c) true) (fun s => WIdle (rtw (ws_target s))) (hz_w z) _ Iw Mw eq_refl) as Hw.
  destruct (h_rst _ _ _ _ _ _ _ (fun s => WIdle (rtw (ws_target s))) (hz_w z) true) as [w ow]. destruct Hw as (Hw & Sw & Pw & Vw & Ew).
  pose proof (xrst_sim (r_sends c) r_opens r_epat r_chk r_id op_id ridn r_kind (rs_act tr (m_lanes c)) (rs_in (m_lanes c)) (fun s => RIdle (rtr (rs_target s))) (hz_r z) _ Ir Mr eq_refl) as Hr.
  destruct (h_rst _ _ _ _ _ _ _ (fun s => RIdle (rtr (rs_target s))) (hz_r z) true) as [r or]. destruct Hr as (Hr & Sr & Pr & Vr & Er).
  destruct (RT _ _ S1 S2) as [T1 T2].
  assert (Y : zsync w2r r2w (zrabs ({| hz_w := w; hz_r := r |}, true))) by (cbn; unfold zsync, synced; cbn; rewrite Sw, Sr; cbn; auto).
  split; [|split; [reflexivity|split]].
  - split; [exact Y|]. split; [apply Hw|]. split; [apply Hr|auto].
  - unfold z_inits, z_wpend, z_rpend. cbn. now rewrite Pw, Pr.
  - exists {| z_w := wmy (xdabs w) mgr_new; z_r := wmy (xdabs r) mgr_new |}. split; [|constructor; cbn; auto].
    unfold z_inits, z_wpend, z_rpend. cbn [fst]. rewrite axrun_app. rewrite ax_run_w by (auto; unfold zsync, synced; cbn; auto). cbn [ax_init z_w z_r]. rewrite Ew. cbn [map app].
    change (y_s (wmy (xdabs w) mgr_new)) with (h_s w). rewrite Sw. cbn [sys_init y_s]. unfold r_told. cbn [rs_poke ws_target]. rewrite T1. unfold set_s. cbn [y_m y_a y_w y_b].
    rewrite ax_run_r by (auto; unfold zsync, synced; cbn; rewrite Sw; cbn; auto). cbn [z_w z_r]. unfold sys_init in *. cbn [y_m y_a y_w y_b y_s] in *. rewrite Er. cbn [map app]. f_equal. f_equal.
    change (y_s (wmy (xdabs r) mgr_new)) with (h_s r). change (y_s (wmy (xdabs w) mgr_new)) with (h_s w). rewrite Sr, Sw. unfold w_told. cbn [ws_poke rs_target]. rewrite T2, <- Sw. destruct w; reflexivity.
Qed.
Lemma zri_init t t' : w2r t t' = t' -> r2w t' t = t -> zri (hax_init t t', false).
Proof. intros H1 H2. destruct (zi_init w2r r2w t t' H1 H2) as (A & B & D). split; [exact D|]. split; [apply mwf_new|]. split; [apply mwf_new|auto]. Qed.
Lemma zri_step x o : zri x -> zri (fst (zrstep x o)).
Proof.
  intros H. destruct o as [o|[]].
  - pose proof (zr_sim x (ZO o) H I) as K. destruct (zrstep x (ZO o)). apply K.
  - destruct x as [z []]; [exact H|]. pose proof (zr_rst z H) as K. destruct (zrstep (z, false) (ZReset true)). apply K.
  - pose proof (zr_sim x (ZReset false) H I) as K. destruct (zrstep x (ZReset false)). apply K.
Qed.
Lemma zri_run h : forall x, zri x -> zri (fst (zrrun x h)).
Proof.
  induction h as [|o h IH]; intros x H; [exact H|]. cbn [zr_run]. pose proof (zri_step x o H) as H1. destruct (zrstep x o) as [x1 o1]. specialize (IH x1 H1). destruct (zrrun x1 h). exact IH.
Qed.
Lemma zrrun_app h1 : forall h2 x, zrrun x (h1 ++ h2) = let '(x1, o1) := zrrun x h1 in let '(x2, o2) := zrrun x1 h2 in (x2, o1 ++ o2).
Proof.
  induction h1 as [|o h1 IH]; intros h2 x; cbn [app zr_run].
  - destruct (zrrun x h2). reflexivity.
  - destruct (zrstep x o) as [x1 o1]. rewrite IH. destruct (zrrun x1 h1) as [x2 o2]. destruct (zrrun x2 h2) as [x3 o3]. now rewrite app_assoc.
Qed.

(** the steps of user and tasks *)
Lemma zrsim_all (P : aop TW TR -> Prop) x o : (forall o, a_internal o -> P o) -> Forall P (zrtasks [o]) -> Forall P (zrsim x o).
Proof.
  intros HP H. destruct o as [o|b]; [|constructor]. cbn [zrtasks flat_map] in H. rewrite app_nil_r in H. cbn [zrsim]. destruct (snd x); [|now apply zsim_all].
  destruct o as [o|o]; apply Forall_map; apply xdsim_all; destruct o as [o|i o]; cbn in *; auto; apply Forall_inv in H; constructor; auto.
Qed.
Lemma zrsims_all (P : aop TW TR -> Prop) h : forall x, (forall o, a_internal o -> P o) -> Forall P (zrtasks h) -> Forall P (zrsims x h).
Proof.
  induction h as [|o h IH]; intros x HP H; cbn [zrsims]; [constructor|]. change (o :: h) with ([o] ++ h) in H. unfold zrtasks in H. rewrite flat_map_app in H.
  apply Forall_app in H. destruct H as [H1 H2]. apply Forall_app. split; [now apply zrsim_all|now apply IH].
Qed.
Lemma zsub_w_map (l : list (yop wop (wslv TW))) : a_wsubmitted (map (BW (TR := TR)) l) = ysubmitted l /\ a_rsubmitted (map (BW (TR := TR)) l) = [].
Proof.
  unfold a_wsubmitted, a_rsubmitted. rewrite !(flat_map_concat_map _ (map _ _)), !map_map, <- !flat_map_concat_map, fm_some, fm_none. auto.
Qed.
Lemma zsub_r_map (l : list (yop rop (rslv TR))) : a_rsubmitted (map (BR (TW := TW)) l) = ysubmitted l /\ a_wsubmitted (map (BR (TW := TW)) l) = [].
Proof.
  unfold a_wsubmitted, a_rsubmitted. rewrite !(flat_map_concat_map _ (map _ _)), !map_map, <- !flat_map_concat_map, fm_some, fm_none. auto.
Qed.
Lemma zrsim_submitted x o : a_wsubmitted (zrsim x o) = a_wsubmitted (zrtasks [o]) /\ a_rsubmitted (zrsim x o) = a_rsubmitted (zrtasks [o]).
Proof.
  destruct o as [o|b]; [|auto]. cbn [zrtasks flat_map]. rewrite app_nil_r. cbn [zrsim]. destruct (snd x); [|split; [apply zsim_w|apply zsim_r]].
  destruct o as [o|o].
  - destruct (zsub_w_map (xdsim o)) as [-> ->]. rewrite xdsim_submitted. destruct o; auto.
  - destruct (zsub_r_map (xdsim o)) as [-> ->]. rewrite xdsim_submitted. destruct o; auto.
Qed.
Lemma zrsims_submitted h : forall x, a_wsubmitted (zrsims x h) = a_wsubmitted (zrtasks h) /\ a_rsubmitted (zrsims x h) = a_rsubmitted (zrtasks h).
Proof.
  induction h as [|o h IH]; intros x; cbn [zrsims]; [auto|]. destruct (IH (fst (zrstep x o))) as [I1 I2]. destruct (zrsim_submitted x o) as [J1 J2].
  change (o :: h) with ([o] ++ h). unfold zrtasks. rewrite flat_map_app. fold (zrtasks [o]) (zrtasks h).
  rewrite !sub_w_app, !sub_r_app, J1, J2, I1, I2. auto.
Qed.

(** each run of the system is a run of the two masters *)
Lemma zwouts_app (a b : list aout) : w_outs (a ++ b) = w_outs a ++ w_outs b. Proof using. unfold w_outs. apply flat_map_app. Qed.
Lemma zrouts_app (a b : list aout) : r_outs (a ++ b) = r_outs a ++ r_outs b. Proof using. unfold r_outs. apply flat_map_app. Qed.
Lemma zouts_inl os : w_outs (map inl os) = os /\ r_outs (map inl os) = [].
Proof using. unfold w_outs, r_outs. rewrite !(flat_map_concat_map _ (map _ _)), !map_map, <- !flat_map_concat_map, fm_some, fm_none. auto. Qed.
Lemma zouts_inr os : r_outs (map inr os) = os /\ w_outs (map inr os) = [].
Proof using. unfold w_outs, r_outs. rewrite !(flat_map_concat_map _ (map _ _)), !map_map, <- !flat_map_concat_map, fm_some, fm_none. auto. Qed.
Lemma zr_step_m x o : let '(x', os) := zrstep x o in
  (exists g, x_run (w_sends c) w_opens w_epat w_chk b_id op_id widn (h_m (hz_w (fst x))) g = (h_m (hz_w (fst x')), w_outs os)) /\
  (exists g, x_run (r_sends c) r_opens r_epat r_chk r_id op_id ridn (h_m (hz_r (fst x))) g = (h_m (hz_r (fst x')), r_outs os)).
Proof using.
  clear W1 W2 R1 R2 RT. destruct x as [z on]. destruct o as [o|b]; cbn [zr_step fst].
  - destruct (on && z_slave o); [split; exists []; reflexivity|]. destruct o as [o|o]; cbn [hax_step].
    + unfold whsys_step. pose proof (h_step_m (w_sends c) w_opens w_epat w_chk b_id op_id widn w_opens ws_act (ws_in tw (m_lanes c) true) dW dB (hz_w z) o) as K.
      destruct (h_step _ _ _ _ _ _ _ _ _ _ dW dB (hz_w z) o) as [w os]. cbn [fst hz_w hz_r h_m]. destruct (zouts_inl os) as [-> ->]. split; [exact K|exists []; reflexivity].
    + unfold rhsys_step. pose proof (h_step_m (r_sends c) r_opens r_epat r_chk r_id op_id ridn r_kind (rs_act tr (m_lanes c)) (rs_in (m_lanes c)) dA dRd (hz_r z) o) as K.
      destruct (h_step _ _ _ _ _ _ _ _ _ _ dA dRd (hz_r z) o) as [r os]. cbn [fst hz_w hz_r h_m]. destruct (zouts_inr os) as [-> ->]. split; [exists []; reflexivity|exact K].
  - destruct (Bool.eqb b on); [split; exists []; reflexivity|]. unfold h_rst.
    destruct (x_step (w_sends c) w_opens w_epat w_chk b_id op_id widn (h_m (hz_w z)) (PReset b)) as [mw ow] eqn:Ew.
    destruct (x_step (r_sends c) r_opens r_epat r_chk r_id op_id ridn (h_m (hz_r z)) (PReset b)) as [mr or] eqn:Er.
    cbn [fst hz_w hz_r h_m]. rewrite zwouts_app, zrouts_app. destruct (zouts_inl ow) as [-> ->], (zouts_inr or) as [-> ->]. rewrite app_nil_r. cbn [app].
    split; exists [PReset b]; cbn [x_run]; rewrite ?Ew, ?Er, app_nil_r; reflexivity.
Qed.
Lemma zr_run_m h : forall x, let '(x', os) := zrrun x h in
  (exists g, x_run (w_sends c) w_opens w_epat w_chk b_id op_id widn (h_m (hz_w (fst x))) g = (h_m (hz_w (fst x')), w_outs os)) /\
  (exists g, x_run (r_sends c) r_opens r_epat r_chk r_id op_id ridn (h_m (hz_r (fst x))) g = (h_m (hz_r (fst x')), r_outs os)).
Proof using.
  clear W1 W2 R1 R2 RT. induction h as [|o h IH]; intros x; cbn [zr_run]; [split; exists []; reflexivity|].
  pose proof (zr_step_m x o) as H. destruct (zrstep x o) as [x1 o1]. destruct H as [(g1 & H1) (g2 & H2)]. specialize (IH x1).
  destruct (zrrun x1 h) as [x2 o2]. destruct IH as [(g3 & H3) (g4 & H4)]. rewrite zwouts_app, zrouts_app.
  split; [exists (g1 ++ g3); rewrite xrun_app, H1, H3; reflexivity|exists (g2 ++ g4); rewrite xrun_app, H2, H4; reflexivity].
Qed.
End Rw.
