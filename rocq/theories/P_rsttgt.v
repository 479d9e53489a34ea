(** A property of the target that its calls keep holds at every moment of a clocked history with resets (M_rst.v). *)
From Coq Require Import ZArith Lia List Bool.
From Verif Require Import Py S_flat M_sparse S_sparse P_sparse M_memory P_memory M_axi S_axi M_axil M_liteeng M_axieng M_sys S_sys M_litesys S_litesys M_axisys S_axisys M_literw S_literw
  M_stream M_cchan M_clk S_clk M_rst S_rst.
Import ListNotations.
Open Scope Z_scope.

Lemma perform_keeps {T} (tw : T -> Z -> list Z -> T * res unit) (Q : T -> Prop) ops : (forall t a d, Q t -> Q (fst (tw t a d))) -> forall t, Q t -> Q (fst (sw_perform tw t ops)).
Proof.
  intros H. induction ops as [|[a d] ops IH]; intros t Ht; cbn; [exact Ht|]. specialize (H t a d Ht). destruct (tw t a d) as [t' [u|e]]; cbn in *; auto.
Qed.
Lemma lite_sw_keeps {T} (tw : T -> Z -> list Z -> T * res unit) (Q : T -> Prop) L sp a w t : (forall t a d, Q t -> Q (fst (tw t a d))) -> Q t -> Q (fst (lite_sw tw L sp a w t)).
Proof.
  intros H Ht. unfold lite_sw. destruct (to_bytes _ _ _) as [d|e]; [|exact Ht]. pose proof (perform_keeps tw Q (sw_ops (la_addr a / L * L) d (if sp then lw_strb w else strb_mask L) (zrange 0 L) 0 None) H t Ht) as K.
  destruct (sw_perform _ _ _). exact K.
Qed.
Lemma sw_beat_keeps {T} (tw : T -> Z -> list Z -> T * res unit) (Q : T -> Prop) L sp s w t : (forall t a d, Q t -> Q (fst (tw t a d))) -> Q t -> Q (fst (sw_beat tw L sp s w t)).
Proof.
  intros H Ht. unfold sw_beat.
  repeat match goal with
         | |- context [let '(_, _) := sw_perform tw t ?ops in _] => pose proof (perform_keeps tw Q ops H t Ht); destruct (sw_perform tw t ops)
         | |- context [match ?x with _ => _ end] => destruct x
         end; cbn in *; auto.
Qed.

Lemma sr_beat_keeps {T} (tr : T -> Z -> Z -> T * res (list Z)) (Q : T -> Prop) L s t : (forall t a n, Q t -> Q (fst (tr t a n))) -> Q t -> Q (fst (fst (sr_beat tr L s t))).
Proof.
  intros H Ht. unfold sr_beat.
  repeat match goal with
         | |- context [tr t ?a ?n] => pose proof (H t a n Ht); destruct (tr t a n)
         | |- context [match ?x with _ => _ end] => destruct x
         end; cbn in *; auto.
Qed.

Section Lite.
Context {TW TR : Type}.
Variable L : Z.
Variable tw : TW -> Z -> list Z -> TW * res unit.
Variable tr : TR -> Z -> Z -> TR * res (list Z).
Variable w2r : TW -> TR -> TR.
Variable r2w : TR -> TW -> TW.
Variables (rtw : TW -> TW) (rtr : TR -> TR).
Variables (dW : lev) (dB : resp_t) (dA : lax) (dRd : lrd).
Variables (QT : TW -> Prop) (QS : TR -> Prop).
Hypothesis Hw : forall t a d, QT t -> QT (fst (tw t a d)).
Hypothesis Hr : forall t a n, QS t -> QS (fst (tr t a n)).
Hypothesis Hwr : forall a b, QT a -> QS b -> QS (w2r a b).
Hypothesis Hrw : forall a b, QT a -> QS b -> QT (r2w b a).
Hypothesis Htw : forall t, QT t -> QT (rtw t).
Hypothesis Htr : forall t, QS t -> QS (rtr t).
Definition vkeep (x : vrsys TW TR) : Prop := QT (lws_target (hu_s (hv_w (fst x)))) /\ QS (lrs_target (hu_s (hv_r (fst x)))).
Lemma hu_keep {C E R S} sends need kind (act : S -> sact R S) sin (dE : E) (dR : R) (P : S -> Prop) y (o : huop C S) :
  (forall s e, P s -> P (sin s e)) -> (forall s r s', act s = AEmit r s' -> P s -> P s') -> (forall s s', act s = ATau s' -> P s -> P s') ->
  Forall uno_poke (utasks [o]) -> P (hu_s y) -> P (hu_s (fst (hu_step sends need kind act sin dE dR y o))).
Proof.
  intros H1 H2 H3 Ho HP.
  assert (K : forall y1 : husys C E R S, forall g, hu_s y1 = hu_s y -> P (hu_s (fst (hum_step sends need y1 g)))).
  { intros y1 g Eq. unfold hum_step. destruct (eng_step _ _ _ _). cbn. now rewrite Eq. }
  destruct o as [o|i o]; [destruct o|destruct i]; cbn [hu_step]; try (apply K; reflexivity); try exact HP.
  - destruct (unext _) as [e|]; [|exact HP]. destruct (cc_room _); [|exact HP]. apply K. destruct (kind e); reflexivity.
  - destruct (uwaits _); [|exact HP]. destruct (cc_got (hu_b y)); [exact HP|]. apply K. reflexivity.
  - destruct (act (hu_s y)) as [k|r s|s|] eqn:Ea; [| | |exact HP].
    + destruct (cc_got (hufwd y k)); [exact HP|]. cbn. apply H1. destruct k; exact HP.
    + destruct (cc_room _); [|exact HP]. exact (H2 _ _ _ Ea HP).
    + exact (H3 _ _ Ea HP).
  - apply Forall_inv in Ho. destruct Ho.
Qed.
Lemma pokew f s : lws_target (T := TW) (lws_poke f s) = f (lws_target s). Proof using. now destruct s. Qed.
Lemma poker f s : lrs_target (T := TR) (lrs_poke f s) = f (lrs_target s). Proof using. now destruct s. Qed.
Lemma vkeep_step x o : Forall lx_nopoke (vrtasks [o]) -> vkeep x -> vkeep (fst (vr_step L tw tr w2r r2w rtw rtr dW dB dA dRd x o)).
Proof.
  destruct x as [z on]. intros Ho [H1 H2]. cbn [fst] in *. destruct o as [o|b]; cbn [vr_step].
  - cbn [vrtasks flat_map] in Ho. rewrite app_nil_r in Ho. destruct (on && v_slave o); [split; assumption|].
    destruct o as [o|o]; cbn [hlx_step].
    + assert (K : QT (lws_target (hu_s (fst (lwhsys_step L tw true dW dB (hv_w z) o))))).
      { apply (hu_keep _ _ _ _ _ dW dB (fun s => QT (lws_target s))); auto.
        - intros s e Hs. destruct s as [t|a t|b t|t], e as [a'|w]; cbn in *; auto. pose proof (lite_sw_keeps tw QT L true a w t Hw Hs) as K. destruct (lite_sw tw L true a w t) as [t' [b|e]]; exact K.
        - intros s r s' Es. destruct s; cbn in *; inversion Es; subst; auto.
        - intros s s' Es. destruct s; discriminate.
        - destruct o as [o|i o]; cbn in *; [|constructor]. apply Forall_inv in Ho. constructor; auto. }
      destruct (lwhsys_step _ _ _ _ _ _ _) as [w os]. split; cbn in *; [exact K|]. rewrite poker. now apply Hwr.
    + assert (K : QS (lrs_target (hu_s (fst (lrhsys_step L tr dA dRd (hv_r z) o))))).
      { apply (hu_keep _ _ _ _ _ dA dRd (fun s => QS (lrs_target s))); auto.
        - intros s e Hs. destruct s; exact Hs.
        - intros s r s' Es. destruct s; cbn in *; try (unfold lite_sr in Es; destruct (tr _ _ _) as [t' [d|e]]); inversion Es; subst; auto.
        - intros s s' Es. destruct s as [t|a t|r t]; cbn in *; try discriminate. intros Hs. specialize (Hr t (la_addr a / L * L) L Hs). unfold lite_sr in Es. destruct (tr _ _ _) as [t' [d|e]]; inversion Es; subst; exact Hr.
        - destruct o as [o|i o]; cbn in *; [|constructor]. apply Forall_inv in Ho. constructor; auto. }
      destruct (lrhsys_step _ _ _ _ _ _) as [r os]. split; cbn in *; [|exact K]. rewrite pokew. now apply Hrw.
  - destruct (Bool.eqb b on); [split; assumption|]. unfold hu_rst. destruct (eng_step (lite_w_sends L) _ _ _) as [mw ow]. destruct (eng_step (lite_r_sends L) _ _ _) as [mr or].
    cbn. split; cbn; destruct b; cbn; auto.
Qed.
Lemma vkeep_run h : forall x, Forall lx_nopoke (vrtasks h) -> vkeep x -> vkeep (fst (vr_run L tw tr w2r r2w rtw rtr dW dB dA dRd x h)).
Proof.
  induction h as [|o h IH]; intros x Ho H; [exact H|]. change (o :: h) with ([o] ++ h) in Ho. unfold vrtasks in Ho. rewrite flat_map_app in Ho. apply Forall_app in Ho. destruct Ho as [Ho1 Ho2].
  cbn [vr_run]. pose proof (vkeep_step x o Ho1 H) as H1. destruct (vr_step _ _ _ _ _ _ _ _ _ _ _ x o) as [x1 o1]. specialize (IH x1 Ho2 H1). destruct (vr_run _ _ _ _ _ _ _ _ _ _ _ x1 h). exact IH.
Qed.
End Lite.

Section Axi.
Context {TW TR : Type}.
Variable c : mcfg.
Variables widn ridn : Z.
Variable tw : TW -> Z -> list Z -> TW * res unit.
Variable tr : TR -> Z -> Z -> TR * res (list Z).
Variable w2r : TW -> TR -> TR.
Variable r2w : TR -> TW -> TW.
Variables (rtw : TW -> TW) (rtr : TR -> TR).
Variables (dW : wev) (dB : bch) (dA : axc) (dRd : rch).
Variables (QT : TW -> Prop) (QS : TR -> Prop).
Hypothesis Hw : forall t a d, QT t -> QT (fst (tw t a d)).
Hypothesis Hr : forall t a n, QS t -> QS (fst (tr t a n)).
Hypothesis Hwr : forall a b, QT a -> QS b -> QS (w2r a b).
Hypothesis Hrw : forall a b, QT a -> QS b -> QT (r2w b a).
Hypothesis Htw : forall t, QT t -> QT (rtw t).
Hypothesis Htr : forall t, QS t -> QS (rtr t).
Definition zkeep (x : zrsys TW TR) : Prop := QT (ws_target (h_s (hz_w (fst x)))) /\ QS (rs_target (h_s (hz_r (fst x)))).
Lemma h_keep {C E R S} sends opens epat chk rtag ask idn kind (act : S -> sact R S) sin (dE : E) (dR : R) (P : S -> Prop) y (o : hop C S) :
  (forall s e, P s -> P (sin s e)) -> (forall s r s', act s = AEmit r s' -> P s -> P s') -> (forall s s', act s = ATau s' -> P s -> P s') ->
  Forall no_poke (tasks [o]) -> P (h_s y) -> P (h_s (fst (h_step sends opens epat chk rtag ask idn kind act sin dE dR y o))).
Proof.
  intros H1 H2 H3 Ho HP.
  assert (K : forall y1 : hsys C E R S, forall g, h_s y1 = h_s y -> P (h_s (fst (hm_step sends opens epat chk rtag ask idn y1 g)))).
  { intros y1 g Eq. unfold hm_step. destruct (x_step _ _ _ _ _ _ _ _ _). cbn. now rewrite Eq. }
  destruct o as [o|i o]; [destruct o|destruct i]; cbn [h_step]; try (apply K; reflexivity); try exact HP.
  - destruct (e_wtask _); try exact HP. destruct (next_send _) as [e|]; [|exact HP]. destruct (cc_room _); [|exact HP]. apply K. destruct (kind e); reflexivity.
  - destruct (e_rtask _); try exact HP. destruct (cc_got (h_b y)); try exact HP. apply K. reflexivity.
  - destruct (act (h_s y)) as [k|r s|s|] eqn:Ea; [| | |exact HP].
    + destruct (cc_got (hfwd y k)); [exact HP|]. cbn. apply H1. destruct k; exact HP.
    + destruct (cc_room _); [|exact HP]. exact (H2 _ _ _ Ea HP).
    + exact (H3 _ _ Ea HP).
  - apply Forall_inv in Ho. destruct Ho.
Qed.
Lemma zpokew f s : ws_target (T := TW) (ws_poke f s) = f (ws_target s). Proof using. now destruct s. Qed.
Lemma zpoker f s : rs_target (T := TR) (rs_poke f s) = f (rs_target s). Proof using. now destruct s. Qed.
Lemma w_beats_t s (t : TW) : ws_target (w_beats s t) = t. Proof using. unfold w_beats. now destruct (_ <? _). Qed.
Lemma r_beats_t s (t : TR) : rs_target (r_beats s t) = t. Proof using. unfold r_beats. now destruct (_ <? _). Qed.
Lemma zkeep_step x o : Forall a_nopoke (zrtasks [o]) -> zkeep x -> zkeep (fst (zr_step c widn ridn tw tr w2r r2w rtw rtr dW dB dA dRd x o)).
Proof.
  destruct x as [z on]. intros Ho [H1 H2]. cbn [fst] in *. destruct o as [o|b]; cbn [zr_step].
  - cbn [zrtasks flat_map] in Ho. rewrite app_nil_r in Ho. destruct (on && z_slave o); [split; assumption|].
    destruct o as [o|o]; cbn [hax_step].
    + assert (K : QT (ws_target (h_s (fst (whsys_step c widn tw (m_lanes c) true dW dB (hz_w z) o))))).
      { apply (h_keep _ _ _ _ _ _ _ _ _ _ dW dB (fun s => QT (ws_target s))); auto.
        - intros s e Hs. destruct s as [t|a t|b t|t], e as [a'|w]; cbn in *; auto.
          + destruct (sl_start _ _); [now rewrite w_beats_t|exact Hs].
          + pose proof (sw_beat_keeps tw QT (m_lanes c) true a w t Hw Hs) as K. destruct (sw_beat tw (m_lanes c) true a w t) as [t' [b|e]]; [rewrite w_beats_t|]; exact K.
        - intros s r s' Es. destruct s; cbn in *; inversion Es; subst; auto.
        - intros s s' Es. destruct s; discriminate.
        - destruct o as [o|i o]; cbn in *; [|constructor]. apply Forall_inv in Ho. constructor; auto. }
      destruct (whsys_step _ _ _ _ _ _ _ _ _) as [w os]. split; cbn in *; [exact K|]. rewrite zpoker. now apply Hwr.
    + assert (K : QS (rs_target (h_s (fst (rhsys_step c ridn tr (m_lanes c) dA dRd (hz_r z) o))))).
      { apply (h_keep _ _ _ _ _ _ _ _ _ _ dA dRd (fun s => QS (rs_target s))); auto.
        - intros s e Hs. destruct s; cbn in *; auto. destruct (sl_start _ _); [now rewrite r_beats_t|exact Hs].
        - intros s r s' Es. destruct s; cbn in *; try (destruct (sr_beat _ _ _ _) as [[t' r'] b']); inversion Es; subst; auto. now rewrite r_beats_t.
        - intros s s' Es. destruct s as [t|a t|r b t|t]; cbn in *; try discriminate. intros Hs. pose proof (sr_beat_keeps tr QS (m_lanes c) a t Hr Hs) as K. destruct (sr_beat _ _ _ _) as [[t' r'] b']. inversion Es; subst; exact K.
        - destruct o as [o|i o]; cbn in *; [|constructor]. apply Forall_inv in Ho. constructor; auto. }
      destruct (rhsys_step _ _ _ _ _ _ _ _) as [r os]. split; cbn in *; [|exact K]. rewrite zpokew. now apply Hrw.
  - destruct (Bool.eqb b on); [split; assumption|]. unfold h_rst. destruct (x_step (w_sends c) _ _ _ _ _ _ _ _) as [mw ow]. destruct (x_step (r_sends c) _ _ _ _ _ _ _ _) as [mr or].
    cbn. split; cbn; destruct b; cbn; auto.
Qed.
Lemma zkeep_run h : forall x, Forall a_nopoke (zrtasks h) -> zkeep x -> zkeep (fst (zr_run c widn ridn tw tr w2r r2w rtw rtr dW dB dA dRd x h)).
Proof.
  induction h as [|o h IH]; intros x Ho H; [exact H|]. change (o :: h) with ([o] ++ h) in Ho. unfold zrtasks in Ho. rewrite flat_map_app in Ho. apply Forall_app in Ho. destruct Ho as [Ho1 Ho2].
  cbn [zr_run]. pose proof (zkeep_step x o Ho1 H) as H1. destruct (zr_step _ _ _ _ _ _ _ _ _ _ _ _ _ x o) as [x1 o1]. specialize (IH x1 Ho2 H1). destruct (zr_run _ _ _ _ _ _ _ _ _ _ _ _ _ x1 h). exact IH.
Qed.
End Axi.

(** RAM targets stay reachable memories *)
Lemma ram_write_reach size m a d : sm_reachable size m -> sm_reachable size (fst (ram_write m a d)).
Proof. intros H. apply (sm_setitem_reachable size m _ _ None d H). Qed.
Lemma vram_reach size L dW dB dA dR m0 h : sm_reachable size m0 -> Forall lx_nopoke (vrtasks h) -> sm_reachable size (vrw_target (fst (vrw_run L ram_write ram_read dW dB dA dR (vrw_init m0) h))).
Proof.
  intros Hm Hh. pose proof (vkeep_run L (log_write ram_write) (log_read ram_read) cp_w2r cp_r2w anew anew dW dB dA dR
    (fun t => sm_reachable size (fst t)) (fun t => sm_reachable size (fst t))) as K.
  apply K; auto.
  - intros [m l] a d H. pose proof (ram_write_reach size m a d H) as J. unfold log_write. cbn [fst] in *. destruct (ram_write m a d). exact J.
  - split; exact Hm.
Qed.
Lemma zram_reach size c widn ridn dW dB dA dR m0 h : sm_reachable size m0 -> Forall a_nopoke (zrtasks h) -> sm_reachable size (zrw_target (fst (zrw_run c widn ridn ram_write ram_read dW dB dA dR (zrw_init m0) h))).
Proof.
  intros Hm Hh. pose proof (zkeep_run c widn ridn (log_write ram_write) (log_read ram_read) cp_w2r cp_r2w anew anew dW dB dA dR
    (fun t => sm_reachable size (fst t)) (fun t => sm_reachable size (fst t))) as K.
  apply K; auto.
  - intros [m l] a d H. pose proof (ram_write_reach size m a d H) as J. unfold log_write. cbn [fst] in *. destruct (ram_write m a d). exact J.
  - split; exact Hm.
Qed.

