(** In the queue level AXI-Lite systems the slave does not answer more transfers than it was sent. *)
From Coq Require Import ZArith Lia List Bool.
From Coq Require Import ZifyBool ZifyNat.
From Verif Require Import Py M_axi M_axil M_liteeng S_liteeng P_liteeng M_axieng M_sys S_sys P_sys M_litesys S_litesys S_live M_axisys S_axisys M_literw S_literw P_literw T_liteeng M_stream M_cchan P_cchan M_clk S_clk
  P_clk P_clku P_clkrw P_clkurw M_rst S_rst P_rst.
Import ListNotations.
Open Scope Z_scope.

Section Half.
Context {C E R S : Type}.
Variable sends : C -> list E.
Variable need : C -> nat.
Variable kind : E -> bool.
Variable act : S -> sact R S.
Variable sin : S -> E -> S.
Variable ans : E -> bool.
Variable owes : S -> nat.
Hypothesis Hemit : forall s r s', act s = AEmit r s' -> (Datatypes.S (owes s') <= owes s)%nat.
Hypothesis Htau : forall s s', act s = ATau s' -> (owes s' <= owes s)%nat.
Hypothesis Hin : forall s e, (owes (sin s e) <= owes s + if ans e then 1 else 0)%nat.
Notation ystep := (u_step sends need kind act sin).
Definition na (l : list E) : nat := length (filter ans l).
Lemma na_app a b : na (a ++ b) = (na a + na b)%nat. Proof. unfold na. now rewrite filter_app, app_length. Qed.
Definition balance (y : usys C E R S) (l : list (gout C E R)) : Prop :=
  (length (received l) + length (chc (u_b y)) + owes (u_s y) + na (chc (u_a y)) + na (chc (u_w y)) <= na (sent l))%nat.
Definition follows (l : list (gout C E R)) : Prop := (length (received l) <= na (sent l))%nat.
Definition upk_ok (o : uop C S) : Prop := match o with UPoke f => forall s, (owes (f s) <= owes s)%nat | _ => True end.

Lemma na_fwd y k : (na (chc (u_a y)) + na (chc (u_w y)) = na (chc (ufwd y k)) + na (chc (ufwd (C := C) (R := R) (S := S) y (negb k))))%nat.
Proof. destruct k; cbn; lia. Qed.
Lemma balance_io y l m os : sent os = [] -> received os = [] -> balance y l -> balance (uset_m y m) (l ++ os).
Proof. intros E1 E2 H. unfold balance in *. rewrite sent_app, received_app, E1, E2, !app_nil_r. exact H. Qed.

Lemma balance_step y l o : upk_ok o -> balance y l -> let '(y', os) := ystep y o in
  balance y' (l ++ os) /\ (sent os = [] \/ received os = []) /\ Forall (fun x => x <> OReset) os.
Proof.
  intros Hp H.
  assert (Q : balance y (l ++ []) /\ (sent (@nil (gout C E R)) = [] \/ received (@nil (gout C E R)) = []) /\ Forall (fun x : gout C E R => x <> OReset) []) by (rewrite app_nil_r; auto).
  assert (QM : forall o, match o with GSend | GResp _ | GReset _ => False | _ => True end -> let '(y', os) := um_step sends need y o in
     balance y' (l ++ os) /\ (sent os = [] \/ received os = []) /\ Forall (fun x => x <> OReset) os).
  { intros g Hg. unfold um_step. destruct g; try tauto; cbn [eng_step].
    - split; [apply balance_io; auto|]. split; [auto|]. repeat constructor; discriminate.
    - split; [apply balance_io; auto|]. auto.
    - destruct (nth_error _ n); (split; [apply balance_io; auto|]; split; [auto|]; repeat constructor; discriminate).
    - destruct (g_wtask (u_m y)), (g_cur (u_m y)), (g_q (u_m y)); (split; [apply balance_io; auto|]; split; [auto|]; repeat constructor; discriminate).
    - destruct (g_rtask (u_m y)), (g_rcur (u_m y)), (g_rq (u_m y)); unfold eng_resp; try destruct (Nat.leb _ _); (split; [apply balance_io; auto|]; split; [auto|]; repeat constructor; discriminate). }
  destruct o as [c|c|n| | | | |k|k| | | |f]; cbn [u_step]; try (apply QM; exact I).
  - (* send *) unfold unext. destruct (g_wtask (u_m y)) eqn:Ew; [|exact Q]. destruct (g_cur (u_m y)) as [[c [|e r]]|] eqn:Ec; try exact Q.
    destruct (q_room _); [|exact Q]. unfold um_step.
    assert (Em : u_m (uset_fwd y (kind e) (ch_push (ufwd y (kind e)) e)) = u_m y) by (destruct (kind e); reflexivity). rewrite Em. cbn [eng_step]. rewrite Ew, Ec.
    split; [|split; [right; reflexivity|repeat constructor; discriminate]]. unfold balance in *. rewrite sent_app, received_app. cbn [sent received]. rewrite app_nil_r, na_app.
    rewrite (na_fwd y (kind e)) || pose proof (na_fwd y (kind e)) as F.
    destruct (kind e); cbn -[na chc] in *; rewrite chc_push, na_app; lia.
  - (* recv *) unfold uwaits. destruct (g_rtask (u_m y)) eqn:Er; [|exact Q]. destruct (g_rcur (u_m y)) as [[c got]|] eqn:Ec; [|exact Q].
    destruct (ch_snk (u_b y)) as [|r q] eqn:Es; [exact Q|]. unfold um_step. cbn [uset_b u_m eng_step]. rewrite Er, Ec.
    assert (K : chc (u_b y) = r :: chc (ch_pop (u_b y) q)) by (unfold chc; rewrite Es; reflexivity).
    assert (B : forall m os, sent os = [] -> received os = [r] -> balance (uset_m (uset_b y (ch_pop (u_b y) q)) m) (l ++ os)).
    { intros m os E1 E2. unfold balance in *. rewrite sent_app, received_app, E1, E2, app_nil_r, app_length. rewrite K in H. cbn -[na chc] in *. lia. }
    unfold eng_resp. destruct (Nat.leb _ _); (split; [apply B; reflexivity|]; split; [left; reflexivity|]; repeat constructor; discriminate).
  - split; [|auto]. rewrite app_nil_r. unfold balance in *. destruct k; cbn -[na chc] in *; rewrite chc_load; exact H.
  - split; [|auto]. rewrite app_nil_r. unfold balance in *. destruct k; cbn -[na chc] in *; rewrite chc_xfer; exact H.
  - split; [|auto]. rewrite app_nil_r. unfold balance in *. cbn -[na chc] in *. rewrite chc_load; exact H.
  - split; [|auto]. rewrite app_nil_r. unfold balance in *. cbn -[na chc] in *. rewrite chc_xfer; exact H.
  - (* slave *) destruct (act (u_s y)) as [k|r s|s|] eqn:Ea; [| | |exact Q].
    + destruct (ch_snk (ufwd y k)) as [|e q] eqn:Es; [exact Q|]. split; [|auto]. rewrite app_nil_r. unfold balance in *.
      assert (K : chc (ufwd y k) = e :: chc (ch_pop (ufwd y k) q)) by (unfold chc; rewrite Es; reflexivity).
      pose proof (Hin (u_s y) e) as J. assert (N : na (chc (ufwd y k)) = ((if ans e then 1 else 0) + na (chc (ch_pop (ufwd y k) q)))%nat).
      { rewrite K. unfold na. cbn. destruct (ans e); reflexivity. }
      destruct k; cbn -[na chc] in *; lia.
    + destruct (q_room _); [|exact Q]. split; [|auto]. rewrite app_nil_r. pose proof (Hemit _ _ _ Ea) as J. unfold balance in *. cbn -[na chc] in *. rewrite chc_push, app_length. cbn [length]. lia.
    + split; [|auto]. rewrite app_nil_r. pose proof (Htau _ _ Ea) as J. unfold balance in *. cbn -[na chc] in *. lia.
  - split; [|auto]. rewrite app_nil_r. specialize (Hp (u_s y)). unfold balance in *. cbn -[na chc] in *. lia.
Qed.
Lemma balance_poke y l s : (owes s <= owes (u_s y))%nat -> balance y l -> balance (uset_s y s) l.
Proof using. clear Hemit Htau Hin sin act kind need sends. unfold balance. cbn -[na chc]. lia. Qed.
Lemma balance_follows y l : balance y l -> follows l. Proof using. clear Hemit Htau Hin sin act kind need sends. unfold balance, follows. lia. Qed.
Lemma follows_pre l os p q : follows l -> follows (l ++ os) -> sent os = [] \/ received os = [] -> os = p ++ q -> follows (l ++ p).
Proof using.
  clear Hemit Htau Hin sin act kind need sends. unfold follows. rewrite !sent_app, !received_app, !app_length, !na_app. intros H1 H2 H3 ->. rewrite sent_app, received_app in *. rewrite app_length, na_app in *. 
  destruct H3 as [H3|H3]; apply app_eq_nil in H3; destruct H3 as [A B]; rewrite ?A, ?B in *; cbn in *; lia.
Qed.
End Half.

(** ** both halves *)
Definition w_owes {T} (s : lwslv T) : nat := match s with LWResp _ _ => 1 | _ => 0 end.
Definition r_owes {T} (s : lrslv T) : nat := match s with LRRead _ _ | LRResp _ _ => 1 | _ => 0 end.

Definition uw_pk {T} (o : uop (Z * lwcmd) (lwslv T)) : Prop := upk_ok w_owes o.
Definition ur_pk {T} (o : uop (Z * lrcmd) (lrslv T)) : Prop := upk_ok r_owes o.
Definition lx_pk {TW TR} (o : lxop TW TR) : Prop := match o with VW o => uw_pk o | VR o => ur_pk o end.
Lemma pk_internal {TW TR} (o : lxop TW TR) : lx_internal o -> lx_pk o.
Proof. destruct o as [o|o]; destruct o; cbn; auto; intros []. Qed.

Section Rw.
Context {TW TR : Type}.
Variable L : Z.
Variable tw : TW -> Z -> list Z -> TW * res unit.
Variable tr : TR -> Z -> Z -> TR * res (list Z).
Variable w2r : TW -> TR -> TR.
Variable r2w : TR -> TW -> TW.
Variables (rtw : TW -> TW) (rtr : TR -> TR).
Variables (dW : lev) (dB : resp_t) (dA : lax) (dRd : lrd).
Hypothesis W1 : forall a b r, w2r b (w2r a r) = w2r b r.
Hypothesis W2 : forall a r, r2w (w2r a r) a = a.
Hypothesis R1 : forall a b w, r2w b (r2w a w) = r2w b w.
Hypothesis R2 : forall a w, w2r (r2w a w) a = a.
Hypothesis RT : forall a b, w2r a b = b -> r2w b a = a -> w2r (rtw a) (rtr b) = rtr b /\ r2w (rtr b) (rtw a) = rtw a.
Notation lxrun := (lx_run L tw tr w2r r2w).
Notation vrstep := (vr_step L tw tr w2r r2w rtw rtr dW dB dA dRd).
Notation vrrun := (vr_run L tw tr w2r r2w rtw rtr dW dB dA dRd).

Definition wbal (z : lxs TW TR) l : Prop := balance w_answered w_owes (v_w z) l.
Definition rbal (z : lxs TW TR) l : Prop := balance r_answered r_owes (v_r z) l.
Definition wfol : list (gout (Z * lwcmd) lev resp_t) -> Prop := follows w_answered.
Definition rfol : list (gout (Z * lrcmd) lax lrd) -> Prop := follows r_answered.
Lemma no_reset_quiet {C E R} (os : list (gout C E R)) : Forall (fun x => x <> OReset) os -> quiet os.
Proof using. induction 1 as [|x os Hx Hos IH]; [reflexivity|]. unfold quiet. cbn. rewrite IH. destruct x; auto. congruence. Qed.
Lemma quiet_app {C E R} (a b : list (gout C E R)) : quiet (a ++ b) <-> quiet a /\ quiet b.
Proof using. unfold quiet. rewrite existsb_app. destruct (existsb is_reset a), (existsb is_reset b); cbn; intuition congruence. Qed.
Lemma wouts_app (a b : list lxout) : lw_outs (a ++ b) = lw_outs a ++ lw_outs b. Proof using. unfold lw_outs. apply flat_map_app. Qed.
Lemma routs_app (a b : list lxout) : lr_outs (a ++ b) = lr_outs a ++ lr_outs b. Proof using. unfold lr_outs. apply flat_map_app. Qed.
Lemma wouts_inl os : lw_outs (map inl os) = os /\ lr_outs (map inl os) = [].
Proof using. unfold lw_outs, lr_outs. rewrite !(flat_map_concat_map _ (map _ _)), !map_map, <- !flat_map_concat_map, fm_some, fm_none. auto. Qed.
Lemma wouts_inr os : lr_outs (map inr os) = os /\ lw_outs (map inr os) = [].
Proof using. unfold lw_outs, lr_outs. rewrite !(flat_map_concat_map _ (map _ _)), !map_map, <- !flat_map_concat_map, fm_some, fm_none. auto. Qed.

Definition pre_ok {X} (P : list X -> Prop) (l os : list X) : Prop := forall p q, os = p ++ q -> P (l ++ p).
Lemma pre_ok_app {X} (P : list X -> Prop) l a b : pre_ok P l a -> pre_ok P (l ++ a) b -> pre_ok P l (a ++ b).
Proof.
  intros H1 H2 p q E. destruct (app_eq_app _ _ _ _ E) as (r & [[E1 E2]|[E1 E2]]).
  - exact (H1 _ _ E1).
  - subst p. rewrite app_assoc. exact (H2 _ _ E2).
Qed.

Lemma lx_bal_step z lw lr o : lx_pk o -> wbal z lw -> rbal z lr -> let '(z', os) := lx_step L tw tr w2r r2w z o in
  wbal z' (lw ++ lw_outs os) /\ rbal z' (lr ++ lr_outs os) /\ pre_ok wfol lw (lw_outs os) /\ pre_ok rfol lr (lr_outs os) /\ quiet (lw_outs os) /\ quiet (lr_outs os).
Proof.
  intros Hp Hw Hr. destruct o as [o|o]; cbn [lx_step].
  - unfold lwsys_step. pose proof (balance_step (lite_w_sends L) (lite_w_need L) lw_kind lws_act (lws_in tw L true) w_answered w_owes) as B.
    specialize (B ltac:(intros s r s' E; destruct s; cbn in *; inversion E; cbn; lia)). specialize (B ltac:(intros s s' E; destruct s; discriminate)).
    specialize (B ltac:(intros s e; destruct s as [t|a t|b t|t], e as [a'|w]; cbn; try lia; destruct (lite_sw tw L true a w t) as [t' [b|e]]; cbn; lia)).
    specialize (B (v_w z) lw o Hp Hw). destruct (u_step _ _ _ _ _ (v_w z) o) as [w os]. destruct B as (B1 & B2 & B3).
    destruct (wouts_inl os) as [-> ->]. rewrite app_nil_r. split; [exact B1|]. split.
    { apply balance_poke; [destruct (u_s (v_r z)); cbn; lia|exact Hr]. }
    split; [|split; [|split; [now apply no_reset_quiet|reflexivity]]].
    + intros p q E. eapply follows_pre; [exact (balance_follows _ _ _ _ Hw)|exact (balance_follows _ _ _ _ B1)|exact B2|exact E].
    + intros p q E. symmetry in E. apply app_eq_nil in E. destruct E as [-> _]. rewrite app_nil_r. exact (balance_follows _ _ _ _ Hr).
  - unfold lrsys_step. pose proof (balance_step (lite_r_sends L) (lite_r_need L) lr_kind (lrs_act tr L) lrs_in r_answered r_owes) as B.
    specialize (B ltac:(intros s r s' E; destruct s; cbn in *; try destruct (lite_sr _ _ _ _); inversion E; cbn; lia)).
    specialize (B ltac:(intros s s' E; destruct s; cbn in *; try destruct (lite_sr _ _ _ _); inversion E; cbn; lia)).
    specialize (B ltac:(intros s e; destruct s; cbn; lia)).
    specialize (B (v_r z) lr o Hp Hr). destruct (u_step _ _ _ _ _ (v_r z) o) as [r os]. destruct B as (B1 & B2 & B3).
    destruct (wouts_inr os) as [-> ->]. rewrite app_nil_r. split. { apply balance_poke; [destruct (u_s (v_w z)); cbn; lia|exact Hw]. }
    split; [exact B1|]. split; [|split; [|split; [reflexivity|now apply no_reset_quiet]]].
    + intros p q E. symmetry in E. apply app_eq_nil in E. destruct E as [-> _]. rewrite app_nil_r. exact (balance_follows _ _ _ _ Hw).
    + intros p q E. eapply follows_pre; [exact (balance_follows _ _ _ _ Hr)|exact (balance_follows _ _ _ _ B1)|exact B2|exact E].
Qed.
Lemma lx_bal h : forall z lw lr, Forall lx_pk h -> wbal z lw -> rbal z lr -> let '(z', os) := lxrun z h in
  wbal z' (lw ++ lw_outs os) /\ rbal z' (lr ++ lr_outs os) /\ pre_ok wfol lw (lw_outs os) /\ pre_ok rfol lr (lr_outs os) /\ quiet (lw_outs os) /\ quiet (lr_outs os).
Proof.
  induction h as [|o h IH]; intros z lw lr Hp Hw Hr; cbn [lx_run].
  - cbn. rewrite !app_nil_r. split; [exact Hw|]. split; [exact Hr|].
    split; [|split; [|split; reflexivity]]; intros p q E; symmetry in E; apply app_eq_nil in E; destruct E as [-> _]; rewrite app_nil_r; [exact (balance_follows _ _ _ _ Hw)|exact (balance_follows _ _ _ _ Hr)].
  - inversion Hp as [|? ? Hp1 Hp2]; subst. pose proof (lx_bal_step z lw lr o Hp1 Hw Hr) as H1. destruct (lx_step _ _ _ _ _ z o) as [z1 o1]. destruct H1 as (A1 & A2 & A3 & A4 & A5 & A6).
    specialize (IH z1 _ _ Hp2 A1 A2). destruct (lxrun z1 h) as [z2 o2]. destruct IH as (B1 & B2 & B3 & B4 & B5 & B6).
    rewrite wouts_app, routs_app, !app_assoc. split; [exact B1|]. split; [exact B2|]. split; [now apply pre_ok_app|]. split; [now apply pre_ok_app|]. split; apply quiet_app; auto.
Qed.

(** with resets: the answers since the last reset *)
Definition winv (x : vrsys TW TR) (l : list lxout) : Prop :=
  vri w2r r2w x /\ wbal (vrabs x) (epoch (lw_outs l)) /\ rbal (vrabs x) (epoch (lr_outs l)) /\ answers_follow w_answered (lw_outs l) /\ answers_follow r_answered (lr_outs l).
Lemma follow_more {C E R} (ans : E -> bool) (A B : list (gout C E R)) : answers_follow ans A -> pre_ok (follows ans) (epoch A) B -> quiet B -> answers_follow ans (A ++ B).
Proof.
  intros H1 H2 H3 p q Eq. destruct (app_eq_app _ _ _ _ Eq) as (r & [[E1 E2]|[E1 E2]]).
  - exact (H1 _ _ E1).
  - subst p. rewrite E2 in H3. apply quiet_app in H3. rewrite epoch_app_quiet by apply H3. exact (H2 _ _ E2).
Qed.
Lemma follow_reset {C E R} (ans : E -> bool) (A : list (gout C E R)) cs : answers_follow ans A -> answers_follow ans (A ++ map (fun c => ODone c None) cs ++ [OReset]).
Proof.
  intros H1. rewrite app_assoc.
  assert (Q : forall cs', quiet (map (fun c => ODone c None) cs' : list (gout C E R))) by (intro cs0; unfold quiet; induction cs0; cbn; auto).
  assert (H2 : answers_follow ans (A ++ map (fun c => ODone c None) cs)).
  { apply follow_more; auto. intros p q Eq. pose proof (H1 A [] ltac:(now rewrite app_nil_r)) as K.
    assert (E1 : sent p = [] /\ received p = []).
    { revert p q Eq. clear. induction cs as [|c cs IH]; intros p q Eq; cbn in Eq; [symmetry in Eq; apply app_eq_nil in Eq; now destruct Eq as [-> _]|].
      destruct p as [|x p]; [auto|]. injection Eq as <- Eq. apply (IH _ _ Eq). }
    destruct E1 as [E1 E2]. unfold follows, na. rewrite sent_app, received_app, E1, E2, !app_nil_r. exact K. }
  intros p q Eq. destruct (app_eq_app _ _ _ _ Eq) as (r & [[E1 E2]|[E1 E2]]).
  - exact (H2 _ _ E1).
  - destruct r as [|x r].
    + rewrite app_nil_r in E1. subst p. apply (H2 _ []). now rewrite app_nil_r.
    + injection E2 as <- E2. symmetry in E2. apply app_eq_nil in E2. destruct E2 as [-> _]. subst p. rewrite epoch_reset. cbn. lia.
Qed.
Lemma winv_step x l o : Forall lx_pk (vrtasks [o]) -> winv x l -> let '(x', os) := vrstep x o in winv x' (l ++ os).
Proof.
  intros Hp (I1 & I2 & I3 & I4 & I5).
  assert (K : v_calm o -> let '(x', os) := vrstep x o in winv x' (l ++ os)).
  { intros Hc. pose proof (vr_sim L tw tr w2r r2w rtw rtr dW dB dA dRd W1 W2 R1 R2 x o I1 Hc) as H. destruct (vrstep x o) as [x' os]. destruct H as [H1 H2].
    pose proof (lx_bal (vrsim L tr x o) (vrabs x) _ _ (vrsim_all L tr lx_pk x o pk_internal Hp) I2 I3) as B. rewrite H2 in B. destruct B as (B1 & B2 & B3 & B4 & B5 & B6).
    split; [exact H1|]. rewrite wouts_app, routs_app. rewrite !epoch_app_quiet by assumption. split; [exact B1|]. split; [exact B2|]. split; now apply follow_more. }
  destruct o as [o|[]]; try (apply K; exact I). destruct x as [z []].
  { cbn. rewrite app_nil_r. split; auto. }
  pose proof (vr_rst L tw tr w2r r2w rtw rtr dW dB dA dRd W1 W2 R1 R2 RT z I1) as H. cbn [vr_step Bool.eqb] in *. unfold hu_rst in *. cbn [eng_step eng_reset] in *.
  destruct H as (H1 & _). split; [exact H1|]. rewrite wouts_app, routs_app. rewrite (wouts_app (map inl _)), (routs_app (map inl _)).
  match goal with |- context [map (@inl (gout (Z * lwcmd) lev resp_t) (gout (Z * lrcmd) lax lrd)) ?a] => destruct (wouts_inl a) as [-> ->] end.
  match goal with |- context [map (@inr (gout (Z * lwcmd) lev resp_t) (gout (Z * lrcmd) lax lrd)) ?a] => destruct (wouts_inr a) as [-> ->] end.
  rewrite app_nil_r. cbn [app]. split; [rewrite app_assoc, epoch_reset; unfold wbal, balance; cbn; lia|]. split; [rewrite app_assoc, epoch_reset; unfold rbal, balance; cbn; lia|].
  split; now apply follow_reset.
Qed.
Lemma winv_run h : forall x l, Forall lx_pk (vrtasks h) -> winv x l -> let '(x', os) := vrrun x h in winv x' (l ++ os).
Proof.
  induction h as [|o h IH]; intros x l Hp H; cbn [vr_run]; [now rewrite app_nil_r|].
  change (o :: h) with ([o] ++ h) in Hp. unfold vrtasks in Hp. rewrite flat_map_app in Hp. apply Forall_app in Hp. destruct Hp as [Hp1 Hp2].
  pose proof (winv_step x l o Hp1 H) as H1. destruct (vrstep x o) as [x1 o1]. specialize (IH x1 _ Hp2 H1). destruct (vrrun x1 h) as [x2 o2]. now rewrite app_assoc.
Qed.
Lemma winv_init t t' : w2r t t' = t' -> r2w t' t = t -> winv (hlx_init t t', false) [].
Proof.
  intros H1 H2. clear W1 W2 R1 R2 RT rtw rtr dW dB dA dRd L tw tr. split; [now apply vri_init|]. split; [unfold wbal, balance; cbn; lia|]. split; [unfold rbal, balance; cbn; lia|].
  split; intros p q E; symmetry in E; apply app_eq_nil in E; destruct E as [-> _]; cbn; lia.
Qed.

(** the masters are the engines *)
Lemma hu_step_m {C E R S} sends need kind (act : S -> sact R S) sin (dE : E) (dR : R) y (o : huop C S) : let '(y', os) := hu_step sends need kind act sin dE dR y o in
  exists g, eng_run sends need (hu_m y) g = (hu_m y', os).
Proof.
  assert (K0 : forall y' : husys C E R S, hu_m y' = hu_m y -> exists g, eng_run sends need (hu_m y) g = (hu_m y', [])).
  { intros y' H. exists []. cbn. now rewrite H. }
  assert (K1 : forall (y1 : husys C E R S) xo, hu_m y1 = hu_m y -> let '(y', os) := hum_step sends need y1 xo in exists g, eng_run sends need (hu_m y) g = (hu_m y', os)).
  { intros y1 xo H. unfold hum_step. rewrite H. destruct (eng_step _ _ (hu_m y) xo) as [m os] eqn:Es. exists [xo]. cbn [eng_run]. rewrite Es, app_nil_r. reflexivity. }
  destruct o as [o|i o]; [destruct o|destruct i]; cbn [hu_step]; try (apply K1; reflexivity); try (apply K0; reflexivity).
  - destruct (unext (hu_m y)) as [e|]; [|apply K0; reflexivity]. destruct (cc_room _); [|apply K0; reflexivity]. apply K1. now destruct (kind e).
  - destruct (uwaits (hu_m y)), (cc_got (hu_b y)); try (apply K0; reflexivity). apply K1. reflexivity.
  - destruct (act (hu_s y)) as [k|r s|s|]; try (apply K0; reflexivity).
    + destruct (cc_got (hufwd y k)); apply K0; auto. now destruct k.
    + destruct (cc_room _); apply K0; reflexivity.
Qed.
Lemma vr_step_m x o : let '(x', os) := vrstep x o in
  (exists g, eng_run (lite_w_sends L) (lite_w_need L) (hu_m (hv_w (fst x))) g = (hu_m (hv_w (fst x')), lw_outs os)) /\
  (exists g, eng_run (lite_r_sends L) (lite_r_need L) (hu_m (hv_r (fst x))) g = (hu_m (hv_r (fst x')), lr_outs os)).
Proof.
  assert (N : forall C E R sends need (m : eng C E R), exists g, eng_run sends need m g = (m, [])) by (intros; exists []; reflexivity).
  destruct x as [z on]. destruct o as [o|b]; cbn [vr_step].
  - destruct (on && v_slave o); [cbn; auto|]. destruct o as [o|o]; cbn [hlx_step].
    + unfold lwhsys_step. pose proof (hu_step_m (lite_w_sends L) (lite_w_need L) lw_kind lws_act (lws_in tw L true) dW dB (hv_w z) o) as H.
      destruct (hu_step _ _ _ _ _ _ _ _ _) as [w os]. destruct (wouts_inl os) as [-> ->]. cbn. auto.
    + unfold lrhsys_step. pose proof (hu_step_m (lite_r_sends L) (lite_r_need L) lr_kind (lrs_act tr L) lrs_in dA dRd (hv_r z) o) as H.
      destruct (hu_step _ _ _ _ _ _ _ _ _) as [w os]. destruct (wouts_inr os) as [-> ->]. cbn. auto.
  - destruct (Bool.eqb b on); [cbn; auto|]. unfold hu_rst. destruct (eng_step (lite_w_sends L) _ _ _) as [mw ow] eqn:Ew. destruct (eng_step (lite_r_sends L) _ _ _) as [mr or] eqn:Er.
    rewrite wouts_app, routs_app. destruct (wouts_inl ow) as [-> ->], (wouts_inr or) as [-> ->]. rewrite app_nil_r. cbn.
    split; exists [GReset b]; cbn [eng_run]; rewrite ?Ew, ?Er, app_nil_r; reflexivity.
Qed.
Lemma vr_run_m h : forall x, let '(x', os) := vrrun x h in
  (exists g, eng_run (lite_w_sends L) (lite_w_need L) (hu_m (hv_w (fst x))) g = (hu_m (hv_w (fst x')), lw_outs os)) /\
  (exists g, eng_run (lite_r_sends L) (lite_r_need L) (hu_m (hv_r (fst x))) g = (hu_m (hv_r (fst x')), lr_outs os)).
Proof.
  induction h as [|o h IH]; intros x; cbn [vr_run]; [split; exists []; reflexivity|].
  pose proof (vr_step_m x o) as H. destruct (vrstep x o) as [x1 o1]. destruct H as [(g1 & H1) (g2 & H2)]. specialize (IH x1).
  destruct (vrrun x1 h) as [x2 o2]. destruct IH as [(g3 & H3) (g4 & H4)]. rewrite wouts_app, routs_app.
  split; [exists (g1 ++ g3); rewrite run_app, H1, H3; reflexivity|exists (g2 ++ g4); rewrite run_app, H2, H4; reflexivity].
Qed.
End Rw.
