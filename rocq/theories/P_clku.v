(** The clocked AXI-Lite systems (M_clk.v) are instances of the systems of M_litesys.v, as P_clk.v for AXI. *)
From Coq Require Import ZArith Lia List Bool.
From Coq Require Import ZifyBool ZifyNat.
From Verif Require Import Py M_axi M_axil M_liteeng M_axieng M_cchan P_cchan M_sys S_sys M_litesys S_litesys S_live M_axisys S_axisys M_literw S_literw M_clk S_clk P_clk.
Import ListNotations.
Open Scope Z_scope.

Section Ax.
Context {C E R S : Type}.
Variable sends : C -> list E.
Variable need : C -> nat.
Variable kind : E -> bool.
Variable act : S -> sact R S.
Variable sin : S -> E -> S.
Variable dE : E.
Variable dR : R.
Notation hstep := (hu_step sends need kind act sin dE dR).
Notation hrun := (hu_run sends need kind act sin dE dR).
Notation ystep := (u_step sends need kind act sin).
Notation yrun := (u_run sends need kind act sin).

Definition huabs (y : husys C E R S) : usys C E R S :=
  {| u_m := hu_m y; u_a := cabs (hu_a y); u_w := cabs (hu_w y); u_b := cabs (hu_b y); u_s := hu_s y |}.
Definition hui (y : husys C E R S) : Prop := ci (hu_a y) /\ ci (hu_w y) /\ ci (hu_b y).

Definition ucev_a (k : bool) (e : cev) : uop C S := match e with Ld => ULoad k | Xf => UXfer k end.
Definition ucev_b (e : cev) : uop C S := match e with Ld => ULoadB | Xf => UXferB end.
Definition husim (y : husys C E R S) (o : huop C S) : list (uop C S) :=
  match o with
  | HUT (ULoad _) | HUT (UXfer _) | HUT ULoadB | HUT UXferB => []
  | HUT URecv => if late (hu_b y) then [] else [URecv]
  | HUT USlave => match act (hu_s y) with AWait k => if late (hufwd y k) then [] else [USlave] | _ => [USlave] end
  | HUT o => [o]
  | HUC ChA o => map (ucev_a true) (cevs (hu_a y) o)
  | HUC ChW o => map (ucev_a false) (cevs (hu_w y) o)
  | HUC ChB o => map ucev_b (cevs (hu_b y) o)
  end.

Lemma urun_app h1 : forall h2 y, yrun y (h1 ++ h2) = let '(y1, o1) := yrun y h1 in let '(y2, o2) := yrun y1 h2 in (y2, o1 ++ o2).
Proof.
  induction h1 as [|o h1 IH]; intros h2 y; cbn [app u_run].
  - destruct (yrun y h2). reflexivity.
  - destruct (ystep y o) as [y1 o1]. rewrite IH. destruct (yrun y1 h1) as [y2 o2]. destruct (yrun y2 h2) as [y3 o3]. now rewrite app_assoc.
Qed.
Lemma urun_one y o : yrun y [o] = ystep y o.
Proof. cbn [u_run]. destruct (ystep y o) as [y1 o1]. now rewrite app_nil_r. Qed.

Lemma hufwd_abs y k : ufwd (huabs y) k = cabs (hufwd y k). Proof. destruct k; reflexivity. Qed.
Lemma hui_fwd y k : hui y -> ci (hufwd y k). Proof. intros (H1 & H2 & H3). destruct k; auto. Qed.
Lemma huset_fwd_abs y k c : huabs (huset_fwd y k c) = uset_fwd (huabs y) k (cabs c). Proof. destruct k; reflexivity. Qed.
Lemma hui_set_fwd y k c : hui y -> ci c -> hui (huset_fwd y k c). Proof. intros (H1 & H2 & H3) Hc. destruct k; hsp. Qed.
Lemma hum_abs y o : hui y -> let '(y', os) := hum_step sends need y o in
  hui y' /\ um_step sends need (huabs y) o = (huabs y', os).
Proof. intros H. unfold hum_step, um_step. cbn [huabs u_m]. destruct (eng_step _ _ (hu_m y) o) as [m os]. split; [exact H|reflexivity]. Qed.

Lemma urun_fwd k l : forall y, yrun y (map (ucev_a k) l) = (uset_fwd y k (fold_left cev_do l (ufwd y k)), []).
Proof.
  induction l as [|e l IH]; intros y; cbn [map u_run fold_left].
  - destruct y, k; reflexivity.
  - destruct e; cbn [ucev_a u_step]; rewrite IH; f_equal; destruct y, k; reflexivity.
Qed.
Lemma urun_b l : forall y, yrun y (map ucev_b l) = (uset_b y (fold_left cev_do l (u_b y)), []).
Proof.
  induction l as [|e l IH]; intros y; cbn [map u_run fold_left].
  - destruct y; reflexivity.
  - destruct e; cbn [ucev_b u_step]; rewrite IH; f_equal; destruct y; reflexivity.
Qed.

Lemma hu_sim y o : hui y -> let '(y', os) := hstep y o in hui y' /\ yrun (huabs y) (husim y o) = (huabs y', os).
Proof.
  intros H. destruct o as [o|i o].
  - destruct o as [c|c|n| | | | |k|k| | | |f]; cbn [hu_step husim];
      try (split; [exact H|reflexivity]);
      try (match goal with |- context [hum_step _ _ y ?p] => pose proof (hum_abs y p H) as Hm;
             destruct (hum_step sends need y p) as [y' os]; destruct Hm as [H1 H2]; split; [exact H1|]; rewrite urun_one; exact H2 end).
    + (* send *)
      rewrite urun_one. cbn [u_step]. change (u_m (huabs y)) with (hu_m y). destruct (unext (hu_m y)) as [e|]; [|split; [exact H|reflexivity]].
      rewrite hufwd_abs, <- (cc_room_abs _ (hui_fwd y (kind e) H)).
      destruct (cc_room (hufwd y (kind e))) eqn:Er; [|split; [exact H|reflexivity]].
      destruct (cc_send_abs (hufwd y (kind e)) e (hui_fwd y (kind e) H) Er) as [S1 S2].
      pose proof (hum_abs _ (@GSend C R) (hui_set_fwd y (kind e) _ H S1)) as Hm.
      rewrite huset_fwd_abs, S2 in Hm. destruct (hum_step _ _ _ _) as [y' os]. exact Hm.
    + (* recv *)
      change (uwaits (hu_m y)) with (uwaits (u_m (huabs y))). destruct (cc_got (hu_b y)) as [|r q] eqn:Eg.
      * replace (match uwaits (u_m (huabs y)) with true => (y, []) | false => (y, []) end) with (y, @nil (gout C E R)) by (destruct (uwaits (u_m (huabs y))); reflexivity).
        split; [exact H|]. pose proof (got_abs _ Eg) as Ha. destruct (late (hu_b y)); [reflexivity|]. rewrite urun_one. cbn [u_step].
        change (u_b (huabs y)) with (cabs (hu_b y)). rewrite Ha. destruct (uwaits (u_m (huabs y))); reflexivity.
      * assert (El : late (hu_b y) = false) by (unfold late; rewrite Eg; reflexivity). rewrite El, urun_one. cbn [u_step].
        destruct H as (H1 & H2 & H3). destruct (cc_recv_abs (hu_b y) r q H3 Eg) as (S1 & S2 & S3).
        change (u_b (huabs y)) with (cabs (hu_b y)). rewrite S2, <- S3.
        destruct (uwaits (u_m (huabs y))); try (split; [hsp|reflexivity]).
        exact (hum_abs (huset_b y (cc_recv (hu_b y))) (GResp r) (conj H1 (conj H2 S1))).
    + (* slave *)
      destruct (act (hu_s y)) as [k|r s|s|] eqn:Ea.
      * destruct (cc_got (hufwd y k)) as [|e q] eqn:Eg.
        -- split; [exact H|]. pose proof (got_abs _ Eg) as Ha. destruct (late (hufwd y k)); [reflexivity|]. rewrite urun_one. cbn [u_step].
           change (u_s (huabs y)) with (hu_s y). rewrite Ea, hufwd_abs, Ha. reflexivity.
        -- assert (El : late (hufwd y k) = false) by (unfold late; rewrite Eg; reflexivity). rewrite El, urun_one. cbn [u_step].
           destruct (cc_recv_abs (hufwd y k) e q (hui_fwd y k H) Eg) as (S1 & S2 & S3).
           change (u_s (huabs y)) with (hu_s y). rewrite Ea, hufwd_abs, S2, <- S3. split; [|destruct k; reflexivity].
           pose proof (hui_set_fwd y k _ H S1) as H'. destruct k; exact H'.
      * rewrite urun_one. cbn [u_step]. change (u_s (huabs y)) with (hu_s y). rewrite Ea. change (u_b (huabs y)) with (cabs (hu_b y)).
        destruct H as (H1 & H2 & H3). rewrite <- (cc_room_abs _ H3). destruct (cc_room (hu_b y)) eqn:Er; [|split; [hsp|reflexivity]].
        destruct (cc_send_abs (hu_b y) r H3 Er) as [S1 S2]. rewrite <- S2. split; [hsp|reflexivity].
      * rewrite urun_one. cbn [u_step]. change (u_s (huabs y)) with (hu_s y). rewrite Ea. split; [exact H|reflexivity].
      * rewrite urun_one. cbn [u_step]. change (u_s (huabs y)) with (hu_s y). rewrite Ea. split; [exact H|reflexivity].
  - destruct H as (H1 & H2 & H3). destruct i; cbn [hu_step husim].
    + destruct (cc_step_abs dE (hu_a y) o H1) as [S1 S2]. split; [hsp|]. rewrite urun_fwd. change (ufwd (huabs y) true) with (cabs (hu_a y)). rewrite <- S2. reflexivity.
    + destruct (cc_step_abs dE (hu_w y) o H2) as [S1 S2]. split; [hsp|]. rewrite urun_fwd. change (ufwd (huabs y) false) with (cabs (hu_w y)). rewrite <- S2. reflexivity.
    + destruct (cc_step_abs dR (hu_b y) o H3) as [S1 S2]. split; [hsp|]. rewrite urun_b. change (u_b (huabs y)) with (cabs (hu_b y)). rewrite <- S2. reflexivity.
Qed.

Fixpoint husims (y : husys C E R S) (h : list (huop C S)) : list (uop C S) :=
  match h with [] => [] | o :: h' => husim y o ++ husims (fst (hstep y o)) h' end.
Lemma hu_sims h : forall y, hui y -> let '(y', os) := hrun y h in hui y' /\ yrun (huabs y) (husims y h) = (huabs y', os).
Proof.
  induction h as [|o h IH]; intros y H; cbn [hu_run husims u_run]; [auto|].
  pose proof (hu_sim y o H) as H1. destruct (hstep y o) as [y1 o1]. destruct H1 as [H1 E1]. specialize (IH y1 H1).
  destruct (hrun y1 h) as [y2 o2]. destruct IH as [H2 E2]. split; [exact H2|]. cbn [fst]. rewrite urun_app, E1, E2. reflexivity.
Qed.
Lemma hui_init s0 : hui (husys_init s0). Proof. split; [|split]; apply ci_init. Qed.

(** the steps of user and utasks *)
Lemma ucev_a_int k l : Forall uinternal (map (ucev_a k) l).
Proof. induction l as [|[|] l IH]; constructor; auto; exact I. Qed.
Lemma ucev_b_int l : Forall uinternal (map ucev_b l).
Proof. induction l as [|[|] l IH]; constructor; auto; exact I. Qed.
Lemma husim_all (P : uop C S -> Prop) y o : (forall o, uinternal o -> P o) -> Forall P (utasks [o]) -> Forall P (husim y o).
Proof.
  intros HP H. destruct o as [o|i o].
  - cbn in H. apply Forall_inv in H. destruct o; cbn [husim]; try (constructor; auto; fail).
    + destruct (late (hu_b y)); constructor; auto.
    + destruct (act (hu_s y)); [destruct (late (hufwd y k))|..]; constructor; auto.
  - destruct i; cbn [husim]; (eapply Forall_impl; [exact HP|]); [apply ucev_a_int|apply ucev_a_int|apply ucev_b_int].
Qed.
Lemma husims_all (P : uop C S -> Prop) h : forall y, (forall o, uinternal o -> P o) -> Forall P (utasks h) -> Forall P (husims y h).
Proof.
  induction h as [|o h IH]; intros y HP H; cbn [husims]; [constructor|]. change (o :: h) with ([o] ++ h) in H. unfold utasks in H. rewrite flat_map_app in H.
  apply Forall_app in H. destruct H as [H1 H2]. apply Forall_app. split; [now apply husim_all|now apply IH].
Qed.
Lemma uinternal_none (o : uop C S) : uinternal o -> usubmitted [o] = []. Proof. destruct o; intros []; reflexivity. Qed.
Lemma husim_submitted y o : usubmitted (husim y o) = usubmitted (utasks [o]).
Proof.
  assert (Hi : forall l : list (uop C S), Forall uinternal l -> usubmitted l = []).
  { induction 1 as [|o' l Ho Hl IH]; [reflexivity|]. change (o' :: l) with ([o'] ++ l). unfold usubmitted in *. rewrite flat_map_app.
    rewrite IH. fold (usubmitted [o']). rewrite (uinternal_none o' Ho). reflexivity. }
  destruct o as [o|i o].
  - destruct o; try reflexivity; cbn [husim].
    + destruct (late (hu_b y)); reflexivity.
    + destruct (act (hu_s y)); [destruct (late (hufwd y k))|..]; reflexivity.
  - destruct i; cbn [husim]; (rewrite Hi; [reflexivity|]); [apply ucev_a_int|apply ucev_a_int|apply ucev_b_int].
Qed.
Lemma husims_submitted h : forall y, usubmitted (husims y h) = usubmitted (utasks h).
Proof.
  induction h as [|o h IH]; intros y; cbn [husims]; [reflexivity|]. change (o :: h) with ([o] ++ h). unfold utasks, usubmitted in *. rewrite !flat_map_app.
  f_equal; [apply (husim_submitted y o)|apply IH].
Qed.
End Ax.
