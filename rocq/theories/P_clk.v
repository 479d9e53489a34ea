(** The clocked systems (M_clk.v) are instances of the systems of M_sys.v and M_litesys.v: every step of a clocked system is a sequence of steps
    of the other one. *)
From Coq Require Import ZArith Lia List Bool.
From Coq Require Import ZifyBool ZifyNat.
From Verif Require Import Py M_axi M_axil M_liteeng M_axieng M_cchan P_cchan M_sys S_sys M_litesys S_litesys S_live M_axisys S_axisys M_literw S_literw M_clk S_clk.
Import ListNotations.
Open Scope Z_scope.

Ltac hsp := cbn; (split; [assumption|split; assumption]).

Section Ax.
Context {C E R S : Type}.
Variable sends : C -> Z -> list E.
Variable opens : E -> bool.
Variable epat : E -> list bool.
Variable chk : bool -> R -> bool.
Variable rtag : R -> Z.
Variable ask : C -> option Z.
Variable idn : Z.
Variable kind : E -> bool.
Variable act : S -> sact R S.
Variable sin : S -> E -> S.
Variable dE : E.
Variable dR : R.
Notation hstep := (h_step sends opens epat chk rtag ask idn kind act sin dE dR).
Notation hrun := (h_run sends opens epat chk rtag ask idn kind act sin dE dR).
Notation ystep := (y_step sends opens epat chk rtag ask idn kind act sin).
Notation yrun := (y_run sends opens epat chk rtag ask idn kind act sin).

Definition habs (y : hsys C E R S) : sys C E R S :=
  {| y_m := h_m y; y_a := cabs (h_a y); y_w := cabs (h_w y); y_b := cabs (h_b y); y_s := h_s y |}.
Definition hi (y : hsys C E R S) : Prop := ci (h_a y) /\ ci (h_w y) /\ ci (h_b y).

(** recv waits although a transfer is under way to the queue *)
Definition late {A} (c : cchan A) : bool := match cc_got c, coming c with [], _ :: _ => true | _, _ => false end.
Definition cev_a (k : bool) (e : cev) : yop C S := match e with Ld => YLoad k | Xf => YXfer k end.
Definition cev_b (e : cev) : yop C S := match e with Ld => YLoadB | Xf => YXferB end.
Definition hsim (y : hsys C E R S) (o : hop C S) : list (yop C S) :=
  match o with
  | HT (YLoad _) | HT (YXfer _) | HT YLoadB | HT YXferB => []
  | HT YRecv => if late (h_b y) then [] else [YRecv]
  | HT YSlave => match act (h_s y) with AWait k => if late (hfwd y k) then [] else [YSlave] | _ => [YSlave] end
  | HT o => [o]
  | HC ChA o => map (cev_a true) (cevs (h_a y) o)
  | HC ChW o => map (cev_a false) (cevs (h_w y) o)
  | HC ChB o => map cev_b (cevs (h_b y) o)
  end.

Lemma yrun_app h1 : forall h2 y, yrun y (h1 ++ h2) = let '(y1, o1) := yrun y h1 in let '(y2, o2) := yrun y1 h2 in (y2, o1 ++ o2).
Proof.
  induction h1 as [|o h1 IH]; intros h2 y; cbn [app y_run].
  - destruct (yrun y h2). reflexivity.
  - destruct (ystep y o) as [y1 o1]. rewrite IH. destruct (yrun y1 h1) as [y2 o2]. destruct (yrun y2 h2) as [y3 o3]. now rewrite app_assoc.
Qed.
Lemma yrun_one y o : yrun y [o] = ystep y o.
Proof. cbn [y_run]. destruct (ystep y o) as [y1 o1]. now rewrite app_nil_r. Qed.

Lemma hfwd_abs y k : fwd (habs y) k = cabs (hfwd y k). Proof. destruct k; reflexivity. Qed.
Lemma hi_fwd y k : hi y -> ci (hfwd y k). Proof. intros (H1 & H2 & H3). destruct k; auto. Qed.
Lemma hset_fwd_abs y k c : habs (hset_fwd y k c) = set_fwd (habs y) k (cabs c). Proof. destruct k; reflexivity. Qed.
Lemma hi_set_fwd y k c : hi y -> ci c -> hi (hset_fwd y k c). Proof. intros (H1 & H2 & H3) Hc. destruct k; hsp. Qed.
Lemma hm_abs y o : hi y -> let '(y', os) := hm_step sends opens epat chk rtag ask idn y o in
  hi y' /\ m_step sends opens epat chk rtag ask idn (habs y) o = (habs y', os).
Proof. intros H. unfold hm_step, m_step. cbn [habs y_m]. destruct (x_step _ _ _ _ _ _ _ (h_m y) o) as [m os]. split; [exact H|reflexivity]. Qed.

Lemma yrun_fwd k l : forall y, yrun y (map (cev_a k) l) = (set_fwd y k (fold_left cev_do l (fwd y k)), []).
Proof.
  induction l as [|e l IH]; intros y; cbn [map y_run fold_left].
  - destruct y, k; reflexivity.
  - destruct e; cbn [cev_a y_step]; rewrite IH; f_equal; destruct y, k; reflexivity.
Qed.
Lemma yrun_b l : forall y, yrun y (map cev_b l) = (set_b y (fold_left cev_do l (y_b y)), []).
Proof.
  induction l as [|e l IH]; intros y; cbn [map y_run fold_left].
  - destruct y; reflexivity.
  - destruct e; cbn [cev_b y_step]; rewrite IH; f_equal; destruct y; reflexivity.
Qed.

Lemma got_abs {A} (c : cchan A) : cc_got c = [] -> ch_snk (cabs c) = if late c then coming c else [].
Proof. intros H. unfold late. rewrite H. cbn [cabs ch_snk]. unfold cc_got in H. rewrite H. destruct (coming c); reflexivity. Qed.

Lemma h_sim y o : hi y -> let '(y', os) := hstep y o in hi y' /\ yrun (habs y) (hsim y o) = (habs y', os).
Proof.
  intros H. destruct o as [o|i o].
  - destruct o as [c|c|n| | | |i|i|k|k| | | |f]; cbn [h_step hsim];
      try (split; [exact H|reflexivity]);
      try (match goal with |- context [hm_step _ _ _ _ _ _ _ y ?p] => pose proof (hm_abs y p H) as Hm;
             destruct (hm_step sends opens epat chk rtag ask idn y p) as [y' os]; destruct Hm as [H1 H2]; split; [exact H1|]; rewrite yrun_one; exact H2 end).
    + (* send *)
      rewrite yrun_one. cbn [y_step]. change (y_m (habs y)) with (h_m y). destruct (e_wtask (h_m y)); try (split; [exact H|reflexivity]).
      destruct (next_send (h_m y)) as [e|]; [|split; [exact H|reflexivity]].
      rewrite hfwd_abs, <- (cc_room_abs _ (hi_fwd y (kind e) H)).
      destruct (cc_room (hfwd y (kind e))) eqn:Er; [|split; [exact H|reflexivity]].
      destruct (cc_send_abs (hfwd y (kind e)) e (hi_fwd y (kind e) H) Er) as [S1 S2].
      pose proof (hm_abs _ (@PSend C R) (hi_set_fwd y (kind e) _ H S1)) as Hm.
      rewrite hset_fwd_abs, S2 in Hm. destruct (hm_step _ _ _ _ _ _ _ _ _) as [y' os]. exact Hm.
    + (* recv *)
      change (e_rtask (h_m y)) with (e_rtask (y_m (habs y))). destruct (cc_got (h_b y)) as [|r q] eqn:Eg.
      * replace (match e_rtask (y_m (habs y)) with TRun => (y, []) | _ => (y, []) end) with (y, @nil (xout C E R)) by (destruct (e_rtask (y_m (habs y))); reflexivity).
        split; [exact H|]. pose proof (got_abs _ Eg) as Ha. destruct (late (h_b y)); [reflexivity|]. rewrite yrun_one. cbn [y_step].
        change (y_b (habs y)) with (cabs (h_b y)). rewrite Ha. destruct (e_rtask (y_m (habs y))); reflexivity.
      * assert (El : late (h_b y) = false) by (unfold late; rewrite Eg; reflexivity). rewrite El, yrun_one. cbn [y_step].
        destruct H as (H1 & H2 & H3). destruct (cc_recv_abs (h_b y) r q H3 Eg) as (S1 & S2 & S3).
        change (y_b (habs y)) with (cabs (h_b y)). rewrite S2, <- S3.
        destruct (e_rtask (y_m (habs y))); try (split; [hsp|reflexivity]).
        exact (hm_abs (hset_b y (cc_recv (h_b y))) (PResp r) (conj H1 (conj H2 S1))).
    + (* slave *)
      destruct (act (h_s y)) as [k|r s|s|] eqn:Ea.
      * destruct (cc_got (hfwd y k)) as [|e q] eqn:Eg.
        -- split; [exact H|]. pose proof (got_abs _ Eg) as Ha. destruct (late (hfwd y k)); [reflexivity|]. rewrite yrun_one. cbn [y_step].
           change (y_s (habs y)) with (h_s y). rewrite Ea, hfwd_abs, Ha. reflexivity.
        -- assert (El : late (hfwd y k) = false) by (unfold late; rewrite Eg; reflexivity). rewrite El, yrun_one. cbn [y_step].
           destruct (cc_recv_abs (hfwd y k) e q (hi_fwd y k H) Eg) as (S1 & S2 & S3).
           change (y_s (habs y)) with (h_s y). rewrite Ea, hfwd_abs, S2, <- S3. split; [|destruct k; reflexivity].
           pose proof (hi_set_fwd y k _ H S1) as H'. destruct k; exact H'.
      * rewrite yrun_one. cbn [y_step]. change (y_s (habs y)) with (h_s y). rewrite Ea. change (y_b (habs y)) with (cabs (h_b y)).
        destruct H as (H1 & H2 & H3). rewrite <- (cc_room_abs _ H3). destruct (cc_room (h_b y)) eqn:Er; [|split; [hsp|reflexivity]].
        destruct (cc_send_abs (h_b y) r H3 Er) as [S1 S2]. rewrite <- S2. split; [hsp|reflexivity].
      * rewrite yrun_one. cbn [y_step]. change (y_s (habs y)) with (h_s y). rewrite Ea. split; [exact H|reflexivity].
      * rewrite yrun_one. cbn [y_step]. change (y_s (habs y)) with (h_s y). rewrite Ea. split; [exact H|reflexivity].
  - destruct H as (H1 & H2 & H3). destruct i; cbn [h_step hsim].
    + destruct (cc_step_abs dE (h_a y) o H1) as [S1 S2]. split; [hsp|]. rewrite yrun_fwd. change (fwd (habs y) true) with (cabs (h_a y)). rewrite <- S2. reflexivity.
    + destruct (cc_step_abs dE (h_w y) o H2) as [S1 S2]. split; [hsp|]. rewrite yrun_fwd. change (fwd (habs y) false) with (cabs (h_w y)). rewrite <- S2. reflexivity.
    + destruct (cc_step_abs dR (h_b y) o H3) as [S1 S2]. split; [hsp|]. rewrite yrun_b. change (y_b (habs y)) with (cabs (h_b y)). rewrite <- S2. reflexivity.
Qed.

Fixpoint hsims (y : hsys C E R S) (h : list (hop C S)) : list (yop C S) :=
  match h with [] => [] | o :: h' => hsim y o ++ hsims (fst (hstep y o)) h' end.
Lemma h_sims h : forall y, hi y -> let '(y', os) := hrun y h in hi y' /\ yrun (habs y) (hsims y h) = (habs y', os).
Proof.
  induction h as [|o h IH]; intros y H; cbn [h_run hsims y_run]; [auto|].
  pose proof (h_sim y o H) as H1. destruct (hstep y o) as [y1 o1]. destruct H1 as [H1 E1]. specialize (IH y1 H1).
  destruct (hrun y1 h) as [y2 o2]. destruct IH as [H2 E2]. split; [exact H2|]. cbn [fst]. rewrite yrun_app, E1, E2. reflexivity.
Qed.
Lemma hi_init s0 : hi (hsys_init s0). Proof. split; [|split]; apply ci_init. Qed.

(** the steps of user and tasks *)
Lemma cev_a_int k l : Forall internal (map (cev_a k) l).
Proof. induction l as [|[|] l IH]; constructor; auto; exact I. Qed.
Lemma cev_b_int l : Forall internal (map cev_b l).
Proof. induction l as [|[|] l IH]; constructor; auto; exact I. Qed.
Lemma hsim_all (P : yop C S -> Prop) y o : (forall o, internal o -> P o) -> Forall P (tasks [o]) -> Forall P (hsim y o).
Proof.
  intros HP H. destruct o as [o|i o].
  - cbn in H. apply Forall_inv in H. destruct o; cbn [hsim]; try (constructor; auto; fail).
    + destruct (late (h_b y)); constructor; auto.
    + destruct (act (h_s y)); [destruct (late (hfwd y k))|..]; constructor; auto.
  - destruct i; cbn [hsim]; (eapply Forall_impl; [exact HP|]); [apply cev_a_int|apply cev_a_int|apply cev_b_int].
Qed.
Lemma hsims_all (P : yop C S -> Prop) h : forall y, (forall o, internal o -> P o) -> Forall P (tasks h) -> Forall P (hsims y h).
Proof.
  induction h as [|o h IH]; intros y HP H; cbn [hsims]; [constructor|]. change (o :: h) with ([o] ++ h) in H. unfold tasks in H. rewrite flat_map_app in H.
  apply Forall_app in H. destruct H as [H1 H2]. apply Forall_app. split; [now apply hsim_all|now apply IH].
Qed.
Lemma internal_none (o : yop C S) : internal o -> ysubmitted [o] = []. Proof. destruct o; intros []; reflexivity. Qed.
Lemma hsim_submitted y o : ysubmitted (hsim y o) = ysubmitted (tasks [o]).
Proof.
  assert (Hi : forall l : list (yop C S), Forall internal l -> ysubmitted l = []).
  { induction 1 as [|o' l Ho Hl IH]; [reflexivity|]. change (o' :: l) with ([o'] ++ l). unfold ysubmitted in *. rewrite flat_map_app.
    rewrite IH. fold (ysubmitted [o']). rewrite (internal_none o' Ho). reflexivity. }
  destruct o as [o|i o].
  - destruct o; try reflexivity; cbn [hsim].
    + destruct (late (h_b y)); reflexivity.
    + destruct (act (h_s y)); [destruct (late (hfwd y k))|..]; reflexivity.
  - destruct i; cbn [hsim]; (rewrite Hi; [reflexivity|]); [apply cev_a_int|apply cev_a_int|apply cev_b_int].
Qed.
Lemma hsims_submitted h : forall y, ysubmitted (hsims y h) = ysubmitted (tasks h).
Proof.
  induction h as [|o h IH]; intros y; cbn [hsims]; [reflexivity|]. change (o :: h) with ([o] ++ h). unfold tasks, ysubmitted in *. rewrite !flat_map_app.
  f_equal; [apply (hsim_submitted y o)|apply IH].
Qed.
End Ax.
