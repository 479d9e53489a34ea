(** In a fair clocked schedule the steps of the channels and the tasks of an AXI-Lite half come again and again, or are not possible. *)
From Coq Require Import ZArith Lia List Bool.
From Coq Require Import ZifyBool ZifyNat.
From Verif Require Import Py M_stream M_axi M_axil M_liteeng M_axieng M_cchan P_cchan M_sys S_sys M_litesys S_litesys S_live M_axisys S_axisys M_literw S_literw M_clk S_clk
  P_ulive P_cchanlive P_clk P_clku.
Import ListNotations.
Open Scope Z_scope.

Section Ax.
Context {C E R S : Type}.
Variable sends : C -> list E.
Variable need : C -> nat.
Variable kind : E -> bool.
Variable act : S -> sact R S.
Variable sin : S -> E -> S.
Variable dE : E.
Variable dR : R.
Notation hstep := (hu_step sends need kind act sin dE dR).
Notation husim := (@husim C E R S act).

(** what a step does to a channel *)
Definition ufev (k : bool) (y : husys C E R S) (o : huop C S) : option (@cact E) :=
  match o with
  | HUC ChA o => if k then Some (AC o) else None
  | HUC ChW o => if k then None else Some (AC o)
  | HUT USend => match unext (hu_m y) with
                | Some e => if Bool.eqb (kind e) k && cc_room (hufwd y k) then Some (ASend e) else None
                | None => None
                end
  | HUT USlave => match act (hu_s y) with
                 | AWait k' => if Bool.eqb k' k then match cc_got (hufwd y k) with [] => None | _ => Some ARecv end else None
                 | _ => None
                 end
  | _ => None
  end.
Definition ubev (y : husys C E R S) (o : huop C S) : option (@cact R) :=
  match o with
  | HUC ChB o => Some (AC o)
  | HUT USlave => match act (hu_s y) with AEmit r _ => if cc_room (hu_b y) then Some (ASend r) else None | _ => None end
  | HUT URecv => match uwaits (hu_m y), cc_got (hu_b y) with true, _ :: _ => Some ARecv | _, _ => None end
  | _ => None
  end.
Lemma hum_fwd (y : husys C E R S) p k : hufwd (fst (hum_step sends need y p)) k = hufwd y k.
Proof. unfold hum_step. destruct (eng_step _ _ _ _). destruct k; reflexivity. Qed.
Lemma hum_b (y : husys C E R S) p : hu_b (fst (hum_step sends need y p)) = hu_b y.
Proof. unfold hum_step. destruct (eng_step _ _ _ _). reflexivity. Qed.
Lemma ufev_ok k y o : act_ok dE (hufwd y k) (ufev k y o) (hufwd (fst (hstep y o)) k).
Proof.
  destruct o as [o|i o].
  - destruct o as [c|c|n| | | | |k'|k'| | | |f]; cbn [hu_step ufev]; try (cbn; rewrite ?hum_fwd; destruct k; reflexivity).
    + destruct (unext (hu_m y)) as [e|]; [|reflexivity].
      destruct (cc_room (hufwd y (kind e))) eqn:Er.
      * rewrite hum_fwd. destruct (kind e), k; cbn [Bool.eqb andb hufwd huset_fwd] in *; rewrite ?Er; cbn; auto.
      * destruct (kind e), k; cbn [Bool.eqb andb hufwd huset_fwd] in *; rewrite ?Er; cbn; auto.
    + destruct (uwaits (hu_m y)); try reflexivity. destruct (cc_got (hu_b y)); [reflexivity|]. rewrite hum_fwd. destruct k; reflexivity.
    + destruct (act (hu_s y)) as [k'|r s|s|]; try (destruct k; reflexivity).
      * destruct (cc_got (hufwd y k')) as [|e q] eqn:Eg.
        -- destruct k', k; cbn [Bool.eqb hufwd] in *; rewrite ?Eg; reflexivity.
        -- destruct k', k; cbn [Bool.eqb hufwd] in *; rewrite ?Eg; cbn; rewrite ?Eg; try reflexivity; (split; [discriminate|reflexivity]).
      * destruct (cc_room (hu_b y)); destruct k; reflexivity.
  - destruct i; cbn [hu_step ufev]; destruct k; reflexivity.
Qed.
Lemma ubev_ok y o : act_ok dR (hu_b y) (ubev y o) (hu_b (fst (hstep y o))).
Proof.
  destruct o as [o|i o].
  - destruct o as [c|c|n| | | | |k'|k'| | | |f]; cbn [hu_step ubev]; try (cbn; rewrite ?hum_b; reflexivity).
    + destruct (unext (hu_m y)) as [e|]; [|reflexivity].
      destruct (cc_room (hufwd y (kind e))); [|reflexivity]. rewrite hum_b. destruct (kind e); reflexivity.
    + destruct (uwaits (hu_m y)); try reflexivity. destruct (cc_got (hu_b y)) eqn:Eg; [reflexivity|]. rewrite hum_b. cbn. rewrite Eg. split; [discriminate|reflexivity].
    + destruct (act (hu_s y)) as [k'|r s|s|]; try reflexivity.
      * destruct (cc_got (hufwd y k')); [reflexivity|]. destruct k'; reflexivity.
      * destruct (cc_room (hu_b y)) eqn:Er; cbn; auto.
  - destruct i; reflexivity.
Qed.

(** pauses change by pause steps only *)
Definition uno_pause (o : huop C S) : Prop := match o with HUC _ (OPauseS _) | HUC _ (OPauseK _) => False | _ => True end.
Lemma ufev_pause k y o c : ufev k y o = Some (AC c) -> exists i, o = HUC i c.
Proof.
  destruct o as [o|i o]; cbn [ufev].
  - destruct o; try discriminate.
    + destruct (unext (hu_m y)); try discriminate. destruct (_ && _); discriminate.
    + destruct (act (hu_s y)) as [k'| | |]; try discriminate. destruct (Bool.eqb k' k); [|discriminate]. destruct (cc_got _); discriminate.
  - destruct i, k; try discriminate; intros Ho; injection Ho as <-; eexists; reflexivity.
Qed.
Lemma ubev_pause y o c : ubev y o = Some (AC c) -> exists i, o = HUC i c.
Proof.
  destruct o as [o|i o]; cbn [ubev].
  - destruct o; try discriminate.
    + destruct (uwaits (hu_m y)); try discriminate. destruct (cc_got _); discriminate.
    + destruct (act (hu_s y)); try discriminate. destruct (cc_room _); discriminate.
  - destruct i; try discriminate; intros Ho; injection Ho as <-; eexists; reflexivity.
Qed.
Lemma ucalm_step y o : hui y -> uno_pause o -> (forall i, hucalm y i) -> forall i, hucalm (fst (hstep y o)) i.
Proof.
  intros (H1 & H2 & H3) Hn Hc i. destruct i.
  - apply (act_calm dE (hu_a y) (ufev true y o) _ H1 (ufev_ok true y o)); [intros b Eq; apply ufev_pause in Eq; destruct Eq as (j & ->); exact Hn ..|exact (Hc ChA)].
  - apply (act_calm dE (hu_w y) (ufev false y o) _ H2 (ufev_ok false y o)); [intros b Eq; apply ufev_pause in Eq; destruct Eq as (j & ->); exact Hn ..|exact (Hc ChW)].
  - apply (act_calm dR (hu_b y) (ubev y o) _ H3 (ubev_ok y o)); [intros b Eq; apply ubev_pause in Eq; destruct Eq as (j & ->); exact Hn ..|exact (Hc ChB)].
Qed.

(** ** a sequence of states: the half's own steps, and steps of others, which leave the channels alone *)
Variable y : nat -> husys C E R S.
Variable oo : nat -> option (huop C S).
Definition usame_ch (a b : husys C E R S) : Prop := hu_a a = hu_a b /\ hu_w a = hu_w b /\ hu_b a = hu_b b.
Hypothesis H0 : hui (y 0%nat).
Hypothesis Hst : forall t, usame_ch (y (Datatypes.S t)) (match oo t with Some o => fst (hstep (y t) o) | None => y t end).
Hypothesis Htask : forall o, utask o -> forall n, exists m, (n <= m)%nat /\ oo m = Some (HUT o).
Hypothesis Hedge : forall i, edges_again (Some (HUC i OEdge)) oo (fun t => hucalm (y t) i).

Definition evk (k : bool) (t : nat) : option (@cact E) := match oo t with Some o => ufev k (y t) o | None => None end.
Definition evb (t : nat) : option (@cact R) := match oo t with Some o => ubev (y t) o | None => None end.
Lemma st_k k t : act_ok dE (hufwd (y t) k) (evk k t) (hufwd (y (Datatypes.S t)) k).
Proof.
  destruct (Hst t) as (Ha & Hw & _). unfold evk. replace (hufwd (y (Datatypes.S t)) k) with (hufwd (match oo t with Some o => fst (hstep (y t) o) | None => y t end) k) by (destruct k; cbn; congruence).
  destruct (oo t) as [o|]; [apply ufev_ok|reflexivity].
Qed.
Lemma st_b t : act_ok dR (hu_b (y t)) (evb t) (hu_b (y (Datatypes.S t))).
Proof. destruct (Hst t) as (_ & _ & Hb). rewrite Hb. unfold evb. destruct (oo t) as [o|]; [apply ubev_ok|reflexivity]. Qed.
Lemma win_k k n : exists m1 m2 m3, (n <= m1 < m2 /\ m2 < m3)%nat /\ evk k m1 = Some (AC OEdge) /\ evk k m2 = Some (AC OEdge) /\ evk k m3 = Some (AC OEdge) /\
  forall t, (m1 <= t <= m3)%nat -> calm (hufwd (y t) k).
Proof.
  destruct (Hedge (if k then ChA else ChW) n) as (m1 & m2 & m3 & Hm & E1 & E2 & E3 & Hc). exists m1, m2, m3. split; [exact Hm|].
  unfold evk. rewrite E1, E2, E3. destruct k; (split; [reflexivity|]; split; [reflexivity|]; split; [reflexivity|]; exact Hc).
Qed.
Lemma win_b n : exists m1 m2 m3, (n <= m1 < m2 /\ m2 < m3)%nat /\ evb m1 = Some (AC OEdge) /\ evb m2 = Some (AC OEdge) /\ evb m3 = Some (AC OEdge) /\
  forall t, (m1 <= t <= m3)%nat -> calm (hu_b (y t)).
Proof.
  destruct (Hedge ChB n) as (m1 & m2 & m3 & Hm & E1 & E2 & E3 & Hc). exists m1, m2, m3. split; [exact Hm|].
  unfold evb. rewrite E1, E2, E3. split; [reflexivity|]; split; [reflexivity|]; split; [reflexivity|]; exact Hc.
Qed.
Lemma ci_k k : ci (hufwd (y 0%nat) k). Proof. destruct H0 as (H1 & H2 & H3). destruct k; assumption. Qed.
Lemma ci_b : ci (hu_b (y 0%nat)). Proof. apply H0. Qed.

Definition udone (o : uop C S) (m : nat) : Prop := exists op, oo m = Some op /\ In o (husim (y m) op).
Lemma did_k k e t : did (hufwd (y t) k) (evk k t) e -> udone (ucev_a k e) t.
Proof.
  intros (o & Ho & Hi). unfold evk in Ho. destruct (oo t) as [op|] eqn:Eo; [|discriminate]. exists op. split; [exact Eo|].
  destruct op as [op|i op]; cbn [ufev] in Ho.
  - exfalso. destruct op; try discriminate.
    + destruct (unext (hu_m (y t))); try discriminate. destruct (_ && _); discriminate.
    + destruct (act (hu_s (y t))) as [k'| | |]; try discriminate. destruct (Bool.eqb k' k); [|discriminate]. destruct (cc_got _); discriminate.
  - destruct i, k; try discriminate; injection Ho as <-; cbn [P_clku.husim]; apply (in_map (ucev_a _)); exact Hi.
Qed.
Lemma did_b e t : did (hu_b (y t)) (evb t) e -> udone (ucev_b e) t.
Proof.
  intros (o & Ho & Hi). unfold evb in Ho. destruct (oo t) as [op|] eqn:Eo; [|discriminate]. exists op. split; [exact Eo|].
  destruct op as [op|i op]; cbn [ubev] in Ho.
  - exfalso. destruct op; try discriminate.
    + destruct (uwaits (hu_m (y t))); try discriminate. destruct (cc_got _); discriminate.
    + destruct (act (hu_s (y t))); try discriminate. destruct (cc_room _); discriminate.
  - destruct i; try discriminate; injection Ho as <-; cbn [P_clku.husim]; apply (in_map ucev_b); exact Hi.
Qed.
Lemma recv_k k t : evk k t = Some ARecv -> udone USlave t.
Proof.
  intros Ho. unfold evk in Ho. destruct (oo t) as [op|] eqn:Eo; [|discriminate]. exists op. split; [exact Eo|].
  destruct op as [op|i op]; cbn [ufev] in Ho; [|destruct i, k; discriminate].
  destruct op; try discriminate.
  - destruct (unext (hu_m (y t))); try discriminate. destruct (_ && _); discriminate.
  - cbn [P_clku.husim]. destruct (act (hu_s (y t))) as [k'| | |]; try discriminate. destruct (Bool.eqb k' k) eqn:Ek; [|discriminate]. apply eqb_prop in Ek. subst k'.
    unfold late. destruct (cc_got (hufwd (y t) k)); [discriminate|]. left. reflexivity.
Qed.
Lemma recv_b t : evb t = Some ARecv -> udone URecv t.
Proof.
  intros Ho. unfold evb in Ho. destruct (oo t) as [op|] eqn:Eo; [|discriminate]. exists op. split; [exact Eo|].
  destruct op as [op|i op]; cbn [ubev] in Ho; [|destruct i; discriminate].
  destruct op; try discriminate.
  - cbn [P_clku.husim]. destruct (uwaits (hu_m (y t))); try discriminate. unfold late. destruct (cc_got (hu_b (y t))); [discriminate|]. left. reflexivity.
  - destruct (act (hu_s (y t))); try discriminate. destruct (cc_room _); discriminate.
Qed.

Definition uchan_dis (z : husys C E R S) (o : uop C S) : bool :=
  match o with
  | ULoad k => negb (can_load (cabs (hufwd z k))) | UXfer k => negb (can_xfer (cabs (hufwd z k)))
  | ULoadB => negb (can_load (cabs (hu_b z))) | UXferB => negb (can_xfer (cabs (hu_b z)))
  | _ => false
  end.
Lemma late_under {A} (c : cchan A) : late c = true -> under_way c.
Proof. unfold late, under_way. cbn. unfold cc_got. destruct (k_q (cc_snk c)); [|discriminate]. destruct (coming c); discriminate. Qed.

Theorem uagain o : uinternal o -> forall n, exists m, (n <= m)%nat /\ (udone o m \/ uchan_dis (y m) o = true).
Proof.
  intros Ho n.
  assert (HUT' : utask o -> (forall t : husys C E R S, husim t (HUT o) = [o]) -> exists m, (n <= m)%nat /\ (udone o m \/ uchan_dis (y m) o = true)).
  { intros Ht Hs. destruct (Htask o Ht n) as (m & Hm & Eq). exists m. split; [exact Hm|]. left. exists (HUT o). split; [exact Eq|]. rewrite Hs. left. reflexivity. }
  destruct o as [c|c|i| | | | |k|k| | | |f]; cbn [uinternal] in Ho; try tauto; try (apply HUT'; [exact I|intros; reflexivity]); clear HUT'.
  - (* recv *)
    destruct (Htask URecv I n) as (m1 & Hm1 & E1).
    destruct (late (hu_b (y m1))) eqn:L1; [|exists m1; split; [exact Hm1|left; exists (HUT URecv); split; [exact E1|]; cbn; rewrite L1; left; reflexivity]].
    destruct (got_live dR (fun t => hu_b (y t)) evb ci_b st_b win_b m1 (late_under _ L1)) as [(i & Hi & Ei)|(m & Hm & HG)].
    + exists i. split; [lia|]. left. now apply recv_b.
    + destruct (Htask URecv I m) as (m2 & Hm2 & E2). destruct (HG m2 Hm2) as [(i & Hi & Ei)|G]; [exists i; split; [lia|]; left; now apply recv_b|].
      exists m2. split; [lia|]. left. exists (HUT URecv). split; [exact E2|]. cbn. unfold late. destruct (cc_got (hu_b (y m2))); [congruence|]. left. reflexivity.
  - destruct (load_live dE (fun t => hufwd (y t) k) (evk k) (ci_k k) (st_k k) (win_k k) n) as (m & Hm & [D|D]); exists m; (split; [exact Hm|]).
    + left. apply (did_k k Ld). exact D.
    + right. cbn. cbn in D. now rewrite D.
  - destruct (xfer_live dE (fun t => hufwd (y t) k) (evk k) (ci_k k) (st_k k) (win_k k) n) as (m & Hm & [D|D]); exists m; (split; [exact Hm|]).
    + left. apply (did_k k Xf). exact D.
    + right. cbn. cbn in D. now rewrite D.
  - destruct (load_live dR (fun t => hu_b (y t)) evb ci_b st_b win_b n) as (m & Hm & [D|D]); exists m; (split; [exact Hm|]).
    + left. apply (did_b Ld). exact D.
    + right. cbn. cbn in D. now rewrite D.
  - destruct (xfer_live dR (fun t => hu_b (y t)) evb ci_b st_b win_b n) as (m & Hm & [D|D]); exists m; (split; [exact Hm|]).
    + left. apply (did_b Xf). exact D.
    + right. cbn. cbn in D. now rewrite D.
  - (* slave *)
    assert (D : forall m, oo m = Some (HUT USlave) -> udone USlave m \/ exists k, late (hufwd (y m) k) = true).
    { intros m Em. destruct (act (hu_s (y m))) as [k|r s|s|] eqn:Ea; try (left; exists (HUT USlave); split; [exact Em|]; cbn; rewrite Ea; left; reflexivity).
      destruct (late (hufwd (y m) k)) eqn:L; [right; exists k; exact L|]. left; exists (HUT USlave); split; [exact Em|]; cbn; rewrite Ea, L; left; reflexivity. }
    assert (G1 : forall m k, late (hufwd (y m) k) = true -> (exists i, (m <= i)%nat /\ udone USlave i) \/
      exists m', (m <= m')%nat /\ forall j, (m' <= j)%nat -> (exists i, (m <= i)%nat /\ udone USlave i) \/ cc_got (hufwd (y j) k) <> []).
    { intros m k L. destruct (got_live dE (fun t => hufwd (y t) k) (evk k) (ci_k k) (st_k k) (win_k k) m (late_under _ L)) as [(i & Hi & Ei)|(m' & Hm & HG)].
      - left. exists i. split; [exact Hi|]. now apply (recv_k k).
      - right. exists m'. split; [exact Hm|]. intros j Hj. destruct (HG j Hj) as [(i & Hi & Ei)|G]; [left; exists i; split; [lia|]; now apply (recv_k k)|right; exact G]. }
    assert (NL : forall c : cchan E, cc_got c <> [] -> late c = false). { intros c Hc. unfold late. destruct (cc_got c); [congruence|reflexivity]. }
    destruct (Htask USlave I n) as (m1 & Hm1 & E1). destruct (D m1 E1) as [D1|(k1 & L1)]; [exists m1; auto|].
    destruct (G1 m1 k1 L1) as [(i & Hi & Di)|(a1 & Ha1 & Q1)]; [exists i; split; [lia|auto]|].
    destruct (Htask USlave I a1) as (m2 & Hm2 & E2). destruct (D m2 E2) as [D2|(k2 & L2)]; [exists m2; split; [lia|auto]|].
    destruct (Q1 m2 Hm2) as [(i & Hi & Di)|N1]; [exists i; split; [lia|auto]|].
    destruct (G1 m2 k2 L2) as [(i & Hi & Di)|(a2 & Ha2 & Q2)]; [exists i; split; [lia|auto]|].
    destruct (Htask USlave I a2) as (m3 & Hm3 & E3). destruct (D m3 E3) as [D3|(k3 & L3)]; [exists m3; split; [lia|auto]|].
    destruct (Q1 m3 ltac:(lia)) as [(i & Hi & Di)|N2]; [exists i; split; [lia|auto]|].
    destruct (Q2 m3 ltac:(lia)) as [(i & Hi & Di)|N3]; [exists i; split; [lia|auto]|]. exfalso.
    assert (k1 <> k2) by (intros ->; rewrite (NL _ N1) in L2; discriminate).
    assert (k3 <> k1) by (intros ->; rewrite (NL _ N2) in L3; discriminate).
    assert (k3 <> k2) by (intros ->; rewrite (NL _ N3) in L3; discriminate).
    destruct k1, k2, k3; congruence.
Qed.
End Ax.
