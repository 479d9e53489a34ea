(** In a fair clocked schedule the steps of the channels and the tasks of an AXI half come again and again, or are not possible. *)
From Coq Require Import ZArith Lia List Bool.
From Coq Require Import ZifyBool ZifyNat.
From Verif Require Import Py M_stream M_axi M_axil M_liteeng M_axieng M_cchan P_cchan M_sys S_sys M_litesys S_litesys S_live M_axisys S_axisys M_literw S_literw M_clk S_clk
  P_ulive P_cchanlive P_clk.
Import ListNotations.
Open Scope Z_scope.

Section Ax.
Context {C E R S : Type}.
Variable sends : C -> Z -> list E.
Variable opens : E -> bool.
Variable epat : E -> list bool.
Variable chk : bool -> R -> bool.
Variable rtag : R -> Z.
Variable ask : C -> option Z.
Variable idn : Z.
Variable kind : E -> bool.
Variable act : S -> sact R S.
Variable sin : S -> E -> S.
Variable dE : E.
Variable dR : R.
Notation hstep := (h_step sends opens epat chk rtag ask idn kind act sin dE dR).
Notation hsim := (@hsim C E R S act).

(** what a step does to a channel *)
Definition fev (k : bool) (y : hsys C E R S) (o : hop C S) : option (@cact E) :=
  match o with
  | HC ChA o => if k then Some (AC o) else None
  | HC ChW o => if k then None else Some (AC o)
  | HT YSend => match e_wtask (h_m y), next_send (h_m y) with
                | TRun, Some e => if Bool.eqb (kind e) k && cc_room (hfwd y k) then Some (ASend e) else None
                | _, _ => None
                end
  | HT YSlave => match act (h_s y) with
                 | AWait k' => if Bool.eqb k' k then match cc_got (hfwd y k) with [] => None | _ => Some ARecv end else None
                 | _ => None
                 end
  | _ => None
  end.
Definition bev (y : hsys C E R S) (o : hop C S) : option (@cact R) :=
  match o with
  | HC ChB o => Some (AC o)
  | HT YSlave => match act (h_s y) with AEmit r _ => if cc_room (h_b y) then Some (ASend r) else None | _ => None end
  | HT YRecv => match e_rtask (h_m y), cc_got (h_b y) with TRun, _ :: _ => Some ARecv | _, _ => None end
  | _ => None
  end.
Lemma hm_fwd (y : hsys C E R S) p k : hfwd (fst (hm_step sends opens epat chk rtag ask idn y p)) k = hfwd y k.
Proof. unfold hm_step. destruct (x_step _ _ _ _ _ _ _ _ _). destruct k; reflexivity. Qed.
Lemma hm_b (y : hsys C E R S) p : h_b (fst (hm_step sends opens epat chk rtag ask idn y p)) = h_b y.
Proof. unfold hm_step. destruct (x_step _ _ _ _ _ _ _ _ _). reflexivity. Qed.
Lemma fev_ok k y o : act_ok dE (hfwd y k) (fev k y o) (hfwd (fst (hstep y o)) k).
Proof.
  destruct o as [o|i o].
  - destruct o as [c|c|n| | | |i|i|k'|k'| | | |f]; cbn [h_step fev]; try (cbn; rewrite ?hm_fwd; destruct k; reflexivity).
    + destruct (e_wtask (h_m y)); try (destruct k; reflexivity). destruct (next_send (h_m y)) as [e|]; [|reflexivity].
      destruct (cc_room (hfwd y (kind e))) eqn:Er.
      * rewrite hm_fwd. destruct (kind e), k; cbn [Bool.eqb andb hfwd hset_fwd] in *; rewrite ?Er; cbn; auto.
      * destruct (kind e), k; cbn [Bool.eqb andb hfwd hset_fwd] in *; rewrite ?Er; cbn; auto.
    + destruct (e_rtask (h_m y)); try reflexivity. destruct (cc_got (h_b y)); [reflexivity|]. rewrite hm_fwd. destruct k; reflexivity.
    + destruct (act (h_s y)) as [k'|r s|s|]; try (destruct k; reflexivity).
      * destruct (cc_got (hfwd y k')) as [|e q] eqn:Eg.
        -- destruct k', k; cbn [Bool.eqb hfwd] in *; rewrite ?Eg; reflexivity.
        -- destruct k', k; cbn [Bool.eqb hfwd] in *; rewrite ?Eg; cbn; rewrite ?Eg; try reflexivity; (split; [discriminate|reflexivity]).
      * destruct (cc_room (h_b y)); destruct k; reflexivity.
  - destruct i; cbn [h_step fev]; destruct k; reflexivity.
Qed.
Lemma bev_ok y o : act_ok dR (h_b y) (bev y o) (h_b (fst (hstep y o))).
Proof.
  destruct o as [o|i o].
  - destruct o as [c|c|n| | | |i|i|k'|k'| | | |f]; cbn [h_step bev]; try (cbn; rewrite ?hm_b; reflexivity).
    + destruct (e_wtask (h_m y)); try reflexivity. destruct (next_send (h_m y)) as [e|]; [|reflexivity].
      destruct (cc_room (hfwd y (kind e))); [|reflexivity]. rewrite hm_b. destruct (kind e); reflexivity.
    + destruct (e_rtask (h_m y)); try reflexivity. destruct (cc_got (h_b y)) eqn:Eg; [reflexivity|]. rewrite hm_b. cbn. rewrite Eg. split; [discriminate|reflexivity].
    + destruct (act (h_s y)) as [k'|r s|s|]; try reflexivity.
      * destruct (cc_got (hfwd y k')); [reflexivity|]. destruct k'; reflexivity.
      * destruct (cc_room (h_b y)) eqn:Er; cbn; auto.
  - destruct i; reflexivity.
Qed.

(** pauses change by pause steps only *)
Definition no_pause (o : hop C S) : Prop := match o with HC _ (OPauseS _) | HC _ (OPauseK _) => False | _ => True end.
Lemma fev_pause k y o c : fev k y o = Some (AC c) -> exists i, o = HC i c.
Proof.
  destruct o as [o|i o]; cbn [fev].
  - destruct o; try discriminate.
    + destruct (e_wtask (h_m y)); try discriminate. destruct (next_send (h_m y)); try discriminate. destruct (_ && _); discriminate.
    + destruct (act (h_s y)) as [k'| | |]; try discriminate. destruct (Bool.eqb k' k); [|discriminate]. destruct (cc_got _); discriminate.
  - destruct i, k; try discriminate; intros Ho; injection Ho as <-; eexists; reflexivity.
Qed.
Lemma bev_pause y o c : bev y o = Some (AC c) -> exists i, o = HC i c.
Proof.
  destruct o as [o|i o]; cbn [bev].
  - destruct o; try discriminate.
    + destruct (e_rtask (h_m y)); try discriminate. destruct (cc_got _); discriminate.
    + destruct (act (h_s y)); try discriminate. destruct (cc_room _); discriminate.
  - destruct i; try discriminate; intros Ho; injection Ho as <-; eexists; reflexivity.
Qed.
Lemma calm_step y o : hi y -> no_pause o -> (forall i, hcalm y i) -> forall i, hcalm (fst (hstep y o)) i.
Proof.
  intros (H1 & H2 & H3) Hn Hc i. destruct i.
  - apply (act_calm dE (h_a y) (fev true y o) _ H1 (fev_ok true y o)); [intros b Eq; apply fev_pause in Eq; destruct Eq as (j & ->); exact Hn ..|exact (Hc ChA)].
  - apply (act_calm dE (h_w y) (fev false y o) _ H2 (fev_ok false y o)); [intros b Eq; apply fev_pause in Eq; destruct Eq as (j & ->); exact Hn ..|exact (Hc ChW)].
  - apply (act_calm dR (h_b y) (bev y o) _ H3 (bev_ok y o)); [intros b Eq; apply bev_pause in Eq; destruct Eq as (j & ->); exact Hn ..|exact (Hc ChB)].
Qed.

(** ** a sequence of states: the half's own steps, and steps of others, which leave the channels alone *)
Variable y : nat -> hsys C E R S.
Variable oo : nat -> option (hop C S).
Definition same_ch (a b : hsys C E R S) : Prop := h_a a = h_a b /\ h_w a = h_w b /\ h_b a = h_b b.
Hypothesis H0 : hi (y 0%nat).
Hypothesis Hst : forall t, same_ch (y (Datatypes.S t)) (match oo t with Some o => fst (hstep (y t) o) | None => y t end).
Hypothesis Htask : forall o, ytask o -> forall n, exists m, (n <= m)%nat /\ oo m = Some (HT o).
Hypothesis Hedge : forall i, edges_again (Some (HC i OEdge)) oo (fun t => hcalm (y t) i).

Definition evk (k : bool) (t : nat) : option (@cact E) := match oo t with Some o => fev k (y t) o | None => None end.
Definition evb (t : nat) : option (@cact R) := match oo t with Some o => bev (y t) o | None => None end.
Lemma st_k k t : act_ok dE (hfwd (y t) k) (evk k t) (hfwd (y (Datatypes.S t)) k).
Proof.
  destruct (Hst t) as (Ha & Hw & _). unfold evk. replace (hfwd (y (Datatypes.S t)) k) with (hfwd (match oo t with Some o => fst (hstep (y t) o) | None => y t end) k) by (destruct k; cbn; congruence).
  destruct (oo t) as [o|]; [apply fev_ok|reflexivity].
Qed.
Lemma st_b t : act_ok dR (h_b (y t)) (evb t) (h_b (y (Datatypes.S t))).
Proof. destruct (Hst t) as (_ & _ & Hb). rewrite Hb. unfold evb. destruct (oo t) as [o|]; [apply bev_ok|reflexivity]. Qed.
Lemma win_k k n : exists m1 m2 m3, (n <= m1 < m2 /\ m2 < m3)%nat /\ evk k m1 = Some (AC OEdge) /\ evk k m2 = Some (AC OEdge) /\ evk k m3 = Some (AC OEdge) /\
  forall t, (m1 <= t <= m3)%nat -> calm (hfwd (y t) k).
Proof.
  destruct (Hedge (if k then ChA else ChW) n) as (m1 & m2 & m3 & Hm & E1 & E2 & E3 & Hc). exists m1, m2, m3. split; [exact Hm|].
  unfold evk. rewrite E1, E2, E3. destruct k; (split; [reflexivity|]; split; [reflexivity|]; split; [reflexivity|]; exact Hc).
Qed.
Lemma win_b n : exists m1 m2 m3, (n <= m1 < m2 /\ m2 < m3)%nat /\ evb m1 = Some (AC OEdge) /\ evb m2 = Some (AC OEdge) /\ evb m3 = Some (AC OEdge) /\
  forall t, (m1 <= t <= m3)%nat -> calm (h_b (y t)).
Proof.
  destruct (Hedge ChB n) as (m1 & m2 & m3 & Hm & E1 & E2 & E3 & Hc). exists m1, m2, m3. split; [exact Hm|].
  unfold evb. rewrite E1, E2, E3. split; [reflexivity|]; split; [reflexivity|]; split; [reflexivity|]; exact Hc.
Qed.
Lemma ci_k k : ci (hfwd (y 0%nat) k). Proof. destruct H0 as (H1 & H2 & H3). destruct k; assumption. Qed.
Lemma ci_b : ci (h_b (y 0%nat)). Proof. apply H0. Qed.

Definition done (o : yop C S) (m : nat) : Prop := exists op, oo m = Some op /\ In o (hsim (y m) op).
Lemma did_k k e t : did (hfwd (y t) k) (evk k t) e -> done (cev_a k e) t.
Proof.
  intros (o & Ho & Hi). unfold evk in Ho. destruct (oo t) as [op|] eqn:Eo; [|discriminate]. exists op. split; [exact Eo|].
  destruct op as [op|i op]; cbn [fev] in Ho.
  - exfalso. destruct op; try discriminate.
    + destruct (e_wtask (h_m (y t))); try discriminate. destruct (next_send (h_m (y t))); try discriminate. destruct (_ && _); discriminate.
    + destruct (act (h_s (y t))) as [k'| | |]; try discriminate. destruct (Bool.eqb k' k); [|discriminate]. destruct (cc_got _); discriminate.
  - destruct i, k; try discriminate; injection Ho as <-; cbn [P_clk.hsim]; apply (in_map (cev_a _)); exact Hi.
Qed.
Lemma did_b e t : did (h_b (y t)) (evb t) e -> done (cev_b e) t.
Proof.
  intros (o & Ho & Hi). unfold evb in Ho. destruct (oo t) as [op|] eqn:Eo; [|discriminate]. exists op. split; [exact Eo|].
  destruct op as [op|i op]; cbn [bev] in Ho.
  - exfalso. destruct op; try discriminate.
    + destruct (e_rtask (h_m (y t))); try discriminate. destruct (cc_got _); discriminate.
    + destruct (act (h_s (y t))); try discriminate. destruct (cc_room _); discriminate.
  - destruct i; try discriminate; injection Ho as <-; cbn [P_clk.hsim]; apply (in_map cev_b); exact Hi.
Qed.
Lemma recv_k k t : evk k t = Some ARecv -> done YSlave t.
Proof.
  intros Ho. unfold evk in Ho. destruct (oo t) as [op|] eqn:Eo; [|discriminate]. exists op. split; [exact Eo|].
  destruct op as [op|i op]; cbn [fev] in Ho; [|destruct i, k; discriminate].
  destruct op; try discriminate.
  - destruct (e_wtask (h_m (y t))); try discriminate. destruct (next_send (h_m (y t))); try discriminate. destruct (_ && _); discriminate.
  - cbn [P_clk.hsim]. destruct (act (h_s (y t))) as [k'| | |]; try discriminate. destruct (Bool.eqb k' k) eqn:Ek; [|discriminate]. apply eqb_prop in Ek. subst k'.
    unfold late. destruct (cc_got (hfwd (y t) k)); [discriminate|]. left. reflexivity.
Qed.
Lemma recv_b t : evb t = Some ARecv -> done YRecv t.
Proof.
  intros Ho. unfold evb in Ho. destruct (oo t) as [op|] eqn:Eo; [|discriminate]. exists op. split; [exact Eo|].
  destruct op as [op|i op]; cbn [bev] in Ho; [|destruct i; discriminate].
  destruct op; try discriminate.
  - cbn [P_clk.hsim]. destruct (e_rtask (h_m (y t))); try discriminate. unfold late. destruct (cc_got (h_b (y t))); [discriminate|]. left. reflexivity.
  - destruct (act (h_s (y t))); try discriminate. destruct (cc_room _); discriminate.
Qed.

Definition chan_dis (z : hsys C E R S) (o : yop C S) : bool :=
  match o with
  | YLoad k => negb (can_load (cabs (hfwd z k))) | YXfer k => negb (can_xfer (cabs (hfwd z k)))
  | YLoadB => negb (can_load (cabs (h_b z))) | YXferB => negb (can_xfer (cabs (h_b z)))
  | _ => false
  end.
Lemma late_under {A} (c : cchan A) : late c = true -> under_way c.
Proof. unfold late, under_way. cbn. unfold cc_got. destruct (k_q (cc_snk c)); [|discriminate]. destruct (coming c); discriminate. Qed.

Theorem again o : internal o -> forall n, exists m, (n <= m)%nat /\ (done o m \/ chan_dis (y m) o = true).
Proof.
  intros Ho n.
  assert (HT' : ytask o -> (forall t : hsys C E R S, hsim t (HT o) = [o]) -> exists m, (n <= m)%nat /\ (done o m \/ chan_dis (y m) o = true)).
  { intros Ht Hs. destruct (Htask o Ht n) as (m & Hm & Eq). exists m. split; [exact Hm|]. left. exists (HT o). split; [exact Eq|]. rewrite Hs. left. reflexivity. }
  destruct o as [c|c|i| | | |i|i|k|k| | | |f]; cbn [internal] in Ho; try tauto; try (apply HT'; [exact I|intros; reflexivity]); clear HT'.
  - (* recv *)
    destruct (Htask YRecv I n) as (m1 & Hm1 & E1).
    destruct (late (h_b (y m1))) eqn:L1; [|exists m1; split; [exact Hm1|left; exists (HT YRecv); split; [exact E1|]; cbn; rewrite L1; left; reflexivity]].
    destruct (got_live dR (fun t => h_b (y t)) evb ci_b st_b win_b m1 (late_under _ L1)) as [(i & Hi & Ei)|(m & Hm & HG)].
    + exists i. split; [lia|]. left. now apply recv_b.
    + destruct (Htask YRecv I m) as (m2 & Hm2 & E2). destruct (HG m2 Hm2) as [(i & Hi & Ei)|G]; [exists i; split; [lia|]; left; now apply recv_b|].
      exists m2. split; [lia|]. left. exists (HT YRecv). split; [exact E2|]. cbn. unfold late. destruct (cc_got (h_b (y m2))); [congruence|]. left. reflexivity.
  - destruct (load_live dE (fun t => hfwd (y t) k) (evk k) (ci_k k) (st_k k) (win_k k) n) as (m & Hm & [D|D]); exists m; (split; [exact Hm|]).
    + left. apply (did_k k Ld). exact D.
    + right. cbn. cbn in D. now rewrite D.
  - destruct (xfer_live dE (fun t => hfwd (y t) k) (evk k) (ci_k k) (st_k k) (win_k k) n) as (m & Hm & [D|D]); exists m; (split; [exact Hm|]).
    + left. apply (did_k k Xf). exact D.
    + right. cbn. cbn in D. now rewrite D.
  - destruct (load_live dR (fun t => h_b (y t)) evb ci_b st_b win_b n) as (m & Hm & [D|D]); exists m; (split; [exact Hm|]).
    + left. apply (did_b Ld). exact D.
    + right. cbn. cbn in D. now rewrite D.
  - destruct (xfer_live dR (fun t => h_b (y t)) evb ci_b st_b win_b n) as (m & Hm & [D|D]); exists m; (split; [exact Hm|]).
    + left. apply (did_b Xf). exact D.
    + right. cbn. cbn in D. now rewrite D.
  - (* slave *)
    assert (D : forall m, oo m = Some (HT YSlave) -> done YSlave m \/ exists k, late (hfwd (y m) k) = true).
    { intros m Em. destruct (act (h_s (y m))) as [k|r s|s|] eqn:Ea; try (left; exists (HT YSlave); split; [exact Em|]; cbn; rewrite Ea; left; reflexivity).
      destruct (late (hfwd (y m) k)) eqn:L; [right; exists k; exact L|]. left; exists (HT YSlave); split; [exact Em|]; cbn; rewrite Ea, L; left; reflexivity. }
    assert (G1 : forall m k, late (hfwd (y m) k) = true -> (exists i, (m <= i)%nat /\ done YSlave i) \/
      exists m', (m <= m')%nat /\ forall j, (m' <= j)%nat -> (exists i, (m <= i)%nat /\ done YSlave i) \/ cc_got (hfwd (y j) k) <> []).
    { intros m k L. destruct (got_live dE (fun t => hfwd (y t) k) (evk k) (ci_k k) (st_k k) (win_k k) m (late_under _ L)) as [(i & Hi & Ei)|(m' & Hm & HG)].
      - left. exists i. split; [exact Hi|]. now apply (recv_k k).
      - right. exists m'. split; [exact Hm|]. intros j Hj. destruct (HG j Hj) as [(i & Hi & Ei)|G]; [left; exists i; split; [lia|]; now apply (recv_k k)|right; exact G]. }
    assert (NL : forall c : cchan E, cc_got c <> [] -> late c = false). { intros c Hc. unfold late. destruct (cc_got c); [congruence|reflexivity]. }
    destruct (Htask YSlave I n) as (m1 & Hm1 & E1). destruct (D m1 E1) as [D1|(k1 & L1)]; [exists m1; auto|].
    destruct (G1 m1 k1 L1) as [(i & Hi & Di)|(a1 & Ha1 & Q1)]; [exists i; split; [lia|auto]|].
    destruct (Htask YSlave I a1) as (m2 & Hm2 & E2). destruct (D m2 E2) as [D2|(k2 & L2)]; [exists m2; split; [lia|auto]|].
    destruct (Q1 m2 Hm2) as [(i & Hi & Di)|N1]; [exists i; split; [lia|auto]|].
    destruct (G1 m2 k2 L2) as [(i & Hi & Di)|(a2 & Ha2 & Q2)]; [exists i; split; [lia|auto]|].
    destruct (Htask YSlave I a2) as (m3 & Hm3 & E3). destruct (D m3 E3) as [D3|(k3 & L3)]; [exists m3; split; [lia|auto]|].
    destruct (Q1 m3 ltac:(lia)) as [(i & Hi & Di)|N2]; [exists i; split; [lia|auto]|].
    destruct (Q2 m3 ltac:(lia)) as [(i & Hi & Di)|N3]; [exists i; split; [lia|auto]|]. exfalso.
    assert (k1 <> k2) by (intros ->; rewrite (NL _ N1) in L2; discriminate).
    assert (k3 <> k1) by (intros ->; rewrite (NL _ N2) in L3; discriminate).
    assert (k3 <> k2) by (intros ->; rewrite (NL _ N3) in L3; discriminate).
    destruct k1, k2, k3; congruence.
Qed.
End Ax.
