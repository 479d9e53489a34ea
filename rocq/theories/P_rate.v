(** Proofs for C75. *)
From Coq Require Import ZArith Lia List Bool.
From Coq Require Import ZifyBool ZifyNat.
From Verif Require Import Py M_stream S_stream M_axisframe M_axis S_axis S_axisrun P_axisframe P_axis P_axischan P_axislive P_axislink S_rate.
Import ListNotations.
Open Scope Z_scope.

Lemma count_cons f e l : count f (e :: l) = (Nat.b2n (f e) + count f l)%nat.
Proof. unfold count. cbn. now destruct (f e). Qed.

Section S.
Context {A : Type}.
Definition src_inv (s : src A) : Prop := match s_task s with TDead => False | TSleep => s_q s = [] /\ s_valid s = false | TEdge => True end.
Definition snk_inv (hr : bool) (k : snk A) (some every : bool) : Prop :=
  k_limit k <= 0 /\ (k_pause k = true -> some = true) /\ (every = true -> k_pause k = true) /\
  match k_task k with
  | KDead => False
  | KEdge _ ps => (ps = true -> some = true) /\ (every = true -> ps = true)
  | KSleep => hr = true -> k_ready k = negb (k_pause k)
  | _ => True
  end.
Lemma st_nofull n (q : list A) : n <= 0 -> st_full n q = false.
Proof. intros H. unfold st_full. destruct (0 <? n) eqn:E; auto. lia. Qed.

Lemma src_edge_inv hr s r : src_inv s -> src_inv (src_edge hr s r).
Proof.
  unfold src_inv, src_edge. destruct (s_task s) eqn:E; [tauto| |now rewrite E]. intros _. destruct (_ || _); [|now rewrite E]. destruct (s_q s); cbn; auto. destruct (negb (s_pause s)); cbn; auto.
Qed.
Lemma src_op_inv hr s o : match o with SReset _ => False | _ => True end -> src_inv s -> src_inv (src_step hr s o).
Proof.
  intros Ho H. destruct o as [x|b|n| |b|r]; cbn [src_step]; try tauto; try now apply src_edge_inv.
  - destruct (src_full s); auto. unfold src_inv in *. cbn. now destruct (s_task s).
  - unfold src_inv in *. cbn. destruct (s_task s); auto. tauto.
Qed.
Lemma src_edge_valid hr s r : src_inv s -> s_pause s = false -> (match s_q s with [] => s_valid s && negb (negb hr || r) | _ => true end) = true -> s_valid (src_edge hr s r) = true.
Proof.
  unfold src_inv, src_edge. intros Hi Hp Hm. destruct (s_task s).
  - tauto.
  - rewrite Hp. destruct (s_valid s) eqn:Ev; destruct (negb hr || r) eqn:Er; cbn; destruct (s_q s); cbn in *; auto; discriminate.
  - destruct Hi as [E0 E]. rewrite E0, E in Hm. discriminate.
Qed.

Lemma snk_edge_inv hr k v (d : A) some every : snk_inv hr k some every ->
  snk_inv hr (snk_edge hr k v d) (k_pause k) (k_pause k) /\ k_pause (snk_edge hr k v d) = k_pause k /\
  (hr = true -> some = false -> k_ready (snk_edge hr k v d) = true) /\ (hr = true -> every = true -> k_ready (snk_edge hr k v d) = false).
Proof.
  intros (Hl & Hs & He & Ht). unfold snk_edge, snk_run. cbn [k_task k_q k_ready k_pause k_limit k_wake].
  assert (W : forall ps null t, t = KEdge null ps -> (ps = true -> some = true) -> (every = true -> ps = true) ->
    let ready_sample := negb hr || k_ready k in
    let q := if ready_sample && v then k_q k ++ [d] else k_q k in
    let paused := st_full (k_limit k) q || ps in
    let sleep := if hr then (negb v || paused) && Bool.eqb ps (k_pause k) else negb v in
    let k' := {| k_q := q; k_pause := k_pause k; k_limit := k_limit k; k_wake := if sleep then false else k_wake k;
         k_task := if sleep then (if null then KWoken null else KSleep) else KEdge null (k_pause k); k_ready := if hr then negb paused else k_ready k |} in
    snk_inv hr k' (k_pause k) (k_pause k) /\ k_pause k' = k_pause k /\ (hr = true -> some = false -> k_ready k' = true) /\ (hr = true -> every = true -> k_ready k' = false)).
  { intros ps null t _ H1 H2. cbv zeta. rewrite st_nofull by auto. cbn [orb]. unfold snk_inv. cbn [k_task k_q k_ready k_pause k_limit k_wake]. split; [|split; [|split]]; auto.
    - repeat split; auto. destruct (if hr then _ else _) eqn:Es; [|cbn; auto]. destruct null; cbn; auto. intros ->. apply andb_prop in Es as [_ Es]. apply eqb_prop in Es. now rewrite Es.
    - intros -> Hf. destruct ps; auto. specialize (H1 eq_refl). congruence.
    - intros -> Hf. now rewrite H2. }
  destruct (k_task k) as [| |null|null ps|] eqn:Et.
  - destruct Ht.
  - now apply (W (k_pause k) (k_wake k) _ eq_refl).
  - now apply (W (k_pause k) null _ eq_refl).
  - now apply (W ps null _ eq_refl).
  - unfold snk_inv. cbn [k_task k_q k_ready k_pause k_limit k_wake]. repeat split; auto.
    + intros Hh Hf. rewrite (Ht Hh). destruct (k_pause k); auto. specialize (Hs eq_refl). congruence.
    + intros Hh Hf. rewrite (Ht Hh). now rewrite He.
Qed.
Lemma snk_wake_inv hr (k : snk A) some every : snk_inv hr k some every -> snk_inv hr (snk_wake k) some every.
Proof. unfold snk_inv. cbn. destruct (k_task k); tauto. Qed.
Lemma snk_op_inv hr k o some every : match o with KReset _ => False | KLimit n => n <= 0 | _ => True end -> snk_inv hr k some every ->
  snk_inv hr (snk_step hr k o) (some || k_pause (snk_step hr k o)) (every && k_pause (snk_step hr k o)) /\ k_ready (snk_step hr k o) = k_ready k.
Proof.
  intros Ho H. assert (M : forall k', k_pause k' = k_pause k -> snk_inv hr k' some every -> snk_inv hr k' (some || k_pause k') (every && k_pause k')).
  { intros k' Hp (H1 & H2 & H3 & H4). unfold snk_inv. repeat split; auto.
    - intros ->. apply orb_true_r.
    - now intros [_ E]%andb_prop.
    - destruct (k_task k'); auto. destruct H4 as [H4 H5]. split; [intros E; now rewrite (H4 E)|intros [E _]%andb_prop; auto]. }
  destruct o as [b|n| | |b|]; cbn [snk_step]; try tauto.
  - destruct (Bool.eqb (k_pause k) b) eqn:Eb; cbn; split; auto.
    + apply eqb_prop in Eb. destruct k as [q p l w t r]. cbn in *. subst b. now apply M.
    + destruct H as (H1 & H2 & H3 & H4). unfold snk_inv. cbn. repeat split; auto.
      * intros ->. apply orb_true_r.
      * now intros [_ E]%andb_prop.
      * destruct (k_task k); auto. destruct H4 as [H4 H5]. split; [intros E; now rewrite (H4 E)|intros [E _]%andb_prop; auto].
  - split; [|reflexivity]. apply M; [reflexivity|]. destruct H as (_ & H). split; [exact Ho|exact H].
  - destruct (k_q k); split; auto. apply M; auto. apply snk_wake_inv. exact H.
  - split; auto.
  - split; auto. apply M; auto. destruct H as (H1 & H2 & H3 & H4). unfold snk_inv. cbn. repeat split; auto. destruct (k_task k); auto.
Qed.

Definition cinv (hr : bool) (c : chan A) (some every : bool) : Prop := src_inv (c_src c) /\ snk_inv hr (c_snk c) some every.
Lemma op_offered dflt hr c o some every : plain o -> o <> CClk -> cinv hr c some every ->
  let c' := chan_step dflt hr c o in
  cinv hr c' (some || k_pause (c_snk c')) (every && k_pause (c_snk c')) /\ s_valid (c_src c') = s_valid (c_src c) /\ k_ready (c_snk c') = k_ready (c_snk c).
Proof.
  intros Hp Hc [H1 H2]. cbv zeta.
  assert (M : snk_inv hr (c_snk c) (some || k_pause (c_snk c)) (every && k_pause (c_snk c))).
  { destruct H2 as (A1 & A2 & A3 & A4). unfold snk_inv. repeat split; auto.
    - intros ->. apply orb_true_r.
    - now intros [_ E]%andb_prop.
    - destruct (k_task (c_snk c)); auto. destruct A4 as [H4 H5]. split; [intros E; now rewrite (H4 E)|intros [E _]%andb_prop; auto]. }
  destruct o as [o|o|]; [| |congruence].
  - destruct (match o with SEdge _ => true | _ => false end) eqn:Eo.
    + destruct o; try discriminate. cbn. split; auto. split; auto.
    + assert (E : chan_step dflt hr c (CSrc o) = {| c_src := src_step hr (c_src c) o; c_snk := c_snk c |}) by (destruct o; try discriminate; reflexivity).
      rewrite E. cbn [c_src c_snk]. split; [split; [apply src_op_inv; [destruct o; cbn in *; tauto|exact H1]|exact M]|]. split; [|reflexivity]. destruct o as [x|b|n| |b|r]; cbn in *; auto; try tauto; try discriminate. now destruct (src_full (c_src c)).
  - cbn [chan_step c_src c_snk]. destruct (snk_op_inv hr (c_snk c) o some every) as [I1 I2]; [destruct o; cbn in *; tauto|exact H2|]. split; [split; [exact H1|exact I1]|]. split; [reflexivity|exact I2].
Qed.
Lemma clk_facts dflt hr c some every : cinv hr c some every ->
  let c' := chan_step dflt hr c CClk in
  cinv hr c' (k_pause (c_snk c')) (k_pause (c_snk c')) /\
  s_valid (c_src c') = s_valid (src_edge hr (c_src c) (k_ready (c_snk c))) /\
  (hr = true -> some = false -> k_ready (c_snk c') = true) /\ (hr = true -> every = true -> k_ready (c_snk c') = false).
Proof.
  intros [H1 H2]. cbv zeta. cbn [chan_step]. set (v := s_valid (c_src c)). set (d := match s_data (c_src c) with Some d => d | None => dflt end).
  destruct (snk_edge_inv hr (c_snk c) v d some every H2) as (I1 & I2 & I3 & I4). pose proof (src_edge_inv hr (c_src c) (k_ready (c_snk c)) H1) as S1.
  unfold settle. destruct (_ || _); cbn [c_src c_snk].
  - cbn [k_pause k_ready snk_wake]. rewrite I2. split; [split; auto; now apply snk_wake_inv|]. auto.
  - rewrite I2. split; [split; auto|]. auto.
Qed.

Lemma run_open dflt hr h : forall c some every, Forall plain h -> cinv hr c some every ->
  (count open_edge (notes dflt hr c some every h) + Nat.b2n (offered hr c) <= count nt_xfer (notes dflt hr c some every h) + Nat.b2n (offered hr (chan_end dflt hr c h)))%nat.
Proof.
  induction h as [|o h IH]; intros c some every HF Hc; [cbn; lia|]. inversion HF as [|? ? Ho HF']; subst. unfold chan_end in *. cbn [notes fold_left].
  destruct (match o with CClk => true | _ => false end) eqn:Eo.
  - destruct o; try discriminate. destruct (clk_facts dflt hr c some every Hc) as (I1 & I2 & I3 & I4). specialize (IH _ _ _ HF' I1). cbv zeta in *.
    rewrite !count_cons. cbn [nt_xfer]. set (c' := chan_step dflt hr c CClk) in *.
    assert (X : (Nat.b2n (open_edge {| nt_xfer := offered hr c; nt_srcp := s_pause (c_src c); nt_snkp := some; nt_snkpp := every; nt_more := more hr c |}) <= Nat.b2n (offered hr c'))%nat).
    { unfold open_edge. cbn [nt_more nt_srcp nt_snkp]. destruct (more hr c && negb (s_pause (c_src c)) && negb some) eqn:E; [|cbn; lia]. apply andb_prop in E as [E E3]. apply andb_prop in E as [E1 E2].
      apply negb_true_iff in E2, E3. destruct Hc as [Hs _]. pose proof (src_edge_valid hr (c_src c) (k_ready (c_snk c)) Hs E2 E1) as V.
      unfold offered. rewrite I2, V. destruct hr; cbn [negb orb andb]; [rewrite (I3 eq_refl E3)|]; cbn; lia. }
    lia.
  - destruct (op_offered dflt hr c o some every Ho ltac:(intros ->; discriminate) Hc) as (I1 & I2 & I3). specialize (IH _ _ _ HF' I1). cbv zeta in *.
    assert (E : offered hr (chan_step dflt hr c o) = offered hr c) by (unfold offered; now rewrite I2, I3). rewrite E in IH. destruct o; try discriminate; exact IH.
Qed.
Lemma run_src dflt hr h : forall c some every, Forall plain h -> cinv hr c some every ->
  (count nt_xfer (notes dflt hr c some every h) + Nat.b2n (s_valid (c_src (chan_end dflt hr c h))) <= count (fun e => negb (nt_srcp e)) (notes dflt hr c some every h) + Nat.b2n (s_valid (c_src c)))%nat.
Proof.
  induction h as [|o h IH]; intros c some every HF Hc; [cbn; lia|]. inversion HF as [|? ? Ho HF']; subst. unfold chan_end in *. cbn [notes fold_left].
  destruct (match o with CClk => true | _ => false end) eqn:Eo.
  - destruct o; try discriminate. destruct (clk_facts dflt hr c some every Hc) as (I1 & I2 & _). specialize (IH _ _ _ HF' I1). cbv zeta in *.
    rewrite !count_cons. cbn [nt_xfer nt_srcp]. set (c' := chan_step dflt hr c CClk) in *.
    assert (X : (Nat.b2n (offered hr c) + Nat.b2n (s_valid (c_src c')) <= Nat.b2n (negb (s_pause (c_src c))) + Nat.b2n (s_valid (c_src c)))%nat).
    { rewrite I2. unfold offered, src_edge. destruct Hc as [Hs _]. unfold src_inv in Hs. destruct (s_task (c_src c)); [tauto| |].
      - destruct (s_valid (c_src c)) eqn:Ev; destruct (negb hr || k_ready (c_snk c)) eqn:Er; cbn; destruct (s_q (c_src c)); cbn; destruct (s_pause (c_src c)); cbn; rewrite ?Ev; cbn; lia.
      - destruct Hs as [_ ->]. cbn. lia. }
    lia.
  - destruct (op_offered dflt hr c o some every Ho ltac:(intros ->; discriminate) Hc) as (I1 & I2 & I3). specialize (IH _ _ _ HF' I1). cbv zeta in *. rewrite I2 in IH. destruct o; try discriminate; exact IH.
Qed.
Lemma run_snk dflt h : forall c some every, Forall plain h -> cinv true c some every ->
  (count nt_xfer (notes dflt true c some every h) + Nat.b2n (k_ready (c_snk (chan_end dflt true c h))) <= count (fun e => negb (nt_snkpp e)) (notes dflt true c some every h) + Nat.b2n (k_ready (c_snk c)))%nat.
Proof.
  induction h as [|o h IH]; intros c some every HF Hc; [cbn; lia|]. inversion HF as [|? ? Ho HF']; subst. unfold chan_end in *. cbn [notes fold_left].
  destruct (match o with CClk => true | _ => false end) eqn:Eo.
  - destruct o; try discriminate. destruct (clk_facts dflt true c some every Hc) as (I1 & I2 & I3 & I4). specialize (IH _ _ _ HF' I1). cbv zeta in *.
    rewrite !count_cons. cbn [nt_xfer nt_snkpp]. set (c' := chan_step dflt true c CClk) in *.
    assert (X : (Nat.b2n (k_ready (c_snk c')) <= Nat.b2n (negb every))%nat) by (destruct every; [rewrite I4; auto|destruct (k_ready (c_snk c')); cbn; lia]).
    unfold offered. cbn [negb orb]. destruct (s_valid (c_src c)), (k_ready (c_snk c)); cbn [andb Nat.b2n] in *; lia.
  - destruct (op_offered dflt true c o some every Ho ltac:(intros ->; discriminate) Hc) as (I1 & I2 & I3). specialize (IH _ _ _ HF' I1). cbv zeta in *. rewrite I3 in IH. destruct o; try discriminate; exact IH.
Qed.
Lemma init_cinv hr limit : limit <= 0 -> cinv hr (chan_init (A := A) limit) false false.
Proof. intros H. split; [exact I|]. unfold snk_inv. cbn. repeat split; auto; discriminate. Qed.
Lemma run_cinv dflt hr h : forall c some every, Forall plain h -> cinv hr c some every -> exists some' every', cinv hr (chan_end dflt hr c h) some' every'.
Proof.
  induction h as [|o h IH]; intros c some every HF Hc; [cbn; eauto|]. inversion HF as [|? ? Ho HF']; subst. unfold chan_end in *. cbn [fold_left].
  destruct (match o with CClk => true | _ => false end) eqn:Eo.
  - destruct o; try discriminate. destruct (clk_facts dflt hr c some every Hc) as (I1 & _). eapply IH; eauto.
  - destruct (op_offered dflt hr c o some every Ho ltac:(intros ->; discriminate) Hc) as (I1 & _). eapply IH; eauto.
Qed.
End S.

(** full speed *)
Section F.
Context {A : Type}.
Lemma speed (dflt : A) hr : forall q c, s_q (c_src c) = q -> s_task (c_src c) = TEdge -> s_pause (c_src c) = false -> k_pause (c_snk c) = false ->
  cinv hr c false false -> offered hr c = true -> count nt_xfer (notes dflt hr c false false (repeat CClk (S (length q)))) = S (length q).
Proof.
  induction q as [|x q IH]; intros c Hq Ht Hp Hk Hc Ho; match goal with |- context [repeat CClk (S ?n)] => change (repeat (@CClk A) (S n)) with (@CClk A :: repeat CClk n) end; cbn [notes]; rewrite count_cons; cbn [nt_xfer]; rewrite Ho; cbn [Nat.b2n]; [reflexivity|].
  destruct (clk_facts dflt hr c false false Hc) as (I1 & I2 & I3 & _). cbv zeta in I1, I2, I3. set (c' := chan_step dflt hr c CClk) in *.
  assert (Ek : k_pause (c_snk c') = false).
  { destruct (snk_edge_inv hr (c_snk c) (s_valid (c_src c)) (match s_data (c_src c) with Some d => d | None => dflt end) false false (proj2 Hc)) as (_ & E & _). rewrite <- Hk, <- E.
    unfold c'. cbn [chan_step]. unfold settle. destruct (_ || _); reflexivity. }
  assert (Es : c_src c' = src_edge hr (c_src c) (k_ready (c_snk c))) by (unfold c'; cbn [chan_step]; unfold settle; destruct (_ || _); reflexivity).
  assert (EE : s_q (c_src c') = q /\ s_task (c_src c') = TEdge /\ s_pause (c_src c') = false /\ s_valid (c_src c') = true).
  { rewrite Es. unfold src_edge. rewrite Ht. apply andb_prop in Ho as [-> ->]. cbn [andb orb]. rewrite Hq, Hp. cbn. auto. }
  destruct EE as (E1 & E2 & E3 & E4). rewrite Ek in *. cbn [length]. rewrite (IH c' E1 E2 E3 Ek I1); [reflexivity|].
  unfold offered. rewrite E4. destruct hr; [rewrite I3; auto|reflexivity].
Qed.
Lemma sends_run (dflt : A) hr l : forall c, src_full (c_src c) = false -> s_limit (c_src c) <= 0 -> s_task (c_src c) = TEdge -> k_pause (c_snk c) = false -> forall h,
  exists c', notes dflt hr c false false (map (fun x => CSrc (SSend x)) l ++ h) = notes dflt hr c' false false h /\ s_q (c_src c') = s_q (c_src c) ++ l /\
    s_task (c_src c') = TEdge /\ s_pause (c_src c') = s_pause (c_src c) /\ c_snk c' = c_snk c /\ s_valid (c_src c') = s_valid (c_src c).
Proof.
  induction l as [|x l IH]; intros c Hf Hl Ht Hk h.
  - exists c. cbn. rewrite app_nil_r. auto 8.
  - cbn [map app notes]. set (c1 := chan_step dflt hr c (CSrc (SSend x))).
    assert (E : c1 = {| c_src := src_step hr (c_src c) (SSend x); c_snk := c_snk c |}) by reflexivity. cbn [src_step] in E. rewrite Hf in E.
    destruct (IH c1) with (h := h) as (c' & H1 & H2 & H3 & H4 & H5 & H6); try (rewrite E; cbn).
    + unfold src_full, st_full. cbn. assert ((0 <? s_limit (c_src c)) = false) as -> by lia. reflexivity.
    + exact Hl.
    + now rewrite Ht.
    + exact Hk.
    + exists c'. rewrite E in H2, H4, H5, H6. cbn in H2, H4, H5, H6. rewrite <- app_assoc in H2. cbn in H2. split; [|auto 8]. rewrite <- H1. rewrite E. cbn [c_snk]. now rewrite Hk.
Qed.
Lemma full_speed (dflt : A) hr limit l : limit <= 0 ->
  count nt_xfer (notes dflt hr (chan_init limit) false false (map (fun x => CSrc (SSend x)) l ++ repeat CClk (S (length l)))) = length l.
Proof.
  intros Hl. destruct (sends_run dflt hr l (chan_init limit) eq_refl) with (h := repeat (CClk (A := A)) (S (length l))) as (c & E & H2 & H3 & H4 & H5 & H6); try reflexivity; [discriminate|].
  rewrite E. cbn in H2, H4, H5, H6. assert (Hc : cinv hr c false false).
  { split; [unfold src_inv; now rewrite H3|]. rewrite H5. apply (init_cinv hr limit Hl). }
  change (repeat (@CClk A) (S (length l))) with (@CClk A :: repeat CClk (length l)). cbn [notes]. rewrite count_cons. cbn [nt_xfer]. assert (Eo : offered hr c = false) by (unfold offered; now rewrite H6). rewrite Eo. cbn [Nat.b2n].
  destruct (clk_facts dflt hr c false false Hc) as (I1 & I2 & I3 & _). cbv zeta in I1, I2, I3. set (c' := chan_step dflt hr c CClk) in *.
  assert (Ek : k_pause (c_snk c') = false).
  { destruct (snk_edge_inv hr (c_snk c) (s_valid (c_src c)) (match s_data (c_src c) with Some d => d | None => dflt end) false false (proj2 Hc)) as (_ & E' & _).
    transitivity (k_pause (c_snk c)); [rewrite <- E'|now rewrite H5]. unfold c'. cbn [chan_step]. unfold settle. destruct (_ || _); reflexivity. }
  assert (Es : c_src c' = src_edge hr (c_src c) (k_ready (c_snk c))) by (unfold c'; cbn [chan_step]; unfold settle; destruct (_ || _); reflexivity).
  destruct l as [|x l]; [reflexivity|]. rewrite Ek in *.
  assert (EE : s_q (c_src c') = l /\ s_task (c_src c') = TEdge /\ s_pause (c_src c') = false /\ s_valid (c_src c') = true).
  { rewrite Es. unfold src_edge. rewrite H3, H6, andb_false_r. cbn [orb negb]. rewrite H2, H4. cbn. auto. }
  destruct EE as (E1 & E2 & E3 & E4). cbn [length]. rewrite (speed dflt hr l c' E1 E2 E3 Ek I1); [lia|].
  unfold offered. rewrite E4. destruct hr; [rewrite I3; auto|reflexivity].
Qed.
End F.

(** ** AXI stream *)
Section X.
Variable c : scfg.
Hypothesis Hc : cfg_ok c.
Definition asnk_inv (k : asnk) (some every : bool) : Prop :=
  z_limb k <= 0 /\ z_limf k <= 0 /\ (z_pause k = true -> some = true) /\ (every = true -> z_pause k = true) /\
  match z_task k with
  | KDead => False
  | KEdge _ ps => (ps = true -> some = true) /\ (every = true -> ps = true)
  | KSleep => x_ready c = true -> z_ready k = negb (z_pause k)
  | _ => True
  end.
Definition ainv (h : achan) (some every : bool) : Prop := (asrc_inv (ac_src h) /\ alive (ac_src h)) /\ asnk_inv (ac_snk h) some every.

Lemma aclear_inv s : asrc_inv s -> alive s -> asrc_inv (asrc_step c s AClear) /\ alive (asrc_step c s AClear).
Proof. intros (H1 & H2 & H3 & H4) [H5 H6]. split; [split; [exact H1|split; [exact H2|split; [constructor|exact H4]]]|split; [exact H5|]]. cbn. intros E. split; [reflexivity|]. now apply H6. Qed.

Lemma asrc_edge_valid s r : asrc_inv s -> alive s -> a_pause s = false ->
  ((a_valid s && negb (negb (x_ready c) || r)) || ftrue (a_cur s) || match a_q s with (_, f) :: _ => 0 <? zlen (f_data f) | [] => false end) = true -> a_valid (asrc_edge c s r) = true.
Proof.
  intros (Hv & Hcur & Hq & Ha) [Hd Hl] Hp Hm. unfold asrc_edge. destruct (a_task s) eqn:Et; [congruence| |].
  - destruct ((negb (x_ready c) || r) && a_valid s || negb (a_valid s)) eqn:Eg.
    + assert (E0 : a_valid s && negb (negb (x_ready c) || r) = false) by (destruct (a_valid s), (negb (x_ready c) || r); auto; discriminate). rewrite E0 in Hm. cbn [orb] in Hm.
      assert (HF : exists s1 t g fo, asrc_fetch s = Ok s1 /\ a_cur s1 = Some ((t, g), fo) /\ (0 <? zlen (f_data g)) = true /\ a_pause s1 = false).
      { unfold asrc_fetch. destruct (ftrue (a_cur s)) eqn:Ef.
        - exists s. unfold ftrue in Ef. destruct (a_cur s) as [[[t g] fo]|] eqn:Ec; [|discriminate]. exists t, g, fo. auto.
        - cbn [orb] in Hm. destruct (a_q s) as [|[t f] q]; [discriminate|]. inversion Hq as [|? ? [g Hg] _]; subst. cbn [snd] in Hg. rewrite Hg. cbn [bind]. eexists _, t, g, 0. split; [reflexivity|]. cbn.
          rewrite (norm_data f g Hg). auto. }
      destruct HF as (s1 & t & g & fo & -> & -> & -> & ->). cbn. unfold asrc_drive. destruct (drive_beat c g fo) as [[b fo'] fin]. reflexivity.
    + destruct (a_valid s); auto. now rewrite orb_true_r in Eg.
  - destruct (Hl eq_refl) as [E1 E2]. destruct (Ha E2) as [E3 E4]. rewrite E1, E3, E4 in Hm. discriminate.
Qed.
Lemma asrc_edge_bound s r : asrc_inv s ->
  (Nat.b2n (a_valid s && (negb (x_ready c) || r)) + Nat.b2n (a_valid (asrc_edge c s r)) <= Nat.b2n (negb (a_pause s)) + Nat.b2n (a_valid s))%nat.
Proof.
  intros (Hv & Hcur & Hq & Ha). unfold asrc_edge. destruct (a_task s) eqn:Et; try (destruct (a_valid s) eqn:E; [specialize (Hv eq_refl); discriminate|cbn; lia]).
  destruct (a_valid s) eqn:Ev, (negb (x_ready c) || r) eqn:Er; cbn [andb orb negb]; rewrite ?Ev; try (cbn; lia);
  (destruct (fetch_spec c s Hcur Hq) as (s1 & -> & _ & _ & _ & _ & Ep & _);
   destruct (a_cur s1) as [[[t g] fo]|]; [|cbn; lia]; rewrite Ep; destruct (a_pause s); cbn [negb]; rewrite ?andb_false_r; [cbn; lia|]; destruct (_ && true); cbn; [destruct (asrc_drive c s1 t g fo) as [? ? ? ? ? ? ? ? ? ? ? ? v]; destruct v; cbn|]; lia).
Qed.

Lemma asnk_edge_inv k v b some every : asnk_inv k some every ->
  asnk_inv (asnk_edge c k v b) (z_pause k) (z_pause k) /\ z_pause (asnk_edge c k v b) = z_pause k /\
  (x_ready c = true -> some = false -> z_ready (asnk_edge c k v b) = true) /\ (x_ready c = true -> every = true -> z_ready (asnk_edge c k v b) = false).
Proof.
  intros (Hl & Hl2 & Hs & He & Ht). unfold asnk_edge, asnk_run. cbn [z_q z_part z_readq z_occb z_occf z_limb z_limf z_pause z_wake z_task z_ready].
  assert (W : forall (ps null : bool) (part : option frame), (ps = true -> some = true) -> (every = true -> ps = true) ->
    let ready_sample := negb (x_ready c) || z_ready k in
    let k' := let '(part, fs) := if ready_sample && v then rx_beat c part b else (part, []) in
      let occb := z_occb k + bytes_of fs in
      let occf := z_occf k + zlen fs in
      let paused := occ_full (z_limb k) (z_limf k) occb occf || ps in
      let sleep := if x_ready c then (negb v || paused) && Bool.eqb ps (z_pause k) else negb v in
      {| z_q := z_q k ++ fs; z_part := part; z_readq := z_readq k; z_occb := occb; z_occf := occf; z_limb := z_limb k; z_limf := z_limf k;
         z_pause := z_pause k; z_wake := if sleep then false else z_wake k;
         z_task := if sleep then (if null then KWoken null else KSleep) else KEdge null (z_pause k);
         z_ready := if x_ready c then negb paused else z_ready k |} in
    asnk_inv k' (z_pause k) (z_pause k) /\ z_pause k' = z_pause k /\ (x_ready c = true -> some = false -> z_ready k' = true) /\ (x_ready c = true -> every = true -> z_ready k' = false)).
  { intros ps null part H1 H2. cbv zeta. destruct (if _ && v then _ else _) as [p fs]. rewrite (nofull (z_limb k) (z_limf k)) by auto. cbn [orb]. unfold asnk_inv.
    cbn [z_q z_part z_readq z_occb z_occf z_limb z_limf z_pause z_wake z_task z_ready]. split; [|split; [|split]].
    - repeat split; auto. destruct (if x_ready c then _ else _) eqn:Es; [|cbn; auto]. destruct null; cbn; auto. intros Hr. rewrite Hr in *. apply andb_prop in Es as [_ Es]. apply eqb_prop in Es. now rewrite Es.
    - reflexivity.
    - intros -> Hf. destruct ps; auto. specialize (H1 eq_refl). congruence.
    - intros -> Hf. now rewrite H2. }
  destruct (z_task k) as [| |null|null ps|] eqn:Et.
  - destruct Ht.
  - now apply (W (z_pause k) (z_wake k) None).
  - now apply (W (z_pause k) null (z_part k)).
  - now apply (W ps null (z_part k)).
  - unfold asnk_inv. cbn [z_q z_part z_readq z_occb z_occf z_limb z_limf z_pause z_wake z_task z_ready]. repeat split; auto.
    + intros Hh Hf. rewrite (Ht Hh). destruct (z_pause k); auto. specialize (Hs eq_refl). congruence.
    + intros Hh Hf. rewrite (Ht Hh). now rewrite He.
Qed.
Lemma asnk_wake_inv k some every : asnk_inv k some every -> asnk_inv (asnk_wake k) some every.
Proof. unfold asnk_inv. cbn. destruct (z_task k); tauto. Qed.
Lemma asnk_keep k some every p : asnk_inv k some every -> p = z_pause k -> asnk_inv k (some || p) (every && p).
Proof.
  intros (H1 & H1' & H2 & H3 & H4) ->. unfold asnk_inv. repeat split; auto.
  - intros ->. apply orb_true_r.
  - now intros [_ E]%andb_prop.
  - destruct (z_task k); auto. destruct H4 as [H4 H5]. split; [intros E; now rewrite (H4 E)|intros [E _]%andb_prop; auto].
Qed.
Lemma asnk_op_inv k o some every : match o with ZReset _ => False | ZLimits lb lf => lb <= 0 /\ lf <= 0 | _ => True end -> asnk_inv k some every ->
  asnk_inv (asnk_step c k o) (some || z_pause (asnk_step c k o)) (every && z_pause (asnk_step c k o)) /\ z_ready (asnk_step c k o) = z_ready k.
Proof.
  intros Ho H. destruct o as [b|lb lf|r| |b|]; cbn [asnk_step]; try tauto.
  - destruct (Bool.eqb (z_pause k) b) eqn:Eb; cbn; (split; [|reflexivity]).
    + apply eqb_prop in Eb. destruct k as [q pt rq ob of lb lf p w t r]. cbn in *. subst b. now apply asnk_keep.
    + destruct H as (H1 & H1' & H2 & H3 & H4). unfold asnk_inv. cbn. repeat split; auto.
      * intros ->. apply orb_true_r.
      * now intros [_ E]%andb_prop.
      * destruct (z_task k); auto. destruct H4 as [H4 H5]. split; [intros E; now rewrite (H4 E)|intros [E _]%andb_prop; auto].
  - split; [|reflexivity]. apply asnk_keep; [|reflexivity]. destruct H as (_ & _ & H). destruct Ho. split; [auto|split; [auto|exact H]].
  - assert (E : asnk_inv (fst (asnk_recv k r)) some every /\ z_ready (fst (asnk_recv k r)) = z_ready k).
    { unfold asnk_recv. destruct r as [cp| |n]; destruct (z_q k) as [|f q]; try (destruct (read_all _ _ _)); try destruct (z_readq k); cbn [fst]; (split; [|reflexivity]); try exact H; apply asnk_wake_inv; exact H. }
    destruct E as [E1 E2]. split; [now apply asnk_keep|exact E2].
  - split; [|reflexivity]. now apply asnk_keep.
  - split; [|reflexivity]. apply asnk_keep; [|reflexivity]. destruct H as (H1 & H1' & H2 & H3 & H4). unfold asnk_inv. cbn. repeat split; auto. destruct (z_task k); auto.
Qed.

Lemma aop_offered h o some every : aplain o -> o <> ACClk -> ainv h some every ->
  let h' := achan_step c h o in
  ainv h' (some || z_pause (ac_snk h')) (every && z_pause (ac_snk h')) /\ a_valid (ac_src h') = a_valid (ac_src h) /\ z_ready (ac_snk h') = z_ready (ac_snk h).
Proof.
  intros Hp Hn [[H1 H1'] H2]. cbv zeta. pose proof (asnk_keep _ _ _ (z_pause (ac_snk h)) H2 eq_refl) as M. destruct o as [o|o|]; [| |congruence].
  - destruct (match o with AEdge _ => true | _ => false end) eqn:Eo.
    + destruct o; try discriminate. cbn. split; [split; [split|]; auto|]. auto.
    + assert (E : achan_step c h (ACSrc o) = {| ac_src := asrc_step c (ac_src h) o; ac_snk := ac_snk h |}) by (destruct o; try discriminate; reflexivity).
      rewrite E. cbn [ac_src ac_snk]. split; [split; [|exact M]|split; [|reflexivity]].
      * destruct (match o with AClear => true | _ => false end) eqn:Ec; [destruct o; try discriminate; now apply aclear_inv|].
        assert (Q : aquiet o = true) by (destruct o as [| | | |[]|]; cbn in *; try tauto; try discriminate; auto).
        assert (N : op_norm o) by (destruct o; cbn in *; auto). split; [now apply asrc_step_inv|now apply alive_step].
      * destruct o as [t f|b|lb lf| |[]|r]; cbn in *; auto; try tauto; try discriminate. now destruct (asrc_full (ac_src h)).
  - cbn [achan_step ac_src ac_snk]. destruct (asnk_op_inv (ac_snk h) o some every) as [I1 I2]; [destruct o; cbn in *; tauto|exact H2|]. split; [split; [split; auto|exact I1]|]. split; [reflexivity|exact I2].
Qed.
Lemma aclk_facts h some every : ainv h some every ->
  let h' := achan_step c h ACClk in
  ainv h' (z_pause (ac_snk h')) (z_pause (ac_snk h')) /\ ac_src h' = asrc_edge c (ac_src h) (z_ready (ac_snk h)) /\ z_pause (ac_snk h') = z_pause (ac_snk h) /\
  (x_ready c = true -> some = false -> z_ready (ac_snk h') = true) /\ (x_ready c = true -> every = true -> z_ready (ac_snk h') = false).
Proof.
  intros [[H1 H1'] H2]. cbv zeta. destruct (asnk_edge_inv (ac_snk h) (a_valid (ac_src h)) (a_beat (ac_src h)) some every H2) as (I1 & I2 & I3 & I4).
  pose proof (proj1 (asrc_edge_spec c Hc (ac_src h) (z_ready (ac_snk h)) H1)) as S1. pose proof (alive_edge c (ac_src h) (z_ready (ac_snk h)) H1 H1') as S2.
  cbn [achan_step]. unfold asettle. destruct (_ || _); cbn [ac_src ac_snk].
  - cbn [z_pause z_ready asnk_wake]. rewrite I2. split; [split; [split; auto|now apply asnk_wake_inv]|]. auto.
  - rewrite I2. split; [split; [split; auto|exact I1]|]. auto.
Qed.

Lemma arun_open h : forall x some every, Forall aplain h -> ainv x some every ->
  (count open_edge (anotes c x some every h) + Nat.b2n (aoffered c x) <= count nt_xfer (anotes c x some every h) + Nat.b2n (aoffered c (achan_end c x h)))%nat.
Proof.
  induction h as [|o h IH]; intros x some every HF Hx; [cbn; lia|]. inversion HF as [|? ? Ho HF']; subst. unfold achan_end in *. cbn [anotes fold_left].
  destruct (match o with ACClk => true | _ => false end) eqn:Eo.
  - destruct o; try discriminate. destruct (aclk_facts x some every Hx) as (I1 & I2 & _ & I3 & I4). specialize (IH _ _ _ HF' I1). cbv zeta in *.
    rewrite !count_cons. cbn [nt_xfer]. set (x' := achan_step c x ACClk) in *.
    assert (X : (Nat.b2n (open_edge {| nt_xfer := aoffered c x; nt_srcp := a_pause (ac_src x); nt_snkp := some; nt_snkpp := every; nt_more := amore c x |}) <= Nat.b2n (aoffered c x'))%nat).
    { unfold open_edge. cbn [nt_more nt_srcp nt_snkp]. destruct (amore c x && negb (a_pause (ac_src x)) && negb some) eqn:E; [|cbn; lia]. apply andb_prop in E as [E E3]. apply andb_prop in E as [E1 E2].
      apply negb_true_iff in E2, E3. destruct Hx as [[Hs Hs'] _]. pose proof (asrc_edge_valid (ac_src x) (z_ready (ac_snk x)) Hs Hs' E2 E1) as V.
      unfold aoffered. rewrite I2, V. destruct (x_ready c) eqn:Er; cbn [negb orb andb]; [rewrite (I3 eq_refl E3)|]; cbn; lia. }
    lia.
  - destruct (aop_offered x o some every Ho ltac:(intros ->; discriminate) Hx) as (I1 & I2 & I3). specialize (IH _ _ _ HF' I1). cbv zeta in *.
    assert (E : aoffered c (achan_step c x o) = aoffered c x) by (unfold aoffered; now rewrite I2, I3). rewrite E in IH. destruct o; try discriminate; exact IH.
Qed.
Lemma arun_src h : forall x some every, Forall aplain h -> ainv x some every ->
  (count nt_xfer (anotes c x some every h) + Nat.b2n (a_valid (ac_src (achan_end c x h))) <= count (fun e => negb (nt_srcp e)) (anotes c x some every h) + Nat.b2n (a_valid (ac_src x)))%nat.
Proof.
  induction h as [|o h IH]; intros x some every HF Hx; [cbn; lia|]. inversion HF as [|? ? Ho HF']; subst. unfold achan_end in *. cbn [anotes fold_left].
  destruct (match o with ACClk => true | _ => false end) eqn:Eo.
  - destruct o; try discriminate. destruct (aclk_facts x some every Hx) as (I1 & I2 & _). specialize (IH _ _ _ HF' I1). cbv zeta in *.
    rewrite !count_cons. cbn [nt_xfer nt_srcp]. set (x' := achan_step c x ACClk) in *.
    pose proof (asrc_edge_bound (ac_src x) (z_ready (ac_snk x)) (proj1 (proj1 Hx))) as X. rewrite <- I2 in X. unfold aoffered. lia.
  - destruct (aop_offered x o some every Ho ltac:(intros ->; discriminate) Hx) as (I1 & I2 & I3). specialize (IH _ _ _ HF' I1). cbv zeta in *. rewrite I2 in IH. destruct o; try discriminate; exact IH.
Qed.
Lemma arun_snk h : x_ready c = true -> forall x some every, Forall aplain h -> ainv x some every ->
  (count nt_xfer (anotes c x some every h) + Nat.b2n (z_ready (ac_snk (achan_end c x h))) <= count (fun e => negb (nt_snkpp e)) (anotes c x some every h) + Nat.b2n (z_ready (ac_snk x)))%nat.
Proof.
  intros Hr. induction h as [|o h IH]; intros x some every HF Hx; [cbn; lia|]. inversion HF as [|? ? Ho HF']; subst. unfold achan_end in *. cbn [anotes fold_left].
  destruct (match o with ACClk => true | _ => false end) eqn:Eo.
  - destruct o; try discriminate. destruct (aclk_facts x some every Hx) as (I1 & I2 & _ & I3 & I4). specialize (IH _ _ _ HF' I1). cbv zeta in *.
    rewrite !count_cons. cbn [nt_xfer nt_snkpp]. set (x' := achan_step c x ACClk) in *.
    assert (X : (Nat.b2n (z_ready (ac_snk x')) <= Nat.b2n (negb every))%nat) by (destruct every; [rewrite I4; auto|destruct (z_ready (ac_snk x')); cbn; lia]).
    unfold aoffered. rewrite Hr. cbn [negb orb]. destruct (a_valid (ac_src x)), (z_ready (ac_snk x)); cbn [andb Nat.b2n] in *; lia.
  - destruct (aop_offered x o some every Ho ltac:(intros ->; discriminate) Hx) as (I1 & I2 & I3). specialize (IH _ _ _ HF' I1). cbv zeta in *. rewrite I3 in IH. destruct o; try discriminate; exact IH.
Qed.
Lemma ainit_inv slb slf klb klf : klb <= 0 -> klf <= 0 -> ainv (achan_init slb slf klb klf) false false.
Proof.
  intros H1 H2. split.
  - split; [|split; cbn; discriminate]. unfold asrc_inv. cbn. auto.
  - unfold asnk_inv. cbn. repeat split; auto; discriminate.
Qed.
End X.

Section XF.
Variable c : scfg.
Hypothesis Hc : cfg_ok c.
Lemma beats_len g : forall fuel fo, 0 <= fo < zlen (f_data g) -> zlen (f_data g) - fo <= Z.of_nat fuel ->
  Z.of_nat (length (beats_from c g fuel fo)) = (zlen (f_data g) - fo + x_lanes c - 1) / x_lanes c.
Proof.
  destruct Hc as [HL _]. induction fuel as [|n IH]; intros fo H1 H2; [lia|]. cbn [beats_from].
  pose proof (drive_beat_spec c Hc g fo H1) as D. destruct (drive_beat c g fo) as [[b fo'] fin]. destruct D as (E1 & E2 & _).
  destruct fin; cbn [length].
  - apply Z.div_unique with (zlen (f_data g) - fo - 1); lia.
  - assert (fo' = fo + x_lanes c) by lia. rewrite Nat2Z.inj_succ, IH by lia.
    replace (zlen (f_data g) - fo + x_lanes c - 1) with (zlen (f_data g) - fo' + x_lanes c - 1 + 1 * x_lanes c) by lia. rewrite Z.div_add by lia. lia.
Qed.
Lemma frame_beats_len f g : normalize f = Ok g -> 0 < zlen (f_data f) -> length (frame_beats c g) = beats_of c f.
Proof.
  intros Hn Hl. pose proof (norm_data f g Hn) as E. unfold frame_beats, beats_of. rewrite <- E in *.
  pose proof (beats_len g (length (f_data g)) 0 ltac:(lia) ltac:(unfold zlen; lia)) as H. rewrite Z.sub_0_r in H. rewrite <- H. now rewrite Nat2Z.id.
Qed.
Definition full_f (x : tframe) : Prop := 0 < zlen (f_data (snd x)).
Lemma q_edge s r : asrc_inv s -> Forall full_f (a_q s) -> Forall full_f (a_q (asrc_edge c s r)) .
Proof.
  intros (Hv & Hcur & Hq & Ha) H. unfold asrc_edge. destruct (a_task s); auto. destruct (_ || _); auto.
  destruct (fetch_spec c s Hcur Hq) as (s1 & E1 & _). rewrite E1.
  assert (H1 : Forall full_f (a_q s1)).
  { revert E1. unfold asrc_fetch. destruct (ftrue (a_cur s)); [injection 1 as <-; auto|]. destruct (a_q s) as [|[t f] q] eqn:Eq; [injection 1 as <-; now rewrite Eq|].
    destruct (normalize f); [|discriminate]. injection 1 as <-. cbn. now inversion H. }
  destruct (a_cur s1) as [[[t g] fo]|]; auto. destruct (_ && _); auto. unfold asrc_drive. destruct (drive_beat c g fo) as [[b fo'] fin]. exact H1.
Qed.
Lemma more_of x : asrc_inv (ac_src x) -> Forall full_f (a_q (ac_src x)) -> pend c (ac_src x) <> [] -> amore c x = true.
Proof.
  intros (Hv & Hcur & Hq & Ha) H Hp. unfold amore. destruct (ftrue (a_cur (ac_src x))) eqn:Ef; [now rewrite orb_true_r|]. unfold pend in Hp. rewrite (rem_false c _ Hcur Ef) in Hp.
  destruct (a_q (ac_src x)) as [|[t f] q]; [exfalso; apply Hp; reflexivity|]. inversion H as [|? ? H1 _]; subst. unfold full_f in H1. cbn in H1. assert ((0 <? zlen (f_data f)) = true) as -> by lia. now rewrite orb_true_r.
Qed.
Lemma wire_len s : length (wire s) = Nat.b2n (a_valid s).
Proof. unfold wire. now destruct (a_valid s). Qed.
(** one edge of a channel that nobody pauses *)
Lemma aspeed_step x : ainv c x false false -> Forall full_f (a_q (ac_src x)) -> a_pause (ac_src x) = false -> z_pause (ac_snk x) = false -> pend c (ac_src x) <> [] -> (aoffered c x = true \/ a_valid (ac_src x) = false) ->
  let x' := achan_step c x ACClk in
  ainv c x' false false /\ Forall full_f (a_q (ac_src x')) /\ a_pause (ac_src x') = false /\ z_pause (ac_snk x') = false /\ aoffered c x' = true /\ S (length (pend c (ac_src x'))) = length (pend c (ac_src x)).
Proof.
  intros Hx Hq Hp Hk Hn Ho. cbv zeta. destruct (aclk_facts c Hc x false false Hx) as (I1 & I2 & I5 & I3 & _). cbv zeta in *. set (x' := achan_step c x ACClk) in *. rewrite I5, Hk in *.
  destruct Hx as [[Hs Hl] _]. pose proof (asrc_edge_valid c (ac_src x) (z_ready (ac_snk x)) Hs Hl Hp (more_of x Hs Hq Hn)) as V.
  destruct (asrc_edge_spec c Hc (ac_src x) (z_ready (ac_snk x)) Hs) as [_ E]. rewrite <- I2 in V, E.
  split; [exact I1|]. split; [rewrite I2; now apply q_edge|]. split; [rewrite I2, pause_edge; auto|]. split; [reflexivity|]. split.
  - unfold aoffered. rewrite V. destruct (x_ready c) eqn:Er; [now rewrite I3|reflexivity].
  - apply (f_equal (@length _)) in E. rewrite !app_length, !wire_len, V in E. unfold aoffered in Ho. destruct (a_valid (ac_src x)); cbn in *; [|lia].
    destruct Ho as [Ho|Ho]; [|discriminate]. rewrite Ho in E. cbn in E. lia.
Qed.
Lemma aspeed : forall n x, length (pend c (ac_src x)) = n -> ainv c x false false -> Forall full_f (a_q (ac_src x)) -> a_pause (ac_src x) = false -> z_pause (ac_snk x) = false -> aoffered c x = true ->
  count nt_xfer (anotes c x false false (repeat ACClk (S n))) = S n.
Proof.
  induction n as [|n IH]; intros x Hn Hx Hq Hp Hk Ho.
  - cbn [repeat anotes]. rewrite count_cons. cbn [nt_xfer]. now rewrite Ho.
  - change (repeat ACClk (S (S n))) with (ACClk :: repeat ACClk (S n)). cbn [anotes]. rewrite count_cons. cbn [nt_xfer]. rewrite Ho.
    destruct (aspeed_step x Hx Hq Hp Hk) as (H1 & H2 & H3 & H4 & H5 & H6); [intros E; rewrite E in Hn; discriminate|auto|]. rewrite H4. rewrite IH; auto. lia.
Qed.
Lemma asends_run l : forall x, a_limb (ac_src x) <= 0 -> a_limf (ac_src x) <= 0 -> z_pause (ac_snk x) = false -> ainv c x false false -> Forall (fun y => norm_ok y /\ full_f y) l -> Forall full_f (a_q (ac_src x)) -> forall h,
  exists x', anotes c x false false (map (fun y => ACSrc (ASend (fst y) (snd y))) l ++ h) = anotes c x' false false h /\ ainv c x' false false /\
    Forall full_f (a_q (ac_src x')) /\ a_pause (ac_src x') = a_pause (ac_src x) /\ z_pause (ac_snk x') = false /\ a_valid (ac_src x') = a_valid (ac_src x) /\
    length (pend c (ac_src x')) = (length (pend c (ac_src x)) + length (flat_map (nb c) l))%nat.
Proof.
  induction l as [|[t f] l IH]; intros x L1 L2 Hk Hx HF Hq h.
  - exists x. cbn. rewrite Nat.add_0_r. split; [reflexivity|]. split; [exact Hx|]. auto 8.
  - cbn [map app anotes fst snd]. inversion HF as [|? ? [HF1 HF2] HF']; subst. set (x1 := achan_step c x (ACSrc (ASend t f))).
    destruct (aop_offered c Hc x (ACSrc (ASend t f)) false false HF1 ltac:(discriminate) Hx) as (I1 & I2 & I3). cbv zeta in *. fold x1 in I1, I2, I3.
    assert (E : x1 = {| ac_src := asrc_step c (ac_src x) (ASend t f); ac_snk := ac_snk x |}) by reflexivity. cbn [asrc_step] in E.
    assert (Ef : asrc_full (ac_src x) = false) by (unfold asrc_full; now apply nofull). rewrite Ef in E. assert (Ek : z_pause (ac_snk x1) = false) by (rewrite E; exact Hk). rewrite Ek in *. cbn [orb andb] in *.
    destruct (IH x1) with (h := h) as (x' & J1 & J2 & J3 & J4 & J5 & J6 & J7); auto; try (rewrite E; cbn; auto).
    + apply Forall_app. split; auto.
    + exists x'. split; [rewrite <- E; exact J1|]. split; [exact J2|]. split; [exact J3|]. split; [rewrite J4, E; reflexivity|]. split; [exact J5|]. split; [congruence|]. rewrite J7, E. unfold pend. cbn [a_cur a_q ac_src].
      rewrite flat_map_app, !app_length. cbn [flat_map]. rewrite !app_length. cbn [length]. lia.
Qed.
Lemma nb_len l : Forall (fun y => norm_ok y /\ full_f y) l -> length (flat_map (nb c) l) = list_sum (map (fun y => beats_of c (snd y)) l).
Proof.
  induction 1 as [|[t f] l [[g Hg] Hf] _ IH]; [reflexivity|]. cbn [flat_map map]. rewrite app_length, IH. unfold nb at 1. cbn [snd] in *. rewrite Hg.
  now rewrite (frame_beats_len f g Hg Hf).
Qed.
Lemma afull_speed slb slf klb klf l : slb <= 0 -> slf <= 0 -> klb <= 0 -> klf <= 0 -> Forall (fun y => norm_ok y /\ full_f y) l ->
  let n := list_sum (map (fun y => beats_of c (snd y)) l) in
  count nt_xfer (anotes c (achan_init slb slf klb klf) false false (map (fun y => ACSrc (ASend (fst y) (snd y))) l ++ repeat ACClk (S n))) = n.
Proof.
  intros L1 L2 L3 L4 HF. cbv zeta. rewrite <- (nb_len l HF). set (n := length (flat_map (nb c) l)).
  destruct (asends_run l (achan_init slb slf klb klf)) with (h := repeat ACClk (S n)) as (x & E & J2 & J3 & J4 & J5 & J6 & J7); auto.
  { now apply ainit_inv. } { constructor. }
  rewrite E. cbn in J4, J6, J7. fold n in J7. change (repeat ACClk (S n)) with (ACClk :: repeat ACClk n). cbn [anotes]. rewrite count_cons. cbn [nt_xfer]. assert (Eo : aoffered c x = false) by (unfold aoffered; now rewrite J6).
  rewrite Eo. cbn [Nat.b2n]. destruct n as [|n']; [reflexivity|].
  destruct (aspeed_step x J2 J3 J4 J5) as (H1 & H2 & H3 & H4 & H5 & H6); [intros X; rewrite X in J7; discriminate|auto|]. rewrite H4. rewrite (aspeed n'); auto. lia.
Qed.
End XF.

(** ** one edge and the next *)
Section N.
Context {A : Type}.
Lemma first_note (dflt : A) hr h : forall c some every e l, Forall plain h -> cinv hr c some every -> notes dflt hr c some every h = e :: l -> nt_xfer e = offered hr c.
Proof.
  induction h as [|o h IH]; intros c some every e l HF Hc E; [discriminate|]. inversion HF as [|? ? Ho HF']; subst. cbn [notes] in E.
  destruct (match o with CClk => true | _ => false end) eqn:Eo.
  - destruct o; try discriminate. injection E as <- _. reflexivity.
  - destruct (op_offered dflt hr c o some every Ho ltac:(intros ->; discriminate) Hc) as (I1 & I2 & I3). cbv zeta in *.
    transitivity (offered hr (chan_step dflt hr c o)); [|unfold offered; now rewrite I2, I3]. eapply IH; [exact HF'|exact I1|]. destruct o; try discriminate; exact E.
Qed.
Lemma run_next (dflt : A) hr h : forall c some every l1 e e' l2, Forall plain h -> cinv hr c some every -> notes dflt hr c some every h = l1 ++ e :: e' :: l2 -> next_ok hr e e'.
Proof.
  induction h as [|o h IH]; intros c some every l1 e e' l2 HF Hc E; [destruct l1; discriminate|]. inversion HF as [|? ? Ho HF']; subst. cbn [notes] in E.
  destruct (match o with CClk => true | _ => false end) eqn:Eo.
  - destruct o; try discriminate. destruct (clk_facts dflt hr c some every Hc) as (I1 & I2 & I3 & I4). cbv zeta in *. set (c' := chan_step dflt hr c CClk) in *. destruct l1 as [|a l1].
    + injection E as <- E. pose proof (first_note dflt hr h c' _ _ _ _ HF' I1 E) as F. rewrite <- (app_nil_l (e' :: l2)) in E. clear E. unfold next_ok. cbn [nt_xfer nt_srcp nt_snkpp]. rewrite F. repeat split.
      * intros Hop. apply andb_prop in Hop as [Hop E3]. apply andb_prop in Hop as [E1 E2]. cbn in E1, E2, E3. apply negb_true_iff in E2, E3.
        pose proof (src_edge_valid hr (c_src c) (k_ready (c_snk c)) (proj1 Hc) E2 E1) as V. unfold offered. rewrite I2, V. destruct hr; [now rewrite I3|reflexivity].
      * intros Hh Hs. unfold offered. rewrite (I4 Hh Hs), Hh. apply andb_false_r.
      * intros Hp Hx. unfold offered. rewrite I2. apply andb_prop in Hx as [Hv Hr]. unfold src_edge. destruct (s_task (c_src c)) eqn:Et.
        -- destruct Hc as [Hs _]. unfold src_inv in Hs. now rewrite Et in Hs.
        -- rewrite Hr, Hv, Hp. cbn. now destruct (s_q (c_src c)).
        -- destruct Hc as [Hs _]. unfold src_inv in Hs. rewrite Et in Hs. destruct Hs. congruence.
    + injection E as _ E. eapply IH; eauto.
  - destruct (op_offered dflt hr c o some every Ho ltac:(intros ->; discriminate) Hc) as (I1 & I2 & I3). cbv zeta in *. eapply IH; [exact HF'|exact I1|]. destruct o; try discriminate; exact E.
Qed.
End N.
Section XN.
Variable c : scfg.
Hypothesis Hc : cfg_ok c.
Lemma afirst_note h : forall x some every e l, Forall aplain h -> ainv c x some every -> anotes c x some every h = e :: l -> nt_xfer e = aoffered c x.
Proof.
  induction h as [|o h IH]; intros x some every e l HF Hx E; [discriminate|]. inversion HF as [|? ? Ho HF']; subst. cbn [anotes] in E.
  destruct (match o with ACClk => true | _ => false end) eqn:Eo.
  - destruct o; try discriminate. injection E as <- _. reflexivity.
  - destruct (aop_offered c Hc x o some every Ho ltac:(intros ->; discriminate) Hx) as (I1 & I2 & I3). cbv zeta in *.
    transitivity (aoffered c (achan_step c x o)); [|unfold aoffered; now rewrite I2, I3]. eapply IH; [exact HF'|exact I1|]. destruct o; try discriminate; exact E.
Qed.
Lemma arun_next h : forall x some every l1 e e' l2, Forall aplain h -> ainv c x some every -> anotes c x some every h = l1 ++ e :: e' :: l2 -> next_ok (x_ready c) e e'.
Proof.
  induction h as [|o h IH]; intros x some every l1 e e' l2 HF Hx E; [destruct l1; discriminate|]. inversion HF as [|? ? Ho HF']; subst. cbn [anotes] in E.
  destruct (match o with ACClk => true | _ => false end) eqn:Eo.
  - destruct o; try discriminate. destruct (aclk_facts c Hc x some every Hx) as (I1 & I2 & _ & I3 & I4). cbv zeta in *. set (x' := achan_step c x ACClk) in *. destruct l1 as [|a l1].
    + injection E as <- E. pose proof (afirst_note h x' _ _ _ _ HF' I1 E) as F. clear E. unfold next_ok. cbn [nt_xfer nt_srcp nt_snkpp]. rewrite F. destruct Hx as [[Hs Hs'] _]. repeat split.
      * intros Hop. apply andb_prop in Hop as [Hop E3]. apply andb_prop in Hop as [E1 E2]. cbn in E1, E2, E3. apply negb_true_iff in E2, E3.
        pose proof (asrc_edge_valid c (ac_src x) (z_ready (ac_snk x)) Hs Hs' E2 E1) as V. unfold aoffered. rewrite I2, V. destruct (x_ready c); [now rewrite I3|reflexivity].
      * intros Hh Hp. unfold aoffered. rewrite (I4 Hh Hp), Hh. apply andb_false_r.
      * intros Hp Hxf. pose proof (asrc_edge_bound c (ac_src x) (z_ready (ac_snk x)) Hs) as B. rewrite <- I2, Hp in B. unfold aoffered in Hxf. rewrite Hxf in B. apply andb_prop in Hxf as [Hv _]. rewrite Hv in B.
        unfold aoffered. destruct (a_valid (ac_src x')) eqn:Ev; [exfalso; cbn in B; lia|reflexivity].
    + injection E as _ E. eapply IH; eauto.
  - destruct (aop_offered c Hc x o some every Ho ltac:(intros ->; discriminate) Hx) as (I1 & I2 & I3). cbv zeta in *. eapply IH; [exact HF'|exact I1|]. destruct o; try discriminate; exact E.
Qed.
End XN.
