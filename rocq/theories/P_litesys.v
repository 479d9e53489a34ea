(** Proofs about the AXI-Lite master-slave system (M_litesys.v), generic part. *)
From Coq Require Import ZArith Lia List Bool Permutation.
From Coq Require Import ZifyBool ZifyNat.
From Verif Require Import Py M_axi M_axil M_liteeng S_liteeng P_liteeng M_sys S_sys P_sys M_litesys S_litesys.
Import ListNotations.
Open Scope Z_scope.

Lemma take_segs {C Y} (f : C -> nat) (segs rr : list (list Y)) : forall cs z,
  (length segs <= length cs)%nat ->
  Forall2 (fun c g => length g = f c) (firstn (length segs) cs) segs ->
  Forall2 (fun c g => length g = f c) cs rr ->
  concat rr = concat segs ++ z -> segs = firstn (length segs) rr.
Proof.
  revert rr. induction segs as [|g segs IH]; intros rr cs z Hl H1 H2 He; [reflexivity|].
  destruct cs as [|c cs]; [cbn in Hl; lia|]. cbn [length firstn] in *. inversion H1; subst. inversion H2; subst.
  cbn [concat] in He. rewrite <- app_assoc in He.
  assert (g = y /\ concat l' = concat segs ++ z) as [-> E2].
  { assert (Hg : length g = length y) by congruence. clear - He Hg. revert y Hg He.
    induction g as [|a g IH]; intros [|b y] Hg He; cbn in *; try discriminate; auto.
    injection He as <- He. injection Hg as Hg. destruct (IH y Hg He). now subst. }
  f_equal. eapply (IH l' cs z); auto. lia.
Qed.

Section Gen.
Context {C E R S : Type}.
Variable sends : C -> list E.
Variable need : C -> nat.
Variable kind : E -> bool.
Variable act : S -> sact R S.
Variable sin : S -> E -> S.
Local Notation estep := (@eng_step C E R sends need).
Local Notation erun := (@eng_run C E R sends need).
Local Notation step := (@u_step C E R S sends need kind act sin).
Local Notation run := (@u_run C E R S sends need kind act sin).
Implicit Type y : usys C E R S.
Implicit Type l : list (gout C E R).

Variable pk : (S -> S) -> Prop.
Hypothesis Hpk : forall f s k, pk f -> act (f s) = AWait k <-> act s = AWait k.
Local Notation ptrace := (strace kind act sin pk).
Local Notation trace0 := (strace kind act sin nopk).
Variable ok : C -> Prop.
Variable J : S -> Prop.
Hypothesis HJ : forall s, J s -> ready act s.
Hypothesis HJpk : forall f s, pk f -> J (f s) <-> J s.
Hypothesis Hext : forall s c es more o sa, J s -> ok c -> sends c = es ++ more -> ptrace s es o sa ->
  exists rest s', trace0 sa more rest s' /\ J s'.
Hypothesis Hsem : forall s c rs s', J s -> ok c -> ptrace s (sends c) rs s' -> J s' -> length rs = need c.
Hypothesis Htau : forall s s' s'', act s = ATau s' -> trace0 s' [] [] s'' -> ~ J s''.
(** the last transfer of an operation is answered *)
Hypothesis Hlast : forall c es e, ok c -> sends c = es ++ [e] -> forall s o s', trace0 s [e] o s' -> J s' -> o <> [].
Variable s0 : S.
Hypothesis HJ0 : J s0.

(** the operations, seen as in P_sys.v with the ID 0 *)
Definition tag0 (A : list C) : list (C * Z) := map (fun c => (c, 0)) A.
Local Notation sends2 := (fun (c : C) (_ : Z) => sends c).
Local Notation ok2 := (fun (c : C) (_ : Z) => ok c).
Local Notation Otr := (otr sends2 kind act sin pk ok2 J).
Local Notation At := (at_op sends2 kind act sin pk ok2 J).
Lemma sendsA_tag0 A : sendsA sends2 (tag0 A) = flat_map sends A.
Proof. unfold sendsA, tag0. induction A; cbn; auto. now rewrite IHA. Qed.
Lemma okA_tag0 A : Forall ok A -> okA ok2 (tag0 A).
Proof. unfold okA, tag0. rewrite Forall_map. auto. Qed.
Lemma tag0_app_inv A : forall B1 B2, tag0 A = B1 ++ B2 -> exists A1 A2, A = A1 ++ A2 /\ B1 = tag0 A1 /\ B2 = tag0 A2.
Proof.
  intros B1 B2 H. unfold tag0 in *. apply map_eq_app in H as (A1 & A2 & -> & <- & <-). eauto.
Qed.
Lemma otr_lens s B rss s' : Otr s B rss s' -> Forall2 (fun c g => length g = need c) (map fst B) rss.
Proof. induction 1 as [|s c u rs s1 A rss s2 K1 K2 K3 K4 H1 IH]; cbn [map fst]; constructor; auto. exact (Hsem _ _ _ _ K1 K2 K3 K4). Qed.

(** ** The master is the engine *)
Definition gquiet (o : gop C R) : Prop := match o with GReset _ => False | _ => True end.
Definition mrun y l : Prop := exists hm, erun eng_init hm = (u_m y, l) /\ Forall gquiet hm.

Lemma u_step_m y o : let '(y', os) := step y o in
  exists ho, erun (u_m y) ho = (u_m y', os) /\ Forall gquiet ho.
Proof.
  assert (K0 : forall y', u_m y' = u_m y -> exists ho, erun (u_m y) ho = (u_m y', []) /\ Forall gquiet ho).
  { intros y' H. exists []. cbn. rewrite H. auto. }
  assert (K1 : forall y1 xo, u_m y1 = u_m y -> gquiet xo ->
    let '(y', os) := um_step sends need y1 xo in exists ho, erun (u_m y) ho = (u_m y', os) /\ Forall gquiet ho).
  { intros y1 xo H Hq. unfold um_step. rewrite H. destruct (estep (u_m y) xo) as [m os] eqn:Es. exists [xo].
    cbn [eng_run]. rewrite Es, app_nil_r. auto. }
  destruct o; cbn [u_step]; try (apply K1; auto; exact I); try (apply K0; reflexivity).
  - destruct (unext (u_m y)) as [e|]; [|apply K0; reflexivity].
    destruct (q_room _); [|apply K0; reflexivity]. apply K1; [|exact I]. now destruct (kind e).
  - destruct (uwaits (u_m y)), (ch_snk (u_b y)); try (apply K0; reflexivity). apply K1; auto. exact I.
  - apply K0. now destruct k.
  - apply K0. now destruct k.
  - destruct (act (u_s y)) as [k|r s|s|]; try (apply K0; reflexivity).
    + destruct (ch_snk (ufwd y k)); apply K0; auto. now destruct k.
    + destruct (q_room _); apply K0; reflexivity.
Qed.
Lemma u_run_app y h1 h2 : run y (h1 ++ h2) =
  let '(y1, o1) := run y h1 in let '(y2, o2) := run y1 h2 in (y2, o1 ++ o2).
Proof.
  revert y. induction h1 as [|o h1 IH]; intros y; cbn [app u_run].
  - destruct (run y h2). reflexivity.
  - destruct (step y o) as [y1 o1]. rewrite IH. destruct (run y1 h1) as [y2 o2]. destruct (run y2 h2) as [y3 o3].
    now rewrite app_assoc.
Qed.
Lemma mrun_step y l o : mrun y l -> let '(y', os) := step y o in mrun y' (l ++ os).
Proof.
  intros (hm & H1 & H2). pose proof (u_step_m y o) as K. destruct (step y o) as [y' os]. destruct K as (ho & K1 & K2).
  exists (hm ++ ho). rewrite run_app, H1, K1. split; auto. now apply Forall_app.
Qed.

Lemma gstep_quiet m o : gquiet o -> let '(m', os) := estep m o in
  quiet os /\ flushed os = [] /\ (g_wtask m = true -> g_wtask m' = true) /\ (g_rtask m = true -> g_rtask m' = true).
Proof.
  unfold quiet. intros H. destruct o; cbn [eng_step]; try destruct H; try (cbn; auto; fail).
  - destruct (nth_error _ n); cbn; intuition congruence.
  - destruct (g_wtask m) eqn:?, (g_cur m), (g_q m); cbn; intuition congruence.
  - destruct (g_wtask m) eqn:?, (g_cur m) as [[? [|? ?]]|]; cbn; intuition congruence.
  - destruct (g_rtask m) eqn:?, (g_rcur m), (g_rq m); unfold eng_resp; try destruct (Nat.leb _ _); cbn; intuition congruence.
  - destruct (g_rtask m) eqn:?, (g_rcur m) as [[? ?]|]; unfold eng_resp; try destruct (Nat.leb _ _); cbn; intuition congruence.
Qed.
Lemma grun_quiet hm : forall m, Forall gquiet hm -> let '(m', l) := erun m hm in
  quiet l /\ flushed l = [] /\ (g_wtask m = true -> g_wtask m' = true) /\ (g_rtask m = true -> g_rtask m' = true).
Proof.
  induction hm as [|o hm IH]; intros m H; cbn [eng_run]; [cbn; repeat split; auto|]. inversion H; subst.
  pose proof (gstep_quiet m o H2) as K. destruct (estep m o) as [m1 o1]. specialize (IH m1 H3). destruct (erun m1 hm) as [m2 o2].
  destruct K as (K1 & K2 & K3 & K4), IH as (I1 & I2 & I3 & I4). split; [unfold quiet in *; now rewrite existsb_app, K1, I1|].
  split; [now rewrite flushed_app, K2, I2|]. auto.
Qed.

Lemma mrun_facts y l : mrun y l -> quiet l /\ flushed l = [] /\ g_wtask (u_m y) = true /\ g_rtask (u_m y) = true /\
  inv sends need (u_m y) l.
Proof.
  intros (hm & H1 & H2). pose proof (grun_quiet hm eng_init H2) as K. rewrite H1 in K. destruct K as (K1 & K2 & K3 & K4).
  pose proof (inv_run sends need hm) as K. rewrite H1 in K. repeat (split; [now auto|]). exact K.
Qed.

(** ** Invariant *)
Definition upoke_ok (o : uop C S) : Prop := match o with UPoke f => pk f | _ => True end.

Definition uinv y l (es : list E) : Prop := exists o X,
  sent l = es ++ X /\
  (forall k, filter (fun e => Bool.eqb (kind e) k) X = chc (ufwd y k)) /\
  ptrace s0 es o (u_s y) /\
  o = received l ++ chc (u_b y).

Lemma ufwd_set y k c k' : ufwd (uset_fwd y k c) k' = if Bool.eqb k k' then c else ufwd y k'.
Proof. destruct k, k'; reflexivity. Qed.

Lemma uinv_master y l es m os : uinv y l es -> sent os = [] -> received os = [] -> uinv (uset_m y m) (l ++ os) es.
Proof.
  intros (o & X & H1 & H2 & H3 & H5) E1 E2. exists o, X.
  rewrite sent_app, received_app, E1, E2, !app_nil_r. split; [exact H1|]. split; [intros k; rewrite H2; now destruct k|]. auto.
Qed.
Lemma g_step_io m o : match o with GSend | GResp _ | GReset _ => False | _ => True end ->
  let '(m', os) := estep m o in sent os = [] /\ received os = [].
Proof.
  intros Hq. destruct o; cbn [eng_step]; auto; try tauto.
  - destruct (nth_error _ n); auto.
  - destruct (g_wtask m), (g_cur m), (g_q m); auto.
  - destruct (g_rtask m), (g_rcur m), (g_rq m); auto. unfold eng_resp. destruct (Nat.leb _ _); auto.
Qed.

Lemma trace_rest l es o sa X more : Forall ok (started l) -> flat_map sends (started l) = sent l ++ more -> sent l = es ++ X ->
  ptrace s0 es o sa ->
  exists B1 r1 sm es' o' B2 r2 rest sN, At s0 (tag0 (started l)) es o sa (X ++ more) B1 r1 sm es' o' B2 r2 rest sN.
Proof.
  intros HA Hs HX Ht.
  eapply (trace_ext sends2 (fun _ => true) (fun _ _ => true) (fun _ => None) kind act sin pk Hpk ok2 J HJ HJpk); eauto.
  - now apply okA_tag0.
  - rewrite sendsA_tag0, Hs, HX, <- app_assoc. reflexivity.
Qed.

Lemma uinv_step y l es o more : upoke_ok o -> Forall ok (started l) -> flat_map sends (started l) = sent l ++ more ->
  uinv y l es -> let '(y', os) := step y o in exists es', uinv y' (l ++ os) es'.
Proof.
  intros Hp HA Hs HI.
  assert (Hsame : exists es', uinv y (l ++ []) es') by (rewrite app_nil_r; eauto).
  assert (Hm : forall xo, match xo with GSend | GResp _ | GReset _ => False | _ => True end ->
     let '(y', os) := um_step sends need y xo in exists es', uinv y' (l ++ os) es').
  { intros xo Hx. unfold um_step. pose proof (g_step_io (u_m y) xo Hx) as K. destruct (estep (u_m y) xo) as [m os].
    destruct K. exists es. now apply uinv_master. }
  destruct o as [c|c|n| | | | |k|k| | | |f]; cbn [u_step]; try (apply Hm; exact I).
  - (* send *)
    destruct (unext (u_m y)) as [e|] eqn:En; auto.
    destruct (q_room _); auto. unfold um_step.
    assert (Hy : u_m (uset_fwd y (kind e) (ch_push (ufwd y (kind e)) e)) = u_m y) by now destruct (kind e). rewrite Hy. clear Hy.
    unfold unext in En. cbn [eng_step]. destruct (g_wtask (u_m y)); [|discriminate].
    destruct (g_cur (u_m y)) as [[c [|e' rest]]|]; try discriminate.
    injection En as ->. destruct HI as (o & X & H1 & H2 & H3 & H5).
    exists es, o, (X ++ [e]). rewrite sent_app, received_app. cbn [sent received]. rewrite app_nil_r.
    split; [rewrite H1; now rewrite app_assoc|]. split; [|split; [now destruct (kind e)|rewrite H5; now destruct (kind e)]].
    intros k. rewrite filter_app, H2. cbn [filter].
    assert (Hf : ufwd (uset_m (uset_fwd y (kind e) (ch_push (ufwd y (kind e)) e)) (eng_sent (u_m y) c rest)) k
       = if Bool.eqb (kind e) k then ch_push (ufwd y k) e else ufwd y k).
    { generalize (kind e) as b. intros b. destruct b, k; reflexivity. }
    rewrite Hf. destruct (Bool.eqb (kind e) k); [now rewrite chc_push|now rewrite app_nil_r].
  - (* recv *)
    unfold uwaits. destruct (g_rtask (u_m y)) eqn:Er; auto. destruct (g_rcur (u_m y)) as [[c g]|] eqn:Ec; auto.
    destruct (ch_snk (u_b y)) as [|r q] eqn:Eq; auto. unfold um_step.
    cbn [u_m uset_b eng_step]. rewrite Er, Ec.
    destruct HI as (o & X & H1 & H2 & H3 & H5).
    assert (K : forall m os, sent os = [] -> received os = [r] -> exists es', uinv (uset_m (uset_b y (ch_pop (u_b y) q)) m) (l ++ os) es').
    { intros m os E1 E2. exists es, o, X. rewrite sent_app, received_app, E1, E2, app_nil_r. split; auto.
      split; [intros k; rewrite H2; now destruct k|]. split; auto. cbn [u_b uset_m uset_b].
      rewrite H5, (chc_pop _ _ _ Eq), <- app_assoc. reflexivity. }
    unfold eng_resp. destruct (Nat.leb _ _); now apply K.
  - destruct HI as (o & X & H1 & H2 & H3 & H5). exists es, o, X. rewrite app_nil_r. split; auto.
    split; [|split; [now destruct k|rewrite H5; now destruct k]].
    intros k'. rewrite ufwd_set, H2. destruct (Bool.eqb k k') eqn:Ek; auto. apply eqb_prop in Ek. subst k'. now rewrite chc_load.
  - destruct HI as (o & X & H1 & H2 & H3 & H5). exists es, o, X. rewrite app_nil_r. split; auto.
    split; [|split; [now destruct k|rewrite H5; now destruct k]].
    intros k'. rewrite ufwd_set, H2. destruct (Bool.eqb k k') eqn:Ek; auto. apply eqb_prop in Ek. subst k'. now rewrite chc_xfer.
  - destruct HI as (o & X & H1 & H2 & H3 & H5). exists es, o, X. rewrite app_nil_r. split; auto.
    split; [intros k; rewrite H2; now destruct k|]. split; auto. rewrite H5. cbn [u_b uset_b]. now rewrite chc_load.
  - destruct HI as (o & X & H1 & H2 & H3 & H5). exists es, o, X. rewrite app_nil_r. split; auto.
    split; [intros k; rewrite H2; now destruct k|]. split; auto. rewrite H5. cbn [u_b uset_b]. now rewrite chc_xfer.
  - (* slave *)
    destruct HI as (o & X & H1 & H2 & H3 & H5).
    destruct (act (u_s y)) as [k|r s|s|] eqn:Ea; auto.
    + destruct (ch_snk (ufwd y k)) as [|e q] eqn:Eq; auto.
      destruct (trace_rest l es o _ X more HA Hs H1 H3) as (B1 & r1 & sm & es' & o' & B2 & r2 & rest & sN & (_ & _ & _ & _ & _ & _ & T4 & _)).
      pose proof (H2 k) as Hk. rewrite (chc_pop _ _ _ Eq) in Hk.
      destruct X as [|x X']; [discriminate|]. cbn [app] in T4. inversion T4 as [| | | |? ? ? ? ? []]; subst; try congruence.
      assert (Hkx : kind x = k) by congruence.
      cbn [filter] in Hk. rewrite Hkx, Bool.eqb_reflx in Hk. injection Hk as Hx Hk. subst x.
      exists (es ++ [e]), (received l ++ chc (u_b y)), X'. rewrite app_nil_r. split; [rewrite H1, <- app_assoc; reflexivity|].
      split; [|split; [|now destruct k]].
      * intros k'. change (ufwd (uset_s (uset_fwd y k (ch_pop (ufwd y k) q)) (sin (u_s y) e)) k') with (ufwd (uset_fwd y k (ch_pop (ufwd y k) q)) k').
        rewrite ufwd_set. destruct (Bool.eqb k k') eqn:Ek.
        { apply eqb_prop in Ek. subst k'. exact Hk. }
        rewrite <- H2. cbn [filter]. rewrite Hkx, Ek. reflexivity.
      * rewrite <- (app_nil_r (received l ++ chc (u_b y))). eapply strace_app; [exact H3|]. apply st_in; [congruence|constructor].
    + destruct (q_room _); auto.
      exists es, (o ++ [r]), X. rewrite app_nil_r. split; auto. split; [intros k; rewrite H2; now destruct k|]. split.
      * rewrite <- (app_nil_r es). eapply strace_app; [exact H3|]. eapply st_emit; [exact Ea|constructor].
      * cbn [u_b uset_s uset_b]. now rewrite chc_push, H5, app_assoc.
    + exists es, o, X. rewrite app_nil_r. split; auto.
      split; [intros k; rewrite H2; now destruct k|]. split; auto.
      rewrite <- (app_nil_r es), <- (app_nil_r o). eapply strace_app; [exact H3|]. eapply st_tau; [exact Ea|constructor].
  - destruct HI as (o & X & H1 & H2 & H3 & H5). exists es, o, X. rewrite app_nil_r. split; auto.
    split; [intros k; rewrite H2; now destruct k|]. split; auto. cbn [u_s uset_s].
    rewrite <- (app_nil_r es), <- (app_nil_r o). eapply strace_app; [exact H3|]. eapply st_poke; [exact Hp|constructor].
Qed.

Lemma inv_more y l : quiet l -> inv sends need (u_m y) l -> exists more, flat_map sends (started l) = sent l ++ more.
Proof.
  intros Q (_ & H1 & _ & H2 & _). rewrite epoch_quiet in * by auto. exists (todo (u_m y) ++ flat_map sends (g_q (u_m y))).
  rewrite app_assoc, H2, H1. apply flat_map_app.
Qed.

Lemma sys_run h : Forall upoke_ok h -> let '(y, l) := run (usys_init s0) h in
  mrun y l /\ (Forall ok (started l) -> exists es, uinv y l es).
Proof.
  induction h as [|o h IH] using rev_ind; intros Hp.
  - cbn. split; [exists []; split; auto|]. intros _. exists [], [], []. repeat split; auto; [intros []; reflexivity|constructor].
  - apply Forall_app in Hp as [Hp Ho]. specialize (IH Hp). inversion Ho as [|? ? Ho' _]; subst. rewrite u_run_app.
    destruct (run (usys_init s0) h) as [y l]. destruct IH as (IM & IV). cbn [u_run].
    pose proof (mrun_step y l o IM) as HS. pose proof (fun es => uinv_step y l es o) as HV. destruct (step y o) as [y' os]. rewrite app_nil_r.
    split; auto. intros HA. rewrite started_app in HA. apply Forall_app in HA as [HA _]. destruct (IV HA) as (es & II).
    destruct (mrun_facts y l IM) as (Q & _ & _ & _ & HI). destruct (inv_more y l Q HI) as [more Hm]. eapply HV; eauto.
Qed.

(** ** The result *)
Lemma quiet_slave y X rest sN : uquiescent step y -> chc (u_b y) = [] -> trace0 (u_s y) X rest sN -> J sN ->
  exists k, act (u_s y) = AWait k.
Proof.
  intros HQ Hb T4 HN. pose proof (HQ USlave I) as HSl. cbn [u_step] in HSl.
  assert (Hq0 : ch_src (u_b y) = []).
  { unfold chc in Hb. apply app_eq_nil in Hb as [_ Hb]. apply app_eq_nil in Hb as [_ Hb]. exact Hb. }
  destruct (act (u_s y)) as [k|r s|s|] eqn:Ea; [eauto|exfalso..].
  - rewrite Hq0 in HSl. cbn in HSl. injection HSl as HSl. apply (f_equal (fun y => ch_src (u_b y))) in HSl. cbn in HSl.
    rewrite Hq0 in HSl. discriminate.
  - injection HSl as HSl. apply (f_equal u_s) in HSl. cbn in HSl. subst s. now apply (tau_loop kind act sin J HJ _ _ _ _ T4).
  - inversion T4 as [| | | |? ? ? ? ? []]; subst; try congruence. destruct (HJ _ HN) as [k Hk]. congruence.
Qed.

(** the operations that completed are over *)
Lemma done_over l es o sa more B1 r1 sm es' o' B2 r2 rest sN k tl :
  At s0 (tag0 (started l)) es o sa more B1 r1 sm es' o' B2 r2 rest sN ->
  o = concat (firstn k (r1 ++ r2)) ++ tl -> (k <= length (started l))%nat -> (k <= length B1)%nat.
Proof.
  intros (K1 & K2 & K3 & K4 & K5 & K6 & K7 & K8 & K9 & K10) Ho Hk.
  destruct (Nat.le_gt_cases k (length B1)) as [|Hgt]; auto. exfalso.
  pose proof (otr_length _ _ _ _ _ _ _ _ _ _ _ K2) as L1.
  assert (HL : length (tag0 (started l)) = length (started l)) by apply map_length.
  destruct B2 as [|[c u] B2]; [rewrite K1, app_nil_r in HL; lia|].
  destruct K10 as (more1 & rest1 & s1 & rs & r3 & -> & E2 & E3 & E4 & E5 & E6).
  assert (Hlen : (length (concat r1) + length rs <= length o)%nat).
  { rewrite Ho, app_length. replace (firstn k (r1 ++ rs :: r3)) with (r1 ++ rs :: firstn (k - length r1 - 1) r3).
    - rewrite concat_app, app_length. cbn [concat]. rewrite app_length. lia.
    - rewrite firstn_app, (firstn_all2 r1) by lia. f_equal. destruct (k - length r1)%nat eqn:Ek; [lia|]. cbn [firstn]. do 2 f_equal. lia. }
  rewrite K5, app_length, E3, app_length in Hlen. destruct rest1; [|cbn in Hlen; lia].
  destruct E6 as [E6|E6]; [|congruence]. destruct (exists_last E6) as (w & e1 & Ew). rewrite Ew in E4, E2.
  destruct (strace_cut _ _ _ _ _ _ _ _ E4 w [e1] eq_refl) as (o1 & o2 & m & _ & Te & Eo). symmetry in Eo. apply app_eq_nil in Eo as [-> ->].
  inversion K3; subst. cbn beta in *.
  eapply (Hlast c (es' ++ w) e1); eauto. cbn beta in E2. rewrite E2. now rewrite app_assoc.
Qed.

Theorem sys_main h : Forall upoke_ok h -> let '(y, l) := run (usys_init s0) h in
  let A := started l in
  Forall ok A ->
  flushed l = [] /\
  exists B1 r1 sm es' o' B2 r2 rest sN es more o,
    At s0 (tag0 A) es o (u_s y) more B1 r1 sm es' o' B2 r2 rest sN /\
    (exists k, (k <= length B1)%nat /\ completed l = combine (firstn k A) (firstn k (r1 ++ r2))) /\
    (uquiescent step y -> more = [] /\ rest = [] /\ g_pend (u_m y) = [] /\ sN = u_s y /\ completed l = combine A (r1 ++ r2)).
Proof.
  intros Hp. pose proof (sys_run h Hp) as HR. destruct (run (usys_init s0) h) as [y l]. destruct HR as (HM & HV).
  cbv zeta. intros HA. destruct (HV HA) as (es & HI). clear HV.
  destruct (mrun_facts y l HM) as (Q1 & Q2 & Q3 & Q4 & HE). split; auto.
  destruct (inv_more y l Q1 HE) as [more M3]. pose proof HE as HE'.
  destruct HM as (hm & E1 & E2). pose proof (eng_attribution sends need hm) as M. rewrite E1 in M. cbv zeta in M.
  rewrite epoch_quiet in M by auto. destruct M as (segs & got' & N1 & N2 & N3 & N4 & _ & N6).
  pose proof HI as (o & X & H1 & H2 & H3 & H5).
  destruct (trace_rest l es o _ X more HA M3 H1 H3) as (B1 & r1 & sm & es' & o' & B2 & r2 & rest & sN & HO).
  pose proof HO as (K1 & K2 & K3 & K4 & K5 & K6 & K7 & K8 & K9 & K10).
  set (rss := r1 ++ r2).
  assert (T3 : concat rss = o ++ rest) by (unfold rss; rewrite concat_app, K9, K5, app_assoc; reflexivity).
  assert (HF : Forall2 (fun c g => length g = need c) (started l) rss).
  { pose proof (otr_lens _ _ _ _ K2) as F1. pose proof (otr_lens _ _ _ _ K3) as F2. pose proof (Forall2_app F1 F2) as F.
    rewrite <- map_app, <- K1 in F. unfold tag0 in F. rewrite map_map in F. cbn [fst] in F. rewrite map_id in F. exact F. }
  assert (Hsegs : segs = firstn (length segs) rss).
  { eapply (take_segs need segs rss (started l)); eauto. rewrite T3, H5, N3, <- !app_assoc. reflexivity. }
  assert (Hk : (length segs <= length B1)%nat).
  { eapply done_over; [exact HO| |exact N1]. fold rss. rewrite <- Hsegs, H5, N3, <- app_assoc. reflexivity. }
  exists B1, r1, sm, es', o', B2, r2, rest, sN, es, (X ++ more), o. split; [exact HO|]. split.
  - exists (length segs). split; auto. fold rss. rewrite <- Hsegs. exact N2.
  - intros HQ.
    (* the sender has nothing left of a completed operation *)
    assert (Hes : exists z, sent l = flat_map sends (firstn (length segs) (started l)) ++ z).
    { destruct (tag0_app_inv _ _ _ K1) as (A1 & A2 & EA & EB1 & EB2).
      exists (flat_map sends (skipn (length segs) A1) ++ es' ++ X). rewrite H1, K4, EB1, sendsA_tag0.
      assert (HL : length A1 = length B1) by (rewrite EB1; unfold tag0; now rewrite map_length).
      rewrite EA, firstn_app. replace (length segs - length A1)%nat with O by lia. cbn [firstn]. rewrite app_nil_r.
      rewrite <- (firstn_skipn (length segs) A1) at 1. rewrite flat_map_app, <- !app_assoc. reflexivity. }
    assert (Hset : forall c, uset_b y c = y -> c = u_b y) by (intros c Hc; apply (f_equal u_b) in Hc; exact Hc).
    assert (Hfw : forall k c, uset_fwd y k c = y -> c = ufwd y k).
    { intros k c Hc. apply (f_equal (fun y => ufwd y k)) in Hc. rewrite ufwd_set, Bool.eqb_reflx in Hc. exact Hc. }
    assert (Hmm : forall xo, um_step sends need y xo = (y, []) -> estep (u_m y) xo = (u_m y, [])).
    { intros xo K. unfold um_step in K. destruct (estep (u_m y) xo) as [m1 os1]. injection K as K ->.
      apply (f_equal u_m) in K. cbn in K. now subst. }
    pose proof (Hmm _ (HQ UGet I)) as QG. pose proof (Hmm _ (HQ URGet I)) as QR.
    destruct HE as (F1 & F2 & F3 & F4 & F5 & F6 & F7 & F8). rewrite epoch_quiet in * by auto.
    (* response channel *)
    assert (Hb : chc (u_b y) = []).
    { apply chan_quiet.
      - pose proof (HQ URecv I) as K. cbn [u_step] in K. destruct (ch_snk (u_b y)) as [|r q] eqn:Eq; auto. exfalso.
        destruct (g_rcur (u_m y)) as [[c g]|] eqn:Ec.
        { unfold uwaits in K. rewrite Q4, Ec in K. unfold um_step in K. cbn [uset_b u_m eng_step] in K. rewrite Q4, Ec in K. unfold eng_resp in K.
          destruct (Nat.leb _ _); discriminate. }
        cbn [eng_step] in QR. rewrite Q4, Ec in QR.
        assert (Erq : g_rq (u_m y) = []).
        { destruct (g_rq (u_m y)) as [|c rq]; auto. unfold eng_resp in QR. destruct (Nat.leb _ _); [discriminate|].
          injection QR as QR. apply (f_equal g_rcur) in QR. cbn in QR. congruence. }
        assert (Etk : taken (u_m y) (completed l) = map fst (completed l)) by (unfold taken; rewrite Ec, Erq; cbn; now rewrite app_nil_r).
        assert (Hcl : firstn (length segs) (started l) = map fst (completed l)).
        { rewrite N2. clear - N1. revert N1. generalize (started l) as A. induction segs as [|g segs IH]; intros [|a A] HL; cbn in *; auto; try lia.
          f_equal. apply IH. lia. }
        assert (Ecur : g_cur (u_m y) = None).
        { destruct (g_cur (u_m y)) as [[c r0]|] eqn:Ecu; auto. exfalso. destruct F7 as (Hr0 & _). destruct Hes as [z Hz].
          unfold todo in F4. rewrite Ecu, Etk, <- Hcl in F4. rewrite Hz in F4. apply (f_equal (@length E)) in F4. rewrite !app_length in F4.
          destruct r0; [congruence|]. cbn in F4. lia. }
        assert (Eq2 : g_q (u_m y) = []).
        { cbn [eng_step] in QG. rewrite Q3, Ecur in QG. destruct (g_q (u_m y)) as [|c q2]; auto. exfalso. injection QG as QG.
          apply (f_equal (fun x => length (g_rq x))) in QG. cbn in QG. rewrite app_length in QG. cbn in QG. lia. }
        assert (Hall : length segs = length (started l)).
        { rewrite Etk, Eq2, app_nil_r, <- Hcl in F2. apply (f_equal (@length C)) in F2. rewrite firstn_length in F2. lia. }
        assert (Hl : length rss = length (started l)) by (clear - HF; induction HF; cbn; congruence).
        assert (segs = rss) as Es by (rewrite Hsegs at 1; apply firstn_all2; lia).
        rewrite H5, N3, Es in T3. apply (f_equal (@length R)) in T3. rewrite !app_length in T3. unfold chc in T3. rewrite Eq in T3. cbn in T3. lia.
      - pose proof (HQ ULoadB I) as K. cbn [u_step] in K. injection K as K. now apply Hset.
      - pose proof (HQ UXferB I) as K. cbn [u_step] in K. injection K as K. now apply Hset. }
    destruct (quiet_slave y _ _ _ HQ Hb K7 (proj2 (otr_J sends2 (fun _ => None) kind act sin pk ok2 J _ _ _ _ K3))) as [k Ea].
    pose proof (HQ USlave I) as HSl. cbn [u_step] in HSl. rewrite Ea in HSl.
    assert (Hkc : chc (ufwd y k) = []).
    { apply chan_quiet.
      - destruct (ch_snk (ufwd y k)) as [|e q] eqn:Eq; auto. injection HSl as HSl.
        apply (f_equal (fun y => ch_snk (ufwd y k))) in HSl.
        change (ch_snk (ufwd (uset_fwd y k (ch_pop (ufwd y k) q)) k) = ch_snk (ufwd y k)) in HSl.
        rewrite ufwd_set, Bool.eqb_reflx, Eq in HSl. cbn in HSl. apply (f_equal (@length E)) in HSl. cbn in HSl. lia.
      - pose proof (HQ (ULoad k) I) as K. cbn [u_step] in K. injection K as K. now apply Hfw.
      - pose proof (HQ (UXfer k) I) as K. cbn [u_step] in K. injection K as K. now apply Hfw. }
    assert (X = []) as ->.
    { destruct X as [|x X]; auto. cbn [app] in K7. inversion K7 as [| | | |? ? ? ? ? []]; subst; try congruence.
      assert (Hkx : kind x = k) by congruence. specialize (H2 k). cbn [filter] in H2.
      rewrite Hkx, Bool.eqb_reflx, Hkc in H2. discriminate. }
    assert (QS : estep (u_m y) GSend = (u_m y, [])).
    { pose proof (HQ USend I) as K. cbn [u_step] in K. cbn [eng_step]. unfold unext in K. rewrite Q3 in *.
      destruct (g_cur (u_m y)) as [[c [|e rst]]|] eqn:Ec; auto. exfalso.
      assert (Hroom : q_room (ch_src (ufwd y (kind e))) = true).
      { specialize (H2 (kind e)). cbn in H2. symmetry in H2. unfold chc in H2. apply app_eq_nil in H2 as [_ H2].
        apply app_eq_nil in H2 as [_ H2]. now rewrite H2. }
      rewrite Hroom in K. unfold um_step in K.
      assert (Hy : u_m (uset_fwd y (kind e) (ch_push (ufwd y (kind e)) e)) = u_m y) by now destruct (kind e).
      rewrite Hy in K. cbn [eng_step] in K. rewrite Q3, Ec in K. discriminate. }
    destruct (N6 Q3 QG QS QR) as (Hsent & Hfin).
    assert (more = []) as ->.
    { rewrite Hsent in M3. apply (f_equal (@length E)) in M3. rewrite app_length in M3. destruct more; auto. cbn in M3. lia. }
    cbn [app] in *. split; auto. destruct (strace_wait _ _ _ _ _ _ _ _ K7 Ea eq_refl) as [-> Es]. split; auto.
    split.
    { pose proof (HQ (UStart 0) I) as K. cbn [u_step] in K. unfold um_step in K. cbn [eng_step] in K.
      destruct (g_pend (u_m y)) as [|c p]; auto. discriminate. }
    split; auto.
    rewrite app_nil_r in T3. rewrite Hb, app_nil_r in H5.
    assert (Hall : length segs = length (started l)).
    { destruct Hfin as [|(c & Hc1 & Hc2)]; auto. exfalso.
      assert (Hc3 : (need c <= length got')%nat).
      { rewrite H5, N3 in T3. clear - T3 Hsegs HF Hc1. revert Hsegs Hc1 T3. generalize rss, HF. clear HF. intros rs HF. revert segs.
        induction HF as [|a g A gs Hag HF IH]; intros segs Hs Hc T3.
        - destruct (length segs); discriminate.
        - destruct segs as [|s segs].
          + injection Hc as <-. cbn [concat app] in T3. rewrite <- T3, app_length, Hag. lia.
          + cbn [length firstn] in Hs. injection Hs as -> Hs. cbn [concat] in T3. rewrite <- app_assoc in T3. apply app_inv_head in T3.
            eapply IH; eauto. }
      lia. }
    assert (Hl : length rss = length (started l)) by (clear - HF; induction HF; cbn; congruence).
    assert (segs = rss) as Es2 by (rewrite Hsegs at 1; apply firstn_all2; lia).
    rewrite N2, Hall, firstn_all, Es2. reflexivity.
Qed.
End Gen.
