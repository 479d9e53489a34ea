(** Proofs about the master-slave system (M_sys.v), generic part. *)
From Coq Require Import ZArith Lia List Bool Permutation.
From Coq Require Import ZifyBool ZifyNat.
From Verif Require Import Py M_axi M_liteeng M_axieng S_axieng P_liteeng P_axitag P_axieng P_axiattr T_axieng M_sys S_sys.
Import ListNotations.
Open Scope Z_scope.

(** contents of a channel, oldest first *)
Definition chc {A} (c : chan A) : list A := ch_snk c ++ opt_list (fun x => x) (ch_reg c) ++ ch_src c.
Lemma chc_push {A} (c : chan A) x : chc (ch_push c x) = chc c ++ [x].
Proof. unfold chc, ch_push. cbn. now rewrite !app_assoc. Qed.
Lemma chc_load {A} (c : chan A) : chc (ch_load c) = chc c.
Proof. unfold chc, ch_load. destruct c as [[|x s] [r|] k]; reflexivity. Qed.
Lemma chc_xfer {A} (c : chan A) : chc (ch_xfer c) = chc c.
Proof.
  unfold chc, ch_xfer. destruct c as [s [r|] k]; cbn [ch_reg ch_snk ch_src]; [|reflexivity].
  destruct (q_room k); [|reflexivity]. cbn. now rewrite <- app_assoc.
Qed.
Lemma chc_pop {A} (c : chan A) x q : ch_snk c = x :: q -> chc c = x :: chc (ch_pop c q).
Proof. intros H. unfold chc, ch_pop. cbn. rewrite H. reflexivity. Qed.

Section Gen.
Context {C E R S : Type}.
Variable sends : C -> Z -> list E.
Variable opens : E -> bool.
Variable epat : E -> list bool.
Variable chk : bool -> R -> bool.
Variable rtag : R -> Z.
Variable ask : C -> option Z.
Variable idn : Z.
Variable kind : E -> bool.
Variable act : S -> sact R S.
Variable sin : S -> E -> S.

Local Notation xstep := (@x_step C E R sends opens epat chk rtag ask idn).
Local Notation xrun := (@x_run C E R sends opens epat chk rtag ask idn).
Local Notation step := (@y_step C E R S sends opens epat chk rtag ask idn kind act sin).
Local Notation run := (@y_run C E R S sends opens epat chk rtag ask idn kind act sin).
Implicit Type y : sys C E R S.
Implicit Type l : list (xout C E R).

(** ** What the slave does with a list of transfers, while others change its target with the functions in [pk] *)
Section Trace.
Variable pk : (S -> S) -> Prop.
Inductive strace : S -> list E -> list R -> S -> Prop :=
| st_nil s : strace s [] [] s
| st_in s e es o s' : act s = AWait (kind e) -> strace (sin s e) es o s' -> strace s (e :: es) o s'
| st_emit s r s1 es o s' : act s = AEmit r s1 -> strace s1 es o s' -> strace s es (r :: o) s'
| st_tau s s1 es o s' : act s = ATau s1 -> strace s1 es o s' -> strace s es o s'
| st_poke s f es o s' : pk f -> strace (f s) es o s' -> strace s es o s'.

Lemma strace_app s es1 o1 s1 es2 o2 s2 : strace s es1 o1 s1 -> strace s1 es2 o2 s2 -> strace s (es1 ++ es2) (o1 ++ o2) s2.
Proof.
  intros H. revert es2 o2 s2. induction H; intros es2 o2 s2 H2; cbn [app]; auto.
  - apply st_in; auto. - eapply st_emit; eauto. - eapply st_tau; eauto. - eapply st_poke; eauto.
Qed.

Lemma strace_cut s es o s' : strace s es o s' -> forall es1 es2, es = es1 ++ es2 ->
  exists o1 o2 m, strace s es1 o1 m /\ strace m es2 o2 s' /\ o = o1 ++ o2.
Proof.
  induction 1 as [s|s e es o s' Ha Ht IH|s r s1 es o s' Ha Ht IH|s s1 es o s' Ha Ht IH|s f es o s' Hf Ht IH]; intros es1 es2 He.
  - symmetry in He. apply app_eq_nil in He as [-> ->]. exists [], [], s. repeat split; constructor.
  - destruct es1 as [|e1 es1].
    + cbn in He. subst es2. exists [], o, s. repeat split; [constructor|]. apply st_in; auto.
    + injection He as <- He. destruct (IH es1 es2 He) as (o1 & o2 & m & H1 & H2 & H3).
      exists o1, o2, m. repeat split; auto. apply st_in; auto.
  - destruct (IH es1 es2 He) as (o1 & o2 & m & H1 & H2 & ->). exists (r :: o1), o2, m. repeat split; auto. eapply st_emit; eauto.
  - destruct (IH es1 es2 He) as (o1 & o2 & m & H1 & H2 & ->). exists o1, o2, m. repeat split; auto. eapply st_tau; eauto.
  - destruct (IH es1 es2 He) as (o1 & o2 & m & H1 & H2 & ->). exists o1, o2, m. repeat split; auto. eapply st_poke; eauto.
Qed.

(** before a transfer is received the slave waits for it *)
Lemma strace_ready m e es o t : strace m (e :: es) o t ->
  exists o1 o2 m', strace m [] o1 m' /\ act m' = AWait (kind e) /\ strace m' (e :: es) o2 t /\ o = o1 ++ o2.
Proof.
  remember (e :: es) as es0 eqn:E0. intros H. revert e es E0.
  induction H as [s|s x xs o s' Ha Ht IH|s r s1 xs o s' Ha Ht IH|s s1 xs o s' Ha Ht IH|s f xs o s' Hf Ht IH]; intros e es E0.
  - discriminate.
  - injection E0 as -> ->. exists [], o, s. repeat split; auto; [constructor|]. now apply st_in.
  - destruct (IH _ _ E0) as (o1 & o2 & m' & H1 & H2 & H3 & ->). exists (r :: o1), o2, m'. repeat split; auto. eapply st_emit; eauto.
  - destruct (IH _ _ E0) as (o1 & o2 & m' & H1 & H2 & H3 & ->). exists o1, o2, m'. repeat split; auto. eapply st_tau; eauto.
  - destruct (IH _ _ E0) as (o1 & o2 & m' & H1 & H2 & H3 & ->). exists o1, o2, m'. repeat split; auto. eapply st_poke; eauto.
Qed.
End Trace.
Definition nopk (f : S -> S) : Prop := False.
Lemma strace_weaken pk s es o s' : strace nopk s es o s' -> strace pk s es o s'.
Proof. induction 1; [constructor|apply st_in; auto|eapply st_emit; eauto|eapply st_tau; eauto|destruct H]. Qed.

Variable pk : (S -> S) -> Prop.
Hypothesis Hpk : forall f s k, pk f -> act (f s) = AWait k <-> act s = AWait k.
Local Notation ptrace := (strace pk).
Local Notation trace0 := (strace nopk).
Definition ready (s : S) : Prop := exists k, act s = AWait k.

(** ** The operations *)
Variable ok : C -> Z -> Prop.                         (* the slave serves the operation with this ID *)
Variable J : S -> Prop.                               (* the slave is between two operations *)
Hypothesis HJ : forall s, J s -> ready s.
Hypothesis HJpk : forall f s, pk f -> J (f s) <-> J s.
Definition pat (c : C) (u : Z) : list bool := flat_map epat (sends c u).
(** the slave can always finish an operation *)
Hypothesis Hext : forall s c u es more o sa, J s -> ok c u -> sends c u = es ++ more -> ptrace s es o sa ->
  exists rest s', trace0 sa more rest s' /\ J s'.
Hypothesis Hsem : forall s c u rs s', J s -> ok c u -> ptrace s (sends c u) rs s' -> J s' ->
  length rs = length (pat c u) /\ Forall (fun r => rtag r = u) rs.
Lemma tau_emit s s' : (exists r t, act s = AEmit r t) -> trace0 s [] [] s' -> ~ J s'.
Proof. intros (r & t & Ha) H Hj. destruct (HJ _ Hj) as [k Hk]. inversion H as [| | | |? ? ? ? ? []]; subst; congruence. Qed.
(** after running on by itself it sends something before it is between two operations *)
Hypothesis Htau : forall s s' s'', act s = ATau s' -> trace0 s' [] [] s'' -> ~ J s''.
Lemma tau_loop s es o s' : trace0 s es o s' -> act s = ATau s -> ~ J s'.
Proof.
  induction 1 as [s|s e es o s' Ha Ht IH|s r s1 es o s' Ha Ht IH|s s1 es o s' Ha Ht IH|s f es o s' [] Ht IH]; intros Hs Hj; try congruence.
  - destruct (HJ _ Hj). congruence.
  - rewrite Hs in Ha. injection Ha as <-. now apply IH.
Qed.

Definition sendsA (A : list (C * Z)) : list E := flat_map (fun p => sends (fst p) (snd p)) A.
Definition okA (A : list (C * Z)) : Prop := Forall (fun p => ok (fst p) (snd p)) A.

(** operations served one after the other *)
Inductive otr : S -> list (C * Z) -> list (list R) -> S -> Prop :=
| ot_nil s s' : J s -> ptrace s [] [] s' -> J s' -> otr s [] [] s'
| ot_cons s c u rs s1 A rss s2 : J s -> ok c u -> ptrace s (sends c u) rs s1 -> J s1 -> otr s1 A rss s2 ->
    otr s ((c, u) :: A) (rs :: rss) s2.

Lemma otr_J s A rss s' : otr s A rss s' -> J s /\ J s'.
Proof. induction 1; tauto. Qed.
Lemma otr_nil s : J s -> otr s [] [] s.
Proof. constructor; auto. constructor. Qed.
Lemma otr_exists A : forall s, J s -> okA A -> exists rss s', otr s A rss s' /\ trace0 s (sendsA A) (concat rss) s'.
Proof.
  induction A as [|[c u] A IH]; intros s Hs HA.
  - exists [], s. split; [now apply otr_nil|constructor].
  - inversion HA; subst. destruct (Hext s c u [] (sends c u) [] s Hs H1 eq_refl ltac:(constructor)) as (rs & s1 & H & H3).
    destruct (IH s1 H3 H2) as (rss & s2 & H4 & H5). exists (rs :: rss), s2. split.
    + econstructor; eauto. now apply strace_weaken.
    + cbn [sendsA flat_map fst snd concat]. eapply strace_app; eauto.
Qed.
Lemma otr_strace s A rss s' : otr s A rss s' -> ptrace s (sendsA A) (concat rss) s'.
Proof. induction 1; cbn; [assumption|]. eapply strace_app; eauto. Qed.
Lemma otr_length s A rss s' : otr s A rss s' -> length rss = length A.
Proof. induction 1; cbn; congruence. Qed.
Lemma otr_app_inv A1 : forall A2 s rss s', otr s (A1 ++ A2) rss s' ->
  exists r1 r2 m, rss = r1 ++ r2 /\ otr s A1 r1 m /\ otr m A2 r2 s'.
Proof.
  induction A1 as [|[c u] A1 IH]; intros A2 s rss s' H; cbn [app] in H.
  - exists [], rss, s. repeat split; auto. apply otr_nil. now apply otr_J in H.
  - inversion H; subst. destruct (IH _ _ _ _ H10) as (r1 & r2 & m & -> & H1 & H2).
    exists (rs :: r1), r2, m. repeat split; auto. econstructor; eauto.
Qed.

(** responses of the operations with ID t *)
Definition rss_on (t : Z) (A : list (C * Z)) (rss : list (list R)) : list (list R) :=
  map snd (filter (fun p => snd (fst p) =? t) (combine A rss)).
Lemma rss_on_spec t s A rss s' : otr s A rss s' ->
  filter (fun r => rtag r =? t) (concat rss) = concat (rss_on t A rss) /\
  Forall2 (fun c rs => length rs = length (pat c t)) (with_tag t A) (rss_on t A rss).
Proof.
  induction 1 as [|s c u rs s1 A rss s2 K1 K2 K3 K4 H1 [IH1 IH2]]; [split; [reflexivity|constructor]|].
  destruct (Hsem _ _ _ _ _ K1 K2 K3 K4) as (HL & HT). cbn [concat]. rewrite filter_app, IH1. unfold rss_on, with_tag.
  cbn [combine filter fst snd]. destruct (Z.eqb_spec u t) as [Heq|Hne].
  - subst u. cbn [map concat snd fst]. split.
    + f_equal. clear - HT. induction HT; cbn; auto. rewrite H, Z.eqb_refl. now f_equal.
    + constructor; auto.
  - split; auto. replace (filter (fun r => rtag r =? t) rs) with (@nil R); auto.
    clear - HT Hne. induction HT; cbn; auto. destruct (Z.eqb_spec (rtag x) t); [congruence|auto].
Qed.

(** a waiting slave that gets nothing does nothing *)
Lemma wait_nothing s o s' : ptrace s [] o s' -> ready s -> o = [] /\ (J s' <-> J s) /\ ready s'.
Proof.
  clear Htau. remember [] as es eqn:Ees. intros H. revert Ees.
  induction H as [s|s x xs o s' Ha Ht IH|s r s1 xs o s' Ha Ht IH|s s1 xs o s' Ha Ht IH|s f xs o s' Hf Ht IH]; intros Ees [k Hr]; try congruence.
  - repeat split; auto. now exists k.
  - destruct (IH Ees) as (H1 & H2 & H3); [exists k; now apply Hpk|]. split; auto. split; auto. rewrite H2. now apply HJpk.
Qed.
Lemma silent_end sa s1 : trace0 sa [] [] s1 -> J s1 -> s1 = sa.
Proof.
  intros H Hj. destruct (HJ _ Hj) as [k Hk]. inversion H; subst; auto; [|destruct H0].
  now destruct (Htau _ _ _ H0 H1).
Qed.

Lemma op_cut s c u e es2 o t : J s -> ok c u -> ptrace s (sends c u ++ e :: es2) o t ->
  exists o1 o2 m, o = o1 ++ o2 /\ J m /\ ptrace s (sends c u) o1 m /\ ptrace m (e :: es2) o2 t.
Proof.
  intros Hj Hok H. destruct (strace_cut _ _ _ _ _ H _ _ eq_refl) as (o1 & o2 & m & H1 & H2 & ->).
  destruct (strace_ready _ _ _ _ _ _ H2) as (o3 & o4 & m' & H3 & H4 & H5 & ->).
  exists (o1 ++ o3), o4, m'. rewrite app_assoc. split; auto.
  assert (H6 : ptrace s (sends c u) (o1 ++ o3) m') by (rewrite <- (app_nil_r (sends c u)); eapply strace_app; eauto).
  split; auto. destruct (Hext s c u (sends c u) [] _ _ Hj Hok ltac:(now rewrite app_nil_r) H6) as (rest & s' & H7 & H8).
  apply (strace_weaken pk) in H7. destruct (wait_nothing _ _ _ H7) as (_ & K & _); [eexists; eauto|]. tauto.
Qed.

(** Where the slave is: [B1] are the finished operations, [B2] the others (the first of them may be under way, with the
    transfers es' received and the responses o' sent), and how it can go on. *)
Definition at_op (s : S) (A : list (C * Z)) (es : list E) (o : list R) (sa : S) (more : list E)
  (B1 : list (C * Z)) (r1 : list (list R)) (sm : S) (es' : list E) (o' : list R)
  (B2 : list (C * Z)) (r2 : list (list R)) (rest : list R) (sN : S) : Prop :=
  A = B1 ++ B2 /\ otr s B1 r1 sm /\ otr sm B2 r2 sN /\ es = sendsA B1 ++ es' /\ o = concat r1 ++ o' /\
  ptrace sm es' o' sa /\ trace0 sa more rest sN /\ sendsA B2 = es' ++ more /\ concat r2 = o' ++ rest /\
  match B2 with
  | [] => True
  | (c, u) :: _ => exists more1 rest1 s1 rs r3, r2 = rs :: r3 /\ sends c u = es' ++ more1 /\ rs = o' ++ rest1 /\
      trace0 sa more1 rest1 s1 /\ J s1 /\ (more1 <> [] \/ rest1 <> [])
  end.

Lemma trace_ext A : forall s es more o sa, J s -> okA A -> sendsA A = es ++ more -> ptrace s es o sa ->
  exists B1 r1 sm es' o' B2 r2 rest sN, at_op s A es o sa more B1 r1 sm es' o' B2 r2 rest sN.
Proof.
  induction A as [|[c u] A IH]; intros s es more o sa Hj HA Hs Ht.
  - cbn in Hs. symmetry in Hs. apply app_eq_nil in Hs as [-> ->]. destruct (wait_nothing _ _ _ Ht (HJ _ Hj)) as (-> & Hjj & _).
    exists [], [], s, [], [], [], [], [], sa. split; auto. split; [now apply otr_nil|]. split; [constructor; tauto|]. split; auto.
    split; auto. split; auto. split; [constructor|]. auto.
  - inversion HA; subst. cbn [fst snd] in *. cbn [sendsA flat_map fst snd] in Hs. fold (sendsA A) in Hs.
    assert (Hcmp : (exists e w, es = sends c u ++ e :: w /\ sendsA A = (e :: w) ++ more) \/ (exists w, sends c u = es ++ w /\ more = w ++ sendsA A)).
    { clear - Hs. revert Hs. generalize (sends c u) as a. intros a. revert es. induction a as [|x a IH]; intros es H; cbn [app] in H.
      - destruct es as [|e w]; [right; exists []; auto|left; exists e, w; auto].
      - destruct es as [|e es]; cbn [app] in H.
        + right. exists (x :: a). auto.
        + injection H as <- H. destruct (IH es H) as [(e & w & -> & E2)|(w & -> & E2)]; [left; exists e, w; auto|right; exists w; auto]. }
    destruct Hcmp as [(e & w & -> & Hs2)|(w & Hw & ->)].
    + destruct (op_cut s c u e w o sa Hj H1 Ht) as (o1 & o2 & m & -> & Hm & T1 & T2).
      destruct (IH m (e :: w) more o2 sa Hm H2 Hs2 T2) as (B1 & r1 & sm & es' & o' & B2 & r2 & rest & sN & (K1 & K2 & K3 & K4 & K5 & K6)).
      exists ((c, u) :: B1), (o1 :: r1), sm, es', o', B2, r2, rest, sN. split; [cbn; congruence|].
      split; [econstructor; eauto|]. split; auto. split; [cbn [sendsA flat_map fst snd]; fold (sendsA B1); rewrite K4, app_assoc; auto|].
      split; [cbn [concat]; rewrite K5, app_assoc; auto|]. exact K6.
    + destruct (Hext s c u es w o sa Hj H1 Hw Ht) as (rest1 & s1 & T1 & Hj1).
      assert (Hd : (w = [] /\ rest1 = []) \/ (w <> [] \/ rest1 <> [])).
      { destruct w; [destruct rest1; [auto|right; right; discriminate]|right; left; discriminate]. }
      destruct Hd as [[-> ->]|Hd].
      * apply silent_end in T1; auto. subst s1. rewrite app_nil_r in Hw. subst es.
        destruct (IH sa [] (sendsA A) [] sa Hj1 H2 eq_refl (st_nil pk sa))
          as (B1 & r1 & sm & es' & o' & B2 & r2 & rest & sN & (K1 & K2 & K3 & K4 & K5 & K6)).
        exists ((c, u) :: B1), (o :: r1), sm, es', o', B2, r2, rest, sN. split; [cbn; congruence|].
        split; [econstructor; eauto|]. split; auto.
        split; [cbn [sendsA flat_map fst snd]; fold (sendsA B1); rewrite <- app_assoc, <- K4, app_nil_r; auto|].
        split; [cbn [concat]; rewrite <- app_assoc, <- K5, app_nil_r; auto|]. exact K6.
      * destruct (otr_exists A s1 Hj1 H2) as (r3 & sN & O3 & T3).
        exists [], [], s, es, o, ((c, u) :: A), ((o ++ rest1) :: r3), (rest1 ++ concat r3), sN.
        split; auto. split; [now apply otr_nil|]. split.
        { econstructor; eauto. rewrite Hw. eapply strace_app; [exact Ht|]. now apply strace_weaken. }
        split; auto. split; auto. split; auto. split; [eapply strace_app; eauto|].
        split; [cbn [sendsA flat_map fst snd]; fold (sendsA A); rewrite Hw, app_assoc; auto|]. split; [cbn [concat]; now rewrite app_assoc|].
        exists w, rest1, s1, (o ++ rest1), r3. repeat (split; [solve [auto]|]). exact Hd.
Qed.

(** ** The master is the engine *)
Definition quiet_op (o : xop C R) : Prop := match o with PReset _ => False | _ => True end.

Lemma y_step_m y o : let '(y', os) := step y o in
  exists ho, xrun (y_m y) ho = (y_m y', os) /\ Forall quiet_op ho /\ (length ho <= 1)%nat.
Proof.
  assert (K0 : forall y', y_m y' = y_m y -> exists ho, xrun (y_m y) ho = (y_m y', []) /\ Forall quiet_op ho /\ (length ho <= 1)%nat).
  { intros y' H. exists []. cbn. rewrite H. repeat split; auto. }
  assert (K1 : forall y1 xo, y_m y1 = y_m y -> quiet_op xo ->
    let '(y', os) := m_step sends opens epat chk rtag ask idn y1 xo in
    exists ho, xrun (y_m y) ho = (y_m y', os) /\ Forall quiet_op ho /\ (length ho <= 1)%nat).
  { intros y1 xo H Hq. unfold m_step. rewrite H. destruct (xstep (y_m y) xo) as [m os] eqn:Es. exists [xo].
    cbn [x_run]. rewrite Es, app_nil_r. repeat split; auto. }
  destruct o; cbn [y_step]; try (apply K1; auto; exact I); try (apply K0; reflexivity).
  - destruct (e_wtask (y_m y)); try (apply K0; reflexivity). destruct (next_send (y_m y)) as [e|]; [|apply K0; reflexivity].
    destruct (q_room _); [|apply K0; reflexivity]. apply K1; [|exact I]. now destruct (kind e).
  - destruct (e_rtask (y_m y)), (ch_snk (y_b y)); try (apply K0; reflexivity). apply K1; auto. exact I.
  - apply K0. now destruct k.
  - apply K0. now destruct k.
  - destruct (act (y_s y)) as [k|r s|s|]; try (apply K0; reflexivity).
    + destruct (ch_snk (fwd y k)); apply K0; auto. now destruct k.
    + destruct (q_room _); apply K0; reflexivity.
Qed.

Lemma y_run_app y h1 h2 : run y (h1 ++ h2) =
  let '(y1, o1) := run y h1 in let '(y2, o2) := run y1 h2 in (y2, o1 ++ o2).
Proof.
  revert y. induction h1 as [|o h1 IH]; intros y; cbn [app y_run].
  - now destruct (run y h2).
  - destruct (step y o) as [y1 o1]. rewrite IH. destruct (run y1 h1) as [y2 o2]. destruct (run y2 h2) as [y3 o3].
    now rewrite app_assoc.
Qed.

Lemma y_run_m s0 h : let '(y, l) := run (sys_init s0) h in
  exists hm, xrun xeng_init hm = (y_m y, l) /\ Forall quiet_op hm.
Proof.
  induction h as [|o h IH] using rev_ind.
  - exists []. split; [reflexivity|constructor].
  - rewrite y_run_app. destruct (run (sys_init s0) h) as [y l]. destruct IH as (hm & H1 & H2).
    cbn [y_run]. pose proof (y_step_m y o) as K. destruct (step y o) as [y' os]. destruct K as (ho & K1 & K2 & _).
    exists (hm ++ ho). rewrite xrun_app, H1, K1, app_nil_r. split; auto. now apply Forall_app.
Qed.

(** without reset *)
Lemma x_step_quiet m o : quiet_op o -> let '(m', os) := xstep m o in
  xquiet os /\ e_wtask m' = e_wtask m /\ (e_rtask m' = e_rtask m \/ xcrashed os = true) /\
  ((length os <= 1)%nat \/ exists r, os = [XResp r; XCrash]).
Proof.
  assert (K : forall (m' : xeng C E R) (os : list (xout C E R)), e_wtask m' = e_wtask m -> e_rtask m' = e_rtask m -> xquiet os -> (length os <= 1)%nat ->
     xquiet os /\ e_wtask m' = e_wtask m /\ (e_rtask m' = e_rtask m \/ xcrashed os = true) /\
     ((length os <= 1)%nat \/ exists r, os = [XResp r; XCrash])) by auto 8.
  intros Hq. destruct o; cbn [x_step]; try (apply K; reflexivity || (cbn; lia)).
  - destruct (nth_error _ n); apply K; reflexivity || (cbn; lia).
  - destruct (e_wtask m) eqn:Ew, (e_cur m) as [[[? ?] ?]|], (e_q m); try (apply K; reflexivity || (cbn; lia) || assumption).
    destruct (x_choose ask idn m c) as [t id]. unfold x_go. destruct (sends c t); apply K; reflexivity || (cbn; lia) || assumption.
  - destruct (e_wtask m) eqn:Ew, (e_cur m) as [[[? ?] [|? ?]]|]; try (apply K; reflexivity || (cbn; lia) || assumption).
    unfold x_go. destruct l; apply K; reflexivity || (cbn; lia) || assumption.
  - destruct (e_rtask m) eqn:Er; try (apply K; reflexivity || (cbn; lia) || assumption). unfold x_resp. destruct (0 <? _).
    + apply K; reflexivity || (cbn; lia) || assumption.
    + repeat split; auto. right. eauto.
  - destruct (nth_error _ i) as [x|]; [|apply K; reflexivity || (cbn; lia)].
    destruct (x_task x), (x_cur x), (x_cmdq x); try (apply K; reflexivity || (cbn; lia)).
    unfold x_ctx. destruct (Nat.leb _ _); apply K; reflexivity || (cbn; lia).
  - destruct (nth_error _ i) as [x|]; [|apply K; reflexivity || (cbn; lia)].
    destruct (x_task x), (x_cur x) as [[[? ?] ?]|], (x_respq x); try (apply K; reflexivity || (cbn; lia)).
    destruct (_ && _); [|apply K; reflexivity || (cbn; lia)]. unfold x_ctx. destruct (Nat.leb _ _); apply K; reflexivity || (cbn; lia).
  - destruct Hq.
Qed.

Lemma xcrashed_app l1 l2 : xcrashed (l1 ++ l2) = xcrashed l1 || xcrashed l2.
Proof. apply existsb_app. Qed.
Lemma xquiet_app l1 l2 : xquiet l1 -> xquiet l2 -> xquiet (l1 ++ l2).
Proof. unfold xquiet. intros H1 H2. now rewrite existsb_app, H1, H2. Qed.

Lemma xrun_quiet hm : Forall quiet_op hm -> let '(m, l) := xrun xeng_init hm in
  xquiet l /\ e_wtask m = TRun /\ (e_rtask m = TRun \/ xcrashed l = true).
Proof.
  induction hm as [|o hm IH] using rev_ind; intros Hq; [cbn; repeat split; auto|].
  apply Forall_app in Hq as [Hq Ho]. specialize (IH Hq). rewrite xrun_app. destruct (xrun xeng_init hm) as [m l].
  destruct IH as (I1 & I2 & I3). cbn [x_run]. inversion Ho as [|? ? Ho' _]; subst.
  pose proof (x_step_quiet m o Ho') as K. destruct (xstep m o) as [m' os]. destruct K as (K1 & K2 & K3 & _). rewrite app_nil_r.
  split; [now apply xquiet_app|]. split; [congruence|]. rewrite xcrashed_app.
  destruct I3 as [I3|I3], K3 as [K3|K3]; rewrite ?I3, ?K3, ?orb_true_r; auto.
Qed.

(** ** The invariant *)
Variable etag : E -> Z.
Hypothesis Htag : forall c u e, In e (sends c u) -> opens e = true -> etag e = u.
Hypothesis Hpat0 : forall e, opens e = false -> epat e = [].
Hypothesis Hpat1 : forall e, opens e = true -> exists k, epat e = repeat false k ++ [true].
Hypothesis Hidn : 0 < idn.
Variable s0 : S.
Hypothesis HJ0 : J s0.
Definition owedE (t : Z) (es : list E) : list bool := flat_map epat (filter (fun e => etag e =? t) es).
Definition tag_ok (es : list E) (rs : list R) : Prop := forall t,
  let a := filter (fun r => rtag r =? t) rs in
  (length a <= length (owedE t es))%nat /\
  forall i r b, nth_error a i = Some r -> nth_error (owedE t es) i = Some b -> chk b r = true.
Hypothesis Hconf : forall A es more o s', okA A -> sendsA A = es ++ more -> ptrace s0 es o s' -> tag_ok es o.
(** the last transfer of an operation is answered *)
Hypothesis Hlast : forall c u es e, ok c u -> sends c u = es ++ [e] ->
  forall s o s', trace0 s [e] o s' -> J s' -> o <> [].

Definition poke_ok (o : yop C S) : Prop := match o with YPoke f => pk f | _ => True end.

Definition yinv y l (es : list E) : Prop := exists o X,
  xsent l = es ++ X /\
  (forall k, filter (fun e => Bool.eqb (kind e) k) X = chc (fwd y k)) /\
  ptrace s0 es o (y_s y) /\
  o = xreceived l ++ chc (y_b y).

Definition asgs l := assigned ask idn 0 (xstarted l).
Local Notation conf := (conforms etag epat chk rtag).

Lemma tag_ok_prefix es o es2 o2 : tag_ok es (o ++ o2) -> tag_ok (es ++ es2) o.
Proof.
  intros H t. destruct (H t) as [H1 H2]. cbv zeta in *. unfold owedE in *. rewrite filter_app, flat_map_app.
  rewrite filter_app, app_length in H1. rewrite app_length. split; [lia|]. intros i r b Hi Hb. apply (H2 i r b).
  - rewrite filter_app, nth_error_app1; auto. apply nth_error_Some. congruence.
  - rewrite nth_error_app1 in Hb; auto. apply Nat.lt_le_trans with (length (filter (fun r => rtag r =? t) o)); [|lia].
    apply nth_error_Some. congruence.
Qed.

Lemma conf_step l os : conf l -> xquiet (l ++ os) -> tag_ok (xsent (l ++ os)) (xreceived (l ++ os)) ->
  ((length os <= 1)%nat \/ exists r, os = [XResp r; XCrash]) -> conf (l ++ os).
Proof.
  intros Hc Hq Ht Hl l1 l2 t He.
  assert (Hlast1 : forall l', xquiet l' -> xsent l' = xsent (l ++ os) -> xreceived l' = xreceived (l ++ os) ->
    (length (answers rtag t (xepoch l')) <= length (owed etag epat t (xepoch l')))%nat /\
    (forall i r b, nth_error (answers rtag t (xepoch l')) i = Some r ->
                   nth_error (owed etag epat t (xepoch l')) i = Some b -> chk b r = true)).
  { intros l' Q E1 E2. rewrite xepoch_quiet by auto. unfold answers, owed. rewrite E1, E2. apply (Ht t). }
  assert (Hq1 : xquiet l1).
  { unfold xquiet in *. rewrite He, existsb_app in Hq. now apply orb_false_iff in Hq. }
  assert (Hin : (exists z, l = l1 ++ z) \/ (exists z, os = z ++ l2 /\ l1 = l ++ z /\ z <> [])).
  { clear - He. revert l1 He. induction l as [|x l IH]; intros l1 He; cbn [app] in He.
    - destruct l1 as [|x l1]; [left; exists []; reflexivity|]. right. exists (x :: l1). repeat split; auto. discriminate.
    - destruct l1 as [|x1 l1]; [left; exists (x :: l); reflexivity|]. injection He as <- He.
      destruct (IH l1 He) as [[z ->]|(z & E1 & -> & E2)]; [left; exists z; reflexivity|]. right. exists z. auto. }
  destruct Hin as [[z Hz]|(z & E1 & E2 & E3)]; [exact (Hc l1 z t Hz)|]. apply Hlast1; auto; subst l1.
  - rewrite !xsent_app. f_equal. destruct Hl as [Hl|(r & ->)].
    + destruct z as [|x z]; [congruence|]. subst os. cbn in Hl. rewrite app_length in Hl. destruct z; [|cbn in Hl; lia].
      destruct l2; [now rewrite app_nil_r|cbn in Hl; lia].
    + destruct z as [|x [|x2 z]]; [congruence|injection E1 as <- E1; reflexivity|].
      injection E1 as <- <- E1. destruct z; [reflexivity|discriminate].
  - rewrite !xreceived_app. f_equal. destruct Hl as [Hl|(r & ->)].
    + destruct z as [|x z]; [congruence|]. subst os. cbn in Hl. rewrite app_length in Hl. destruct z; [|cbn in Hl; lia].
      destruct l2; [now rewrite app_nil_r|cbn in Hl; lia].
    + destruct z as [|x [|x2 z]]; [congruence|injection E1 as <- E1; reflexivity|].
      injection E1 as <- <- E1. destruct z; [reflexivity|discriminate].
Qed.

Lemma fwd_set y k c k' : fwd (set_fwd y k c) k' = if Bool.eqb k k' then c else fwd y k'.
Proof. destruct k, k'; reflexivity. Qed.

(** what the master does in a step *)
Lemma yinv_master y l es m os : yinv y l es -> xsent os = [] -> xreceived os = [] -> yinv (set_m y m) (l ++ os) es.
Proof.
  intros (o & X & H1 & H2 & H3 & H5) E1 E2. exists o, X.
  rewrite xsent_app, xreceived_app, E1, E2, !app_nil_r. split; [exact H1|]. split; [intros k; rewrite H2; now destruct k|].
  auto.
Qed.

Lemma x_step_io m o : match o with PSend | PResp _ | PReset _ => False | _ => True end ->
  let '(m', os) := xstep m o in xsent os = [] /\ xreceived os = [].
Proof.
  intros Hq. destruct o; cbn [x_step]; auto; try tauto.
  - destruct (nth_error _ n); auto.
  - destruct (e_wtask m), (e_cur m) as [[[? ?] ?]|], (e_q m); auto. destruct (x_choose ask idn m c) as [t id]. auto.
  - destruct (nth_error _ i) as [x|]; auto. destruct (x_task x), (x_cur x), (x_cmdq x); auto.
    unfold x_ctx. destruct (Nat.leb _ _); auto.
  - destruct (nth_error _ i) as [x|]; auto. destruct (x_task x), (x_cur x) as [[[? ?] ?]|], (x_respq x); auto.
    destruct (_ && _); auto. unfold x_ctx. destruct (Nat.leb _ _); auto.
Qed.

(** the trace of the slave can be continued with the transfers under way *)
Lemma trace_rest l es o sa X more : okA (asgs l) -> sendsA (asgs l) = xsent l ++ more -> xsent l = es ++ X ->
  ptrace s0 es o sa -> exists B1 r1 sm es' o' B2 r2 rest sN, at_op s0 (asgs l) es o sa (X ++ more) B1 r1 sm es' o' B2 r2 rest sN.
Proof. intros HA Hs HX Ht. apply trace_ext; auto. rewrite Hs, HX, <- app_assoc. reflexivity. Qed.

Lemma yinv_step y l es o more : poke_ok o -> okA (asgs l) -> sendsA (asgs l) = xsent l ++ more ->
  yinv y l es -> let '(y', os) := step y o in exists es' w, xsent l = es' ++ w /\ yinv y' (l ++ os) es'.
Proof.
  intros Hp HA Hs HI.
  assert (He : exists w, xsent l = es ++ w) by (destruct HI as (? & X & HX & _); now exists X). destruct He as [w Hw].
  assert (Kes : forall y' os, yinv y' (l ++ os) es -> exists es' w, xsent l = es' ++ w /\ yinv y' (l ++ os) es') by eauto.
  assert (Hsame : exists es' w, xsent l = es' ++ w /\ yinv y (l ++ []) es') by (apply Kes; now rewrite app_nil_r).
  assert (Hm : forall xo, match xo with PSend | PResp _ | PReset _ => False | _ => True end ->
     let '(y', os) := m_step sends opens epat chk rtag ask idn y xo in exists es' w, xsent l = es' ++ w /\ yinv y' (l ++ os) es').
  { intros xo Hx. unfold m_step. pose proof (x_step_io (y_m y) xo Hx) as K. destruct (xstep (y_m y) xo) as [m os].
    destruct K. apply Kes. now apply yinv_master. }
  destruct o as [c|c|n| | | |i|i|k|k| | | |f]; cbn [y_step]; try (apply Hm; exact I).
  - (* send *)
    destruct (e_wtask (y_m y)) eqn:Ew; auto. destruct (next_send (y_m y)) as [e|] eqn:En; auto.
    destruct (q_room _); auto. unfold m_step.
    assert (Hy : y_m (set_fwd y (kind e) (ch_push (fwd y (kind e)) e)) = y_m y) by now destruct (kind e). rewrite Hy. clear Hy.
    unfold next_send in En. cbn [x_step]. rewrite Ew. destruct (e_cur (y_m y)) as [[[c t] [|e' rest]]|]; try discriminate.
    injection En as ->. destruct HI as (o & X & H1 & H2 & H3 & H5).
    apply Kes; exists o, (X ++ [e]). rewrite xsent_app, xreceived_app. cbn [xsent xreceived]. rewrite app_nil_r.
    split; [rewrite H1; now rewrite app_assoc|]. split; [|split; [now destruct (kind e)|rewrite H5; now destruct (kind e)]].
    intros k. rewrite filter_app, H2. cbn [filter].
    assert (Hf : fwd (set_m (set_fwd y (kind e) (ch_push (fwd y (kind e)) e)) (x_go sends opens epat (y_m y) (e_q (y_m y)) (e_id (y_m y)) c t rest)) k
       = if Bool.eqb (kind e) k then ch_push (fwd y k) e else fwd y k).
    { generalize (kind e) as b. intros b. destruct b, k; reflexivity. }
    rewrite Hf. destruct (Bool.eqb (kind e) k); [now rewrite chc_push|now rewrite app_nil_r].
  - (* recv *)
    destruct (e_rtask (y_m y)) eqn:Er; auto. destruct (ch_snk (y_b y)) as [|r q] eqn:Eq; auto. unfold m_step.
    cbn [y_m set_b x_step]. rewrite Er.
    destruct HI as (o & X & H1 & H2 & H3 & H5).
    assert (K : forall m os, xsent os = [] -> xreceived os = [r] -> exists es' w, xsent l = es' ++ w /\ yinv (set_m (set_b y (ch_pop (y_b y) q)) m) (l ++ os) es').
    { intros m os E1 E2. apply Kes; exists o, X. rewrite xsent_app, xreceived_app, E1, E2, app_nil_r. split; auto.
      split; [intros k; rewrite H2; now destruct k|]. split; auto. cbn [y_b set_m set_b].
      rewrite H5, (chc_pop _ _ _ Eq), <- app_assoc. reflexivity. }
    unfold x_resp. destruct (0 <? _); now apply K.
  - (* load *)
    destruct HI as (o & X & H1 & H2 & H3 & H5). apply Kes; exists o, X. rewrite app_nil_r. split; auto.
    split; [|split; [now destruct k|rewrite H5; now destruct k]].
    intros k'. rewrite fwd_set, H2. destruct (Bool.eqb k k') eqn:Ek; auto. apply eqb_prop in Ek. subst k'. now rewrite chc_load.
  - destruct HI as (o & X & H1 & H2 & H3 & H5). apply Kes; exists o, X. rewrite app_nil_r. split; auto.
    split; [|split; [now destruct k|rewrite H5; now destruct k]].
    intros k'. rewrite fwd_set, H2. destruct (Bool.eqb k k') eqn:Ek; auto. apply eqb_prop in Ek. subst k'. now rewrite chc_xfer.
  - destruct HI as (o & X & H1 & H2 & H3 & H5). apply Kes; exists o, X. rewrite app_nil_r. split; auto.
    split; [intros k; rewrite H2; now destruct k|]. split; auto. rewrite H5. cbn [y_b set_b]. now rewrite chc_load.
  - destruct HI as (o & X & H1 & H2 & H3 & H5). apply Kes; exists o, X. rewrite app_nil_r. split; auto.
    split; [intros k; rewrite H2; now destruct k|]. split; auto. rewrite H5. cbn [y_b set_b]. now rewrite chc_xfer.
  - (* slave *)
    destruct HI as (o & X & H1 & H2 & H3 & H5).
    destruct (act (y_s y)) as [k|r s|s|] eqn:Ea; auto.
    + destruct (ch_snk (fwd y k)) as [|e q] eqn:Eq; auto.
      destruct (trace_rest l es o _ X more HA Hs H1 H3) as (B1 & r1 & sm & es' & o' & B2 & r2 & rest & sN & (_ & _ & _ & _ & _ & _ & T4 & _)).
      pose proof (H2 k) as Hk. rewrite (chc_pop _ _ _ Eq) in Hk.
      destruct X as [|x X']; [discriminate|]. cbn [app] in T4. inversion T4 as [| | | |? ? ? ? ? []]; subst; try congruence.
      assert (Hkx : kind x = k) by congruence.
      cbn [filter] in Hk. rewrite Hkx, Bool.eqb_reflx in Hk. injection Hk as Hx Hk. subst x.
      exists (es ++ [e]), X'. split; [rewrite H1, <- app_assoc; reflexivity|].
      exists (xreceived l ++ chc (y_b y)), X'. rewrite app_nil_r. split; [rewrite H1, <- app_assoc; reflexivity|].
      split; [|split; [|now destruct k]].
      * intros k'. change (fwd (set_s (set_fwd y k (ch_pop (fwd y k) q)) (sin (y_s y) e)) k') with (fwd (set_fwd y k (ch_pop (fwd y k) q)) k').
        rewrite fwd_set. destruct (Bool.eqb k k') eqn:Ek.
        { apply eqb_prop in Ek. subst k'. exact Hk. }
        rewrite <- H2. cbn [filter]. rewrite Hkx, Ek. reflexivity.
      * rewrite <- (app_nil_r (xreceived l ++ chc (y_b y))). eapply strace_app; [exact H3|]. apply st_in; [congruence|constructor].
    + destruct (q_room _); auto.
      apply Kes; exists (o ++ [r]), X. rewrite app_nil_r. split; auto. split; [intros k; rewrite H2; now destruct k|]. split.
      * rewrite <- (app_nil_r es). eapply strace_app; [exact H3|]. eapply st_emit; [exact Ea|constructor].
      * cbn [y_b set_s set_b]. now rewrite chc_push, H5, app_assoc.
    + apply Kes; exists o, X. rewrite app_nil_r. split; auto.
      split; [intros k; rewrite H2; now destruct k|]. split; auto.
      rewrite <- (app_nil_r es), <- (app_nil_r o). eapply strace_app; [exact H3|]. eapply st_tau; [exact Ea|constructor].
  - destruct HI as (o & X & H1 & H2 & H3 & H5). apply Kes; exists o, X. rewrite app_nil_r. split; auto.
    split; [intros k; rewrite H2; now destruct k|]. split; auto. cbn [y_s set_s].
    rewrite <- (app_nil_r es), <- (app_nil_r o). eapply strace_app; [exact H3|]. eapply st_poke; [exact Hp|constructor].
Qed.

Lemma assigned_app a : forall k b, exists z, assigned ask idn k (a ++ b) = assigned ask idn k a ++ z.
Proof.
  induction a as [|x a IH]; intros k b; cbn [app assigned]; [eauto|].
  destruct (ask x) as [i|]; [destruct (IH k b) as [z ->]|destruct (IH (k + 1) b) as [z ->]]; now exists z.
Qed.
Lemma okA_prefix l os : okA (asgs (l ++ os)) -> okA (asgs l).
Proof.
  unfold asgs. rewrite xstarted_app. destruct (assigned_app (xstarted l) 0 (xstarted os)) as [z ->].
  unfold okA. rewrite Forall_app. tauto.
Qed.

Lemma engine_facts y l : (exists hm, xrun xeng_init hm = (y_m y, l) /\ Forall quiet_op hm) -> conf l ->
  xquiet l /\ e_wtask (y_m y) = TRun /\ e_rtask (y_m y) = TRun /\
  matched sends ask idn etag epat rtag l (e_wtask (y_m y) = TRun /\ forall o, task_op o -> xstep (y_m y) o = (y_m y, [])).
Proof.
  intros (hm & H1 & H2) Hc. pose proof (xrun_quiet hm H2) as Q. rewrite H1 in Q. destruct Q as (Q1 & Q2 & Q3).
  pose proof (matched_of sends opens epat chk rtag ask idn etag Htag Hpat0 Hpat1 Hidn hm) as M. rewrite H1 in M. specialize (M Hc).
  pose proof M as (M1 & _). split; auto. split; auto. split; auto. destruct Q3 as [Q3|Q3]; auto. congruence.
Qed.

Lemma sys_run h : Forall poke_ok h -> let '(y, l) := run (sys_init s0) h in
  okA (asgs l) -> conf l /\ exists es, yinv y l es.
Proof.
  induction h as [|o h IH] using rev_ind; intros Hp.
  - cbn. intros _. split.
    + intros l1 l2 t He. symmetry in He. apply app_eq_nil in He as [-> ->]. cbn. split; [lia|]. intros [|i]; discriminate.
    + exists [], [], []. repeat split; auto; [intros []; reflexivity|constructor].
  - apply Forall_app in Hp as [Hp Ho]. specialize (IH Hp). inversion Ho as [|? ? Ho' _]; subst. rewrite y_run_app.
    pose proof (y_run_m s0 h) as HM. destruct (run (sys_init s0) h) as [y l]. cbn [y_run].
    pose proof (y_step_m y o) as HS. pose proof (fun es => yinv_step y l es o) as HV. destruct (step y o) as [y' os]. rewrite app_nil_r.
    intros HA. pose proof (okA_prefix _ _ HA) as HA1. destruct (IH HA1) as (IC & es & II).
    destruct (engine_facts y l HM IC) as (Q1 & Q2 & Q3 & M). destruct M as (M1 & M2 & (more & M3) & _).
    rewrite xepoch_quiet in M3 by auto. fold (asgs l) in M3. destruct (HV es more Ho' HA1 M3 II) as (es' & w & Hw & HV'). clear HV. rename HV' into HV. split; [|eauto].
    destruct HM as (hm & E1 & E2). destruct HS as (ho & S1 & S2 & S3).
    assert (HM' : exists hm, xrun xeng_init hm = (y_m y', l ++ os) /\ Forall quiet_op hm).
    { exists (hm ++ ho). rewrite xrun_app, E1, S1. split; auto. now apply Forall_app. }
    assert (Hos : xquiet os /\ ((length os <= 1)%nat \/ exists r, os = [XResp r; XCrash])).
    { destruct ho as [|xo [|xo2 ho]]; cbn [length] in S3; try lia; cbn [x_run] in S1.
      - injection S1 as _ <-. split; [reflexivity|cbn; auto].
      - inversion S2; subst. pose proof (x_step_quiet (y_m y) xo H1) as K. destruct (xstep (y_m y) xo) as [m' os'].
        rewrite app_nil_r in S1. injection S1 as _ <-. tauto. }
    destruct Hos as [Hq Hl]. apply conf_step; auto; [now apply xquiet_app|].
    pose proof HV as (o1 & X & V1 & V2 & V3 & V5).
    assert (Hsub : exists more', sendsA (asgs (l ++ os)) = es' ++ more').
    { unfold asgs in *. rewrite xstarted_app. destruct (assigned_app (xstarted l) 0 (xstarted os)) as [z ->].
      unfold sendsA in *. rewrite flat_map_app, M3, Hw, <- !app_assoc. eauto. }
    destruct Hsub as [more' Hsub]. rewrite V1.
    pose proof (Hconf _ _ _ _ _ HA Hsub V3) as Hok. rewrite V5 in Hok.
    exact (tag_ok_prefix _ _ X _ Hok).
Qed.

(** ** The result *)

Lemma segs_rss {Y} (f : C -> nat) (segs rr : list (list Y)) : forall cs z,
  (length segs <= length cs)%nat ->
  Forall2 (fun c g => length g = f c) (firstn (length segs) cs) segs ->
  Forall2 (fun c g => length g = f c) cs rr ->
  concat rr = concat segs ++ z -> segs = firstn (length segs) rr.
Proof.
  revert rr. induction segs as [|g segs IH]; intros rr cs z Hl H1 H2 He; [reflexivity|].
  destruct cs as [|c cs]; [cbn in Hl; lia|]. cbn [length firstn] in *. inversion H1; subst. inversion H2; subst.
  cbn [concat] in He. rewrite <- app_assoc in He.
  assert (g = y /\ concat l' = concat segs ++ z) as [-> E2].
  { assert (Hg : length g = length y) by congruence. clear - He Hg. revert y Hg He.
    induction g as [|a g IH]; intros [|b y] Hg He; cbn in *; try discriminate; auto.
    injection He as <- He. injection Hg as Hg. destruct (IH y Hg He). now subst. }
  f_equal. eapply (IH l' cs z); auto. lia.
Qed.

Lemma chan_quiet {Y} (c : chan Y) : ch_snk c = [] -> ch_load c = c -> ch_xfer c = c -> chc c = [].
Proof.
  destruct c as [s [r|] k]; cbn; intros ->.
  - intros _ H. discriminate.
  - destruct s; cbn; [reflexivity|]. intros H. discriminate.
Qed.

Lemma strace_wait s es o s' k : trace0 s es o s' -> act s = AWait k -> es = [] -> o = [] /\ s' = s.
Proof. intros H. inversion H as [| | | |? ? ? ? ? []]; intros; subst; try congruence; auto. Qed.

Lemma quiet_slave y X rest sN : quiescent step y -> chc (y_b y) = [] -> trace0 (y_s y) X rest sN -> J sN ->
  exists k, act (y_s y) = AWait k.
Proof.
  intros HQ Hb T4 HN. pose proof (HQ YSlave I) as HSl. cbn [y_step] in HSl.
  assert (Hq0 : ch_src (y_b y) = []).
  { unfold chc in Hb. apply app_eq_nil in Hb as [_ Hb]. apply app_eq_nil in Hb as [_ Hb]. exact Hb. }
  destruct (act (y_s y)) as [k|r s|s|] eqn:Ea; [eauto|exfalso..].
  - rewrite Hq0 in HSl. cbn in HSl. injection HSl as HSl. apply (f_equal (fun y => ch_src (y_b y))) in HSl. cbn in HSl.
    rewrite Hq0 in HSl. discriminate.
  - injection HSl as HSl. apply (f_equal y_s) in HSl. cbn in HSl. subst s. now apply (tau_loop _ _ _ _ T4).
  - inversion T4 as [| | | |? ? ? ? ? []]; subst; try congruence. destruct (HJ _ HN) as [k Hk]. congruence.
Qed.

Lemma quiet_state y l es more : quiescent step y -> e_wtask (y_m y) = TRun -> e_rtask (y_m y) = TRun ->
  okA (asgs l) -> sendsA (asgs l) = xsent l ++ more -> yinv y l es ->
  xsent l = es /\ chc (y_b y) = [] /\ e_pend (y_m y) = [] /\
  (forall o, task_op o -> xstep (y_m y) o = (y_m y, [])).
Proof.
  intros HQ Hw Hr HA Hs (o & X & H1 & H2 & H3 & H5).
  assert (Hset : forall c, set_b y c = y -> c = y_b y) by (intros c Hc; apply (f_equal y_b) in Hc; exact Hc).
  assert (Hfw : forall k c, set_fwd y k c = y -> c = fwd y k).
  { intros k c Hc. apply (f_equal (fun y => fwd y k)) in Hc. rewrite fwd_set, Bool.eqb_reflx in Hc. exact Hc. }
  (* response channel *)
  assert (Hb : chc (y_b y) = []).
  { apply chan_quiet.
    - pose proof (HQ YRecv I) as K. cbn [y_step] in K. rewrite Hr in K. destruct (ch_snk (y_b y)) as [|r q]; auto.
      unfold m_step in K. cbn [set_b y_m x_step] in K. rewrite Hr in K. unfold x_resp in K. destruct (0 <? _); discriminate.
    - pose proof (HQ YLoadB I) as K. cbn [y_step] in K. injection K as K. now apply Hset.
    - pose proof (HQ YXferB I) as K. cbn [y_step] in K. injection K as K. now apply Hset. }
  destruct (trace_rest l es o _ X more HA Hs H1 H3) as (B1 & r1 & sm & es' & o' & B2 & r2 & rest & sN & (_ & _ & T2 & _ & _ & _ & T4 & _)).
  pose proof (HQ YSlave I) as HSl. cbn [y_step] in HSl.
  destruct (quiet_slave y _ _ _ HQ Hb T4 (proj2 (otr_J _ _ _ _ T2))) as [k Ea]. rewrite Ea in HSl.
    assert (Hk : chc (fwd y k) = []).
    { apply chan_quiet.
      - destruct (ch_snk (fwd y k)) as [|e q] eqn:Eq; auto. injection HSl as HSl.
        apply (f_equal (fun y => ch_snk (fwd y k))) in HSl.
        change (ch_snk (fwd (set_fwd y k (ch_pop (fwd y k) q)) k) = ch_snk (fwd y k)) in HSl.
        rewrite fwd_set, Bool.eqb_reflx, Eq in HSl. cbn in HSl. apply (f_equal (@length E)) in HSl. cbn in HSl. lia.
      - pose proof (HQ (YLoad k) I) as K. cbn [y_step] in K. injection K as K. now apply Hfw.
      - pose proof (HQ (YXfer k) I) as K. cbn [y_step] in K. injection K as K. now apply Hfw. }
    assert (X = []) as ->.
    { destruct X as [|x X]; auto. cbn [app] in T4. inversion T4 as [| | | |? ? ? ? ? []]; subst; try congruence.
      assert (Hkx : kind x = k) by congruence. specialize (H2 k). cbn [filter] in H2.
      rewrite Hkx, Bool.eqb_reflx, Hk in H2. discriminate. }
    rewrite app_nil_r in H1. split; auto. split; auto. split.
    { pose proof (HQ (YStart 0) I) as K. cbn [y_step] in K. unfold m_step in K. cbn [x_step] in K.
      destruct (e_pend (y_m y)) as [|c p]; auto. discriminate. }
    assert (Hm : forall xo, m_step sends opens epat chk rtag ask idn y xo = (y, []) -> xstep (y_m y) xo = (y_m y, [])).
    { intros xo K. unfold m_step in K. destruct (xstep (y_m y) xo) as [m1 os1]. injection K as K ->.
      apply (f_equal y_m) in K. cbn in K. now subst. }
    intros xo Hx. destruct xo; try destruct Hx.
    + apply Hm. exact (HQ YGet I).
    + pose proof (HQ YSend I) as K. cbn [y_step] in K. cbn [x_step]. rewrite Hw in *. unfold next_send in K.
      destruct (e_cur (y_m y)) as [[[c t] [|e rst]]|] eqn:Ec; auto. exfalso.
      assert (Hroom : q_room (ch_src (fwd y (kind e))) = true).
      { specialize (H2 (kind e)). cbn in H2. symmetry in H2. unfold chc in H2. apply app_eq_nil in H2 as [_ H2].
        apply app_eq_nil in H2 as [_ H2]. now rewrite H2. }
      rewrite Hroom in K. unfold m_step in K.
      assert (Hy : y_m (set_fwd y (kind e) (ch_push (fwd y (kind e)) e)) = y_m y) by now destruct (kind e).
      rewrite Hy in K. cbn [x_step] in K. rewrite Hw, Ec in K. discriminate.
    + apply Hm. exact (HQ (YCGet i) I).
    + apply Hm. exact (HQ (YCResp i) I).
Qed.

Lemma filter_tag_all t (rs : list R) : Forall (fun r => rtag r = t) rs -> filter (fun r => rtag r =? t) rs = rs.
Proof. induction 1; cbn; auto. rewrite H, Z.eqb_refl. now f_equal. Qed.

Lemma prefix_cmp {Y} (a : list Y) : forall b x z, a ++ x = b ++ z -> (exists w, a = b ++ w) \/ (exists e w, b = a ++ e :: w).
Proof.
  induction a as [|u a IH]; intros [|v b] x z H; cbn in *.
  - left. now exists []. - right. now exists v, b. - left. now exists (u :: a).
  - injection H as <- H. destruct (IH b x z H) as [[w ->]|(e & w & ->)]; [left; now exists w|right; now exists e, w].
Qed.

Lemma filter_app_len t (a b : list R) : length (filter (fun r => rtag r =? t) (a ++ b)) =
  (length (filter (fun r => Z.eqb (rtag r) t) a) + length (filter (fun r => Z.eqb (rtag r) t) b))%nat.
Proof. now rewrite filter_app, app_length. Qed.

(** an operation of which all responses have arrived is over *)
Lemma done_before A B1 r1 sm es' o' B2 r2 rest sN es o sa more A1 c t A2 n (segs : list (list R)) :
  okA A -> at_op s0 A es o sa more B1 r1 sm es' o' B2 r2 rest sN ->
  A = A1 ++ (c, t) :: A2 -> pat c t <> [] -> (length (with_tag t A1) < n)%nat -> (n <= length segs)%nat ->
  Forall2 (fun c seg => length seg = length (pat c t)) (firstn (length segs) (with_tag t A)) segs ->
  (length (concat segs) <= length (filter (fun r => Z.eqb (rtag r) t) o))%nat ->
  (length A1 < length B1)%nat.
Proof.
  intros HA (K1 & K2 & K3 & K4 & K5 & K6 & K7 & K8 & K9 & K10) HE Hpat Hn Hns N5 Hgot.
  destruct (Nat.lt_ge_cases (length A1) (length B1)) as [|Hge]; auto. exfalso.
  assert (Hcut : exists A1', A1 = B1 ++ A1' /\ B2 = A1' ++ (c, t) :: A2).
  { rewrite K1 in HE. clear - HE Hge. revert A1 HE Hge. induction B1 as [|x B1 IH]; intros [|x' A1] HE Hge; cbn in *; try lia.
    - eauto. - eauto. - injection HE as <- HE. destruct (IH A1 HE ltac:(lia)) as (A1' & -> & ->). eauto. }
  destruct Hcut as (A1' & EA1 & EB2).
  rewrite EB2 in K3. change ((c, t) :: A2) with ([(c, t)] ++ A2) in K3.
  destruct (otr_app_inv _ _ _ _ _ K3) as (r2a & r2' & s1 & Er2 & O1 & O2).
  destruct (otr_app_inv _ _ _ _ _ O2) as (r2b & r2c & s2 & Er2' & O3 & O4). clear O2.
  inversion O3 as [|? ? ? rs s3 ? ? ? Js oks Trs J3 O5]; subst. inversion O5; subst. clear O5.
  destruct (Hsem _ _ _ _ _ Js oks Trs J3) as (HL & HTg).
  (* the responses up to those of (c, t) *)
  assert (Hneed : (length (filter (fun r => Z.eqb (rtag r) t) (concat r1 ++ concat r2a ++ rs)) <= length (concat segs))%nat).
  { rewrite !filter_app_len.
    destruct (rss_on_spec t _ _ _ _ K2) as (F1 & F2). destruct (rss_on_spec t _ _ _ _ O1) as (G1 & G2).
    rewrite F1, G1, (filter_tag_all t rs HTg).
    assert (Hall : Forall2 (fun c rs => length rs = length (pat c t)) (with_tag t (B1 ++ A1') ++ [c]) (rss_on t B1 r1 ++ rss_on t A1' r2a ++ [rs])).
    { unfold with_tag. rewrite filter_app, map_app, <- app_assoc. apply Forall2_app; auto. apply Forall2_app; auto. }
    assert (Hpre : exists tl, with_tag t ((B1 ++ A1') ++ (c, t) :: A2) = (with_tag t (B1 ++ A1') ++ [c]) ++ tl).
    { unfold with_tag. rewrite (filter_app _ (B1 ++ A1')), map_app. cbn [filter snd]. rewrite Z.eqb_refl. cbn [map fst].
      eexists. rewrite <- app_assoc. cbn [app]. reflexivity. }
    destruct Hpre as [tl Hpre]. rewrite HE, Hpre in N5.
    assert (Hl2 : (length (with_tag t (B1 ++ A1') ++ [c]) <= length segs)%nat) by (rewrite app_length; cbn [length]; lia).
    replace (length (concat (rss_on t B1 r1)) + (length (concat (rss_on t A1' r2a)) + length rs))%nat
      with (length (concat (rss_on t B1 r1 ++ rss_on t A1' r2a ++ [rs]))) by (rewrite !concat_app, !app_length; cbn [concat]; rewrite app_nil_r; reflexivity).
    clear - N5 Hall Hl2. revert segs N5 Hl2.
    induction Hall as [|c0 g cs gs Hg F IH]; intros segs N5 Hl2; [cbn; lia|].
    destruct segs as [|s segs]; [cbn in Hl2; lia|]. cbn [app length firstn] in N5. inversion N5; subst.
    cbn [concat]. rewrite !app_length. cbn [length] in Hl2. specialize (IH segs H4 ltac:(lia)). lia. }
  assert (Hrs : (1 <= length rs)%nat). { rewrite HL. destruct (pat c t); [congruence|cbn; lia]. }
  assert (Hle : (length (filter (fun r => Z.eqb (rtag r) t) (concat r2a ++ rs)) <= length (filter (fun r => Z.eqb (rtag r) t) o'))%nat).
  { rewrite filter_app_len in Hneed, Hgot. lia. }
  rewrite filter_app_len, (filter_tag_all t rs HTg) in Hle.
  destruct A1' as [|[c0 u0] A1'].
  - cbn [app] in K10. destruct K10 as (more1 & rest1 & s4 & rs0 & r3 & E1 & E2 & E3 & E4 & E5 & E6).
    pose proof (otr_length _ _ _ _ O1) as L1. destruct r2a; [|discriminate]. cbn [app concat] in *. injection E1 as E1 _. subst rs0.
    rewrite E3 in HTg, Hle. apply Forall_app in HTg as [T1 T2]. rewrite (filter_tag_all t o' T1), app_length in Hle. cbn in Hle.
    destruct rest1 as [|r rest1]; [|cbn in Hle; lia]. destruct E6 as [E6|E6]; [|congruence].
    destruct (exists_last E6) as (w & e1 & Ew). rewrite Ew in E4, E2.
    destruct (strace_cut _ _ _ _ _ E4 w [e1] eq_refl) as (o1 & o2 & m & _ & Te & Eo). symmetry in Eo. apply app_eq_nil in Eo as [-> ->].
    apply (Hlast c t (es' ++ w) e1 oks ltac:(rewrite E2; now rewrite app_assoc) _ _ _ Te E5). reflexivity.
  - cbn [app] in K10. destruct K10 as (more1 & rest1 & s4 & rs0 & r3 & E1 & E2 & E3 & E4 & E5 & E6).
    pose proof (otr_length _ _ _ _ O1) as L1. destruct r2a as [|rs1 r2a]; [discriminate|]. cbn [app concat] in *. injection E1 as E1 _. subst rs0 rs1.
    rewrite !filter_app_len in Hle. lia.
Qed.

Theorem sys_main h : Forall poke_ok h -> let '(y, l) := run (sys_init s0) h in
  let A := asgs l in
  okA A ->
  xcrashed l = false /\ xquiet l /\
  (forall d, In d (xcompleted l) -> exists t, snd (fst d) = Some t) /\
  exists B1 r1 sm es' o' B2 r2 rest sN es more o,
    at_op s0 A es o (y_s y) more B1 r1 sm es' o' B2 r2 rest sN /\
    (forall t, exists k, (k <= length (with_tag t A))%nat /\
       completed_on t l = combine (firstn k (with_tag t A)) (firstn k (rss_on t A (r1 ++ r2)))) /\
    (forall A1 c t A2, A = A1 ++ (c, t) :: A2 -> pat c t <> [] ->
       (length (with_tag t A1) < length (completed_on t l))%nat -> (length A1 < length B1)%nat) /\
    (quiescent step y -> more = [] /\ rest = [] /\ e_pend (y_m y) = [] /\ sN = y_s y /\
       forall t, completed_on t l = combine (with_tag t A) (rss_on t A (r1 ++ r2))).
Proof.
  intros Hp. pose proof (sys_run h Hp) as HR. pose proof (y_run_m s0 h) as HM.
  destruct (run (sys_init s0) h) as [y l]. cbv zeta. intros HA. destruct (HR HA) as (HC & es & HI). clear HR.
  destruct (engine_facts y l HM HC) as (Q1 & Q2 & Q3 & M1 & M2 & (more & M3) & M4 & M5). cbv zeta in *.
  rewrite xepoch_quiet in * by auto. fold (asgs l) in *. fold (sendsA (asgs l)) in *.
  split; auto. split; auto. split; auto.
  pose proof HI as (o & X & H1 & H2 & H3 & H5).
  destruct (trace_rest l es o _ X more HA M3 H1 H3) as (B1 & r1 & sm & es' & o' & B2 & r2 & rest & sN & HO).
  pose proof HO as (K1 & K2 & K3 & K4 & K5 & K6 & K7 & K8 & K9 & K10).
  set (rss := r1 ++ r2).
  assert (HT : forall t, filter (fun r => rtag r =? t) (concat rss) = concat (rss_on t (asgs l) rss) /\
     Forall2 (fun c rs => length rs = length (pat c t)) (with_tag t (asgs l)) (rss_on t (asgs l) rss)).
  { intros t. destruct (rss_on_spec t _ _ _ _ K2) as (F1 & F2). destruct (rss_on_spec t _ _ _ _ K3) as (G1 & G2).
    assert (Ho : rss_on t (asgs l) rss = rss_on t B1 r1 ++ rss_on t B2 r2).
    { pose proof (otr_length _ _ _ _ K2) as L. unfold rss, rss_on. rewrite K1. rewrite <- map_app, <- filter_app. do 2 f_equal.
      clear - L. revert r1 L. induction B1 as [|x B1 IH]; intros [|y r1] L; cbn in *; try discriminate; auto. f_equal. apply IH. lia. }
    rewrite Ho. unfold rss. rewrite !concat_app, filter_app, F1, G1. split; auto.
    rewrite K1. unfold with_tag. rewrite filter_app, map_app. now apply Forall2_app. }
  assert (T3 : concat rss = o ++ rest) by (unfold rss; rewrite concat_app, K9, K5, app_assoc; reflexivity).
  (* completions *)
  assert (Hcomp : forall t, exists segs rest', (length segs <= length (with_tag t (asgs l)))%nat /\
     completed_on t l = combine (firstn (length segs) (with_tag t (asgs l))) segs /\
     answers rtag t l = concat segs ++ rest' /\ segs = firstn (length segs) (rss_on t (asgs l) rss) /\
     Forall2 (fun c seg => length seg = length (pat c t)) (firstn (length segs) (with_tag t (asgs l))) segs /\
     (((e_wtask (y_m y) = TRun /\ forall o, task_op o -> xstep (y_m y) o = (y_m y, [])) /\
       length (answers rtag t l) = length (owed etag epat t l)) -> length segs = length (with_tag t (asgs l)))).
  { intros t. destruct (M5 t) as (segs & rest' & N1 & N2 & N3 & N4 & N5). exists segs, rest'.
    split; auto. split; auto. split; auto. split; [|split; [exact N4|intros [G1 G2]; now apply (N5 G1)]].
    destruct (HT t) as (F1 & F2).
    eapply (segs_rss (fun c => length (pat c t)) segs _ (with_tag t (asgs l))); [exact N1|exact N4|exact F2|].
    rewrite <- F1, T3, H5, <- app_assoc, filter_app. unfold answers in N3. rewrite N3, <- app_assoc. reflexivity. }
  exists B1, r1, sm, es', o', B2, r2, rest, sN, es, (X ++ more), o.
  split; [exact HO|]. split; [|split].
  - intros t. destruct (Hcomp t) as (segs & rest' & N1 & N2 & N3 & N4 & N5 & N6). exists (length segs). split; auto.
    fold rss. rewrite <- N4. exact N2.
  - intros A1 c t A2 HE Hpat Hlt. destruct (Hcomp t) as (segs & rest' & N1 & N2 & N3 & N4 & N5 & N6).
    assert (Hk : (length (with_tag t A1) < length segs)%nat).
    { rewrite N2, combine_length, firstn_length in Hlt. lia. }
    eapply (done_before _ _ _ _ _ _ _ _ _ _ _ _ _ _ A1 c t A2 (length segs) segs HA HO HE Hpat Hk (Nat.le_refl _) N5).
    rewrite H5, filter_app_len. unfold answers in N3. rewrite N3, app_length. lia.
  - intros HQ. destruct (quiet_state y l es more HQ Q2 Q3 HA M3 HI) as (G1 & G2 & G3 & G4).
    assert (Hsent : xsent l = sendsA (asgs l)) by (apply M4; auto).
    assert (more = []) as ->.
    { rewrite Hsent in M3. apply (f_equal (@length E)) in M3. rewrite app_length in M3. destruct more; auto. cbn in M3. lia. }
    assert (X = []) as ->.
    { rewrite G1 in H1. apply (f_equal (@length E)) in H1. rewrite app_length in H1. destruct X; auto. cbn in H1. lia. }
    cbn [app] in *. split; auto.
    destruct (quiet_slave y _ _ _ HQ G2 K7 (proj2 (otr_J _ _ _ _ K3))) as [k Ea].
    destruct (strace_wait _ _ _ _ _ K7 Ea eq_refl) as [Er Es]. split; auto. split; auto. split; auto.
    intros t. destruct (Hcomp t) as (segs & rest' & N1 & N2 & N3 & N4 & N5 & N6).
    assert (Hlen : length segs = length (with_tag t (asgs l))).
    { apply N6. split; auto. unfold answers, owed. rewrite Hsent.
      change (length (filter (fun r => rtag r =? t) (xreceived l)) = length (P_axiattr.owedE epat etag t (P_axiattr.sendsA sends (assigned ask idn 0 (xstarted l))))).
      rewrite (owedE_pfull sends opens epat ask idn etag Htag Hpat0). unfold pfull.
      rewrite Er, app_nil_r in T3. rewrite G2, app_nil_r in H5. rewrite <- H5, <- T3.
      destruct (HT t) as (F1 & F2). rewrite F1. fold (asgs l). clear - F2. induction F2; [reflexivity|].
      cbn [concat flat_map]. rewrite !app_length, IHF2, H. reflexivity. }
    assert (Hsegs : segs = rss_on t (asgs l) rss).
    { rewrite N4, Hlen. apply firstn_all2. destruct (HT t) as (_ & F2). clear - F2. induction F2; cbn; lia. }
    rewrite N2, Hlen, firstn_all, Hsegs. reflexivity.
Qed.
End Gen.
