(** Proofs for C74. *)
From Coq Require Import Arith Lia List Bool.
From Verif Require Import Py M_stream S_stream M_axisframe M_axis S_axis S_axisrun M_pgen S_pgen.
Import ListNotations.

(** all values up to number [n] exist *)
Definition upto (g : gen) (n : nat) : Prop := forall i, (i <= n)%nat -> g i <> None.
Lemma follow_next g n : forall k p, (forall i, (i <= n)%nat -> g (k + i)%nat <> None) ->
  follow g k (S n) p = match g (k + S n)%nat with Some v => v | None => follow g k n p end.
Proof.
  induction n as [|n IH]; intros k p H.
  - cbn [follow]. specialize (H 0%nat (le_n 0)). rewrite Nat.add_0_r in H. destruct (g k) as [v|]; [|congruence]. rewrite Nat.add_1_r. now destruct (g (S k)).
  - pose proof (H 0%nat ltac:(lia)) as H0. rewrite Nat.add_0_r in H0. change (follow g k (S (S n)) p) with (match g k with None => p | Some v => follow g (S k) (S n) v end).
    change (follow g k (S n) p) with (match g k with None => p | Some v => follow g (S k) n v end). destruct (g k) as [v|]; [|congruence].
    rewrite IH; [now rewrite Nat.add_succ_comm|]. intros i Hi. rewrite Nat.add_succ_comm. apply H. lia.
Qed.
Lemma follow_end g n : forall k p, (exists i, (i <= n)%nat /\ g (k + i)%nat = None) -> follow g k (S n) p = follow g k n p.
Proof.
  induction n as [|n IH]; intros k p (i & Hi & E).
  - replace i with 0%nat in E by lia. rewrite Nat.add_0_r in E. cbn. now rewrite E.
  - change (follow g k (S (S n)) p) with (match g k with None => p | Some v => follow g (S k) (S n) v end).
    change (follow g k (S n) p) with (match g k with None => p | Some v => follow g (S k) n v end). destruct (g k) as [v|] eqn:Ek; auto.
    apply IH. destruct i as [|i]; [rewrite Nat.add_0_r in E; congruence|]. exists i. split; [lia|]. now rewrite Nat.add_succ_comm.
Qed.
Lemma follow_at g n p v : upto g n -> g n = Some v -> follow g 0 n p = v.
Proof.
  intros H E. destruct n as [|n]; [cbn; now rewrite E|]. rewrite follow_next; [now cbn [Nat.add]; rewrite E|]. intros i Hi. apply H. lia.
Qed.

Section G.
Context {St Op : Type} (step : St -> Op -> St) (pause : St -> bool) (isclk ip : Op -> bool) (setp : bool -> Op).
Hypothesis Hset : forall s b, pause (step s (setp b)) = b.
Hypothesis Hkeep : forall s o, ip o = false -> pause (step s o) = pause s.
Hypothesis Hclk : forall b, isclk (setp b) = false.
Notation pg_step := (pg_step setp).
Notation pg_run := (pg_run setp).
Notation edges := (edges step pause isclk).

Lemma edges_app a : forall b s, edges s (a ++ b) = edges s a ++ edges (fold_left step a s) b.
Proof. induction a as [|o a IH]; intros b s; cbn; auto. now rewrite IH, app_assoc. Qed.

(** one task at most *)
Definition single (p : pg) : Prop := if g_cr p then exists t, g_tasks p = [t] else g_tasks p = [].
Lemma single_step p x : single p -> single (fst (pg_step p x)).
Proof.
  unfold single. destruct p as [ts cr]. cbn. destruct cr.
  - intros (t & ->). destruct x as [[g|]| |f o|o]; cbn; eauto.
    + destruct (g_start setp t) as [t' os]. cbn. eauto.
    + destruct (g_start setp t) as [t' os]. cbn. destruct (g_edge setp t') as [t2 os2]. cbn. eauto.
  - intros ->. destruct x as [[g|]| |f o|o]; cbn; eauto.
Qed.
Lemma single_run h : forall p, single p -> single (fst (pg_run p h)).
Proof.
  induction h as [|x h IH]; intros p Hp; cbn; auto. pose proof (single_step p x Hp) as H1. destruct (pg_step p x) as [p1 o1]. specialize (IH p1 H1). destruct (pg_run p1 h). auto.
Qed.
Lemma single_set p g : single p -> fst (pg_step p (GSet (Some g))) = {| g_tasks := [GStart g]; g_cr := true |} /\ snd (pg_step p (GSet (Some g))) = [].
Proof. unfold single. destruct p as [ts []]; cbn; [intros (t & ->)|intros ->]; auto. Qed.
Lemma single_clear p : single p -> pg_step p (GSet None) = ({| g_tasks := []; g_cr := false |}, []).
Proof. unfold single. destruct p as [ts []]; cbn; [intros (t & ->)|intros ->]; auto. Qed.

(** a task that has seen [n] edges *)
Definition at_edge (g : gen) (n : nat) (t : gtask) : Prop :=
  (t = GEdge g (S n) /\ upto g n) \/ (t = GDone /\ exists i, (i <= n)%nat /\ g i = None).
Lemma start_at g p0 : exists t os, g_start setp (GStart g) = (t, os) /\ at_edge g 0 t /\ Forall (fun o => exists b, o = setp b) os /\
  forall s, pause s = p0 -> pause (fold_left step os s) = follow g 0 0 p0.
Proof.
  cbn [g_start]. unfold g_draw. destruct (g 0%nat) as [v|] eqn:E.
  - exists (GEdge g 1), [setp v]. repeat split; eauto.
    + left. split; auto. intros i Hi. replace i with 0%nat by lia. congruence.
    + intros s _. cbn. now rewrite E, Hset.
  - exists GDone, []. repeat split; eauto.
    + right. split; auto. exists 0%nat. auto.
    + intros s <-. cbn. now rewrite E.
Qed.
Lemma edge_at g n t p0 : at_edge g n t -> exists t' os, g_edge setp t = (t', os) /\ at_edge g (S n) t' /\ Forall (fun o => exists b, o = setp b) os /\
  (forall s, pause s = follow g 0 n p0 -> pause (fold_left step os s) = follow g 0 (S n) p0) /\ (forall s v, upto g (S n) -> g (S n) = Some v -> pause (fold_left step os s) = v).
Proof.
  intros [[-> Hu]|[-> (i & Hi & E)]]; cbn [g_edge].
  - unfold g_draw. destruct (g (S n)) as [v|] eqn:E.
    + exists (GEdge g (S (S n))), [setp v]. repeat split; eauto.
      * left. split; auto. intros i Hi. assert (i = S n \/ i <= n)%nat as [->|Hl] by lia; [congruence|now apply Hu].
      * intros s _. cbn [fold_left]. rewrite follow_next; [|exact Hu]. cbn [Nat.add]. now rewrite E, Hset.
      * intros s v0 _ [= <-]. apply Hset.
    + exists GDone, []. repeat split; eauto.
      * right. split; auto. exists (S n). auto.
      * intros s Hs. cbn [fold_left]. rewrite follow_next; [|exact Hu]. cbn [Nat.add]. now rewrite E.
      * congruence.
  - exists GDone, []. repeat split; eauto.
    + right. split; auto. exists i. split; auto.
    + intros s Hs. cbn [fold_left]. rewrite follow_end; [auto|]. exists i. auto.
    + intros s v Hu. exfalso. apply (Hu i); auto.
Qed.
Lemma edges_set os : Forall (fun o => exists b, o = setp b) os -> forall s, edges s os = [].
Proof. induction 1 as [|o os (b & ->) _ IH]; intros s; cbn; auto. rewrite Hclk. apply IH. Qed.

Definition tracks (g : gen) (n : nat) (p0 : bool) (p : pg) (s : St) : Prop :=
  exists t, g_tasks p = [t] /\ ((t = GStart g /\ n = 0%nat /\ pause s = p0) \/ (at_edge g n t /\ pause s = follow g 0 n p0)).
Lemma started g n p0 p s : tracks g n p0 p s -> exists t os, g_all (g_start setp) (g_tasks p) = ([t], os) /\ at_edge g n t /\ Forall (fun o => exists b, o = setp b) os /\
  pause (fold_left step os s) = follow g 0 n p0.
Proof.
  intros (t & -> & [(-> & -> & Hs)|(Ht & Hs)]); cbn [g_all].
  - destruct (start_at g p0) as (t & os & -> & H1 & H2 & H3). exists t, (os ++ []). rewrite app_nil_r. auto.
  - exists t, []. split; [now destruct Ht as [[-> _]|[-> _]]|]. auto.
Qed.
Theorem run_follows h : forall g n p0 p s, tracks g n p0 p s -> forallb (fun x => negb (is_set x)) h = true -> Forall (well isclk ip false) h ->
  edges s (snd (pg_run p h)) = followed g n p0 h.
Proof.
  induction h as [|x h IH]; intros g n p0 p s Ht Hn Hw; [reflexivity|]. cbn [forallb] in Hn. apply andb_prop in Hn as [Hx Hn]. inversion Hw as [|? ? Wx Wh]; subst. cbn [M_pgen.pg_run].
  destruct x as [g'| |first o|o]; cbn [is_set negb] in Hx; try discriminate; cbn [M_pgen.pg_step followed].
  - destruct (started g n p0 p s Ht) as (t & os & E & Ha & Hos & Hp). rewrite E. specialize (IH g n p0 {| g_tasks := [t]; g_cr := g_cr p |} (fold_left step os s)).
    destruct (pg_run _ h) as [p2 o2]. cbn [snd] in *. rewrite edges_app, edges_set by auto. cbn [app]. apply IH; auto. exists t. auto.
  - cbn [well] in Wx. destruct Wx as [Wc Wi]. destruct (started g n p0 p s Ht) as (t & os & E & Ha & Hos & Hp). rewrite E. cbn [g_all]. destruct (edge_at g n t p0 Ha) as (t' & os' & -> & Ha' & Hos' & Hp' & _).
    rewrite app_nil_r. assert (HF : pause (fold_left step (os ++ (if first then os' ++ [o] else o :: os')) s) = follow g 0 (S n) p0).
    { rewrite fold_left_app. destruct first; cbn [fold_left]; [rewrite fold_left_app; cbn [fold_left]; rewrite Hkeep by auto; now apply Hp'|apply Hp'; now rewrite Hkeep]. }
    specialize (IH g (S n) p0 {| g_tasks := [t']; g_cr := g_cr p |} (fold_left step (os ++ (if first then os' ++ [o] else o :: os')) s)).
    destruct (pg_run _ h) as [p2 o2]. cbn [snd] in *. rewrite edges_app, IH; auto; [|exists t'; auto].
    rewrite edges_app, edges_set by auto. cbn [app]. f_equal. destruct first.
    + rewrite edges_app, edges_set by auto. cbn. rewrite Wc. cbn. now rewrite Hp'.
    + cbn. rewrite Wc, edges_set by auto. cbn. now rewrite Hp.
  - cbn [well] in Wx. destruct Wx as [Wc Wi]. specialize (Wi eq_refl). specialize (IH g n p0 p (step s o)). destruct (pg_run p h) as [p2 o2]. cbn [snd app S_pgen.edges] in *. rewrite Wc. cbn [app]. apply IH; auto.
    destruct Ht as (t & E & [(-> & -> & Hs)|(Ha & Hs)]); exists t || exists (GStart g); split; auto; [left|right]; repeat split; auto; now rewrite Hkeep.
Qed.

(** only the tasks *)
Definition tracks2 (g : gen) (n : nat) (p : pg) : Prop := exists t, g_tasks p = [t] /\ ((t = GStart g /\ n = 0%nat) \/ at_edge g n t).
Lemma started2 g n p : tracks2 g n p -> exists t os, g_all (g_start setp) (g_tasks p) = ([t], os) /\ at_edge g n t.
Proof.
  intros (t & -> & [(-> & ->)|Ht]); cbn [g_all].
  - destruct (start_at g true) as (t & os & -> & H1 & _). eauto.
  - exists t, []. split; [now destruct Ht as [[-> _]|[-> _]]|]. auto.
Qed.
Lemma step2 g n p x : is_set x = false -> tracks2 g n p -> tracks2 g (clocks [x] + n) (fst (pg_step p x)).
Proof.
  intros Hx Ht. destruct x as [g'| |first o|o]; try discriminate; cbn [M_pgen.pg_step]; auto.
  - destruct (started2 g n p Ht) as (t & os & -> & Ha). exists t. auto.
  - destruct (started2 g n p Ht) as (t & os & -> & Ha). cbn [g_all]. destruct (edge_at g n t true Ha) as (t' & os' & -> & Ha' & _). exists t'. auto.
Qed.
Lemma run2 h : forall g n p, forallb (fun x => negb (is_set x)) h = true -> tracks2 g n p -> tracks2 g (clocks h + n) (fst (pg_run p h)).
Proof.
  induction h as [|x h IH]; intros g n p Hn Ht; cbn [M_pgen.pg_run]; auto. cbn [forallb] in Hn. apply andb_prop in Hn as [Hx Hn].
  pose proof (step2 g n p x (proj1 (negb_true_iff _) Hx) Ht) as H1. destruct (pg_step p x) as [p1 o1]. specialize (IH g _ p1 Hn H1). destruct (pg_run p1 h) as [p2 o2]. cbn [fst] in *.
  replace (clocks (x :: h) + n)%nat with (clocks h + (clocks [x] + n))%nat; auto. unfold clocks. cbn [filter]. destruct x; cbn; lia.
Qed.
Lemma clk_wins g n p s first o v : tracks2 g n p -> ip o = false -> upto g (S n) -> g (S n) = Some v -> pause (fold_left step (snd (pg_step p (GClk first o))) s) = v.
Proof.
  intros Ht Ho Hu E. cbn [M_pgen.pg_step]. destruct (started2 g n p Ht) as (t & os & -> & Ha). cbn [g_all]. destruct (edge_at g n t true Ha) as (t' & os' & -> & Ha' & _ & _ & Hv).
  cbn [snd]. rewrite app_nil_r, fold_left_app. destruct first; cbn [fold_left]; [rewrite fold_left_app; cbn [fold_left]; rewrite Hkeep by auto|]; now apply Hv.
Qed.
Lemma none_run h : forall cr, forallb (fun x => negb (is_set x)) h = true -> snd (pg_run {| g_tasks := []; g_cr := cr |} h) = comp_ops h.
Proof.
  induction h as [|x h IH]; intros cr Hn; auto. cbn [forallb] in Hn. apply andb_prop in Hn as [Hx Hn]. cbn [M_pgen.pg_run]. destruct x as [g'| |first o|o]; try discriminate; cbn [M_pgen.pg_step g_all g_tasks M_pgen.g_cr].
  - specialize (IH cr Hn). destruct (pg_run _ h). exact IH.
  - specialize (IH cr Hn). destruct (pg_run _ h). cbn [snd] in *. rewrite IH. destruct first; reflexivity.
  - specialize (IH cr Hn). destruct (pg_run _ h). cbn [snd] in *. now rewrite IH.
Qed.
End G.

Section I.
Context {St Op : Type} (step : St -> Op -> St) (pause : St -> bool) (isclk ip : Op -> bool) (setp : bool -> Op).
Hypothesis Hset : forall s b, pause (step s (setp b)) = b.
Hypothesis Hkeep : forall s o, ip o = false -> pause (step s o) = pause s.
Hypothesis Hclk : forall b, isclk (setp b) = false.
Lemma init_single : single pg_init.
Proof. reflexivity. Qed.
Lemma run_app h1 : forall h2 p, pg_run setp p (h1 ++ h2) = (fst (pg_run setp (fst (pg_run setp p h1)) h2), snd (pg_run setp p h1) ++ snd (pg_run setp (fst (pg_run setp p h1)) h2)).
Proof.
  induction h1 as [|x h1 IH]; intros h2 p; cbn [app pg_run fst snd]; [now destruct (pg_run setp p h2)|].
  destruct (pg_step setp p x) as [p1 o1]. rewrite IH. destruct (pg_run setp p1 h1) as [p2 o2]. cbn [fst snd]. now rewrite app_assoc.
Qed.
Theorem all_follows : follows step pause isclk ip setp.
Proof.
  intros s0 h0 g h Hn Hw. pose proof (single_run setp h0 pg_init init_single) as Hs. destruct (pg_run setp pg_init h0) as [p os0]. cbn [fst] in Hs. cbv zeta.
  destruct (single_set setp p g Hs) as [E1 E2].
  assert (E0 : pg_step setp p (GSet (Some g)) = ({| g_tasks := [GStart g]; g_cr := true |}, [])) by (rewrite (surjective_pairing (pg_step _ _ _)); now rewrite E1, E2).
  cbn [pg_run]. rewrite E0.
  pose proof (run_follows step pause isclk ip setp Hset Hkeep Hclk h g 0 (pause (fold_left step os0 s0)) {| g_tasks := [GStart g]; g_cr := true |} (fold_left step os0 s0)) as H.
  destruct (pg_run setp _ h) as [p2 o2]. cbn [snd app] in *. apply H; auto. exists (GStart g). auto.
Qed.
Theorem all_wins : wins step pause isclk ip setp.
Proof.
  intros s0 h0 g h first o v Hn Hw [Wc Wi] Hu E. pose proof (single_run setp h0 pg_init init_single) as Hs. destruct (pg_run setp pg_init h0) as [p os0]. cbn [fst] in Hs.
  destruct (single_set setp p g Hs) as [E1 E2].
  assert (E0 : pg_step setp p (GSet (Some g)) = ({| g_tasks := [GStart g]; g_cr := true |}, [])) by (rewrite (surjective_pairing (pg_step _ _ _)); now rewrite E1, E2).
  cbn [pg_run]. rewrite E0.
  pose proof (run2 step pause isclk ip setp Hset Hkeep Hclk h g 0 {| g_tasks := [GStart g]; g_cr := true |} Hn) as H. specialize (H ltac:(exists (GStart g); auto)). rewrite Nat.add_0_r in H.
  rewrite run_app. cbn [fst snd app]. destruct (pg_run setp {| g_tasks := [GStart g]; g_cr := true |} h) as [p2 o2]. cbn [fst snd pg_run] in *.
  pose proof (clk_wins step pause isclk ip setp Hset Hkeep Hclk g (clocks h) p2) as W. destruct (pg_step setp p2 (GClk first o)) as [p3 o3] eqn:E3. cbn [snd].
  rewrite app_nil_r, !fold_left_app. cbn [fold_left]. specialize (W (fold_left step o2 (fold_left step os0 s0)) first o v H Wi Hu E). rewrite E3 in W. exact W.
Qed.
Theorem all_cleared : cleared setp.
Proof.
  intros h0 h Hn. pose proof (single_run setp h0 pg_init init_single) as Hs. destruct (pg_run setp pg_init h0) as [p os0]. cbn [fst] in Hs. cbn [pg_run]. rewrite (single_clear setp p Hs).
  pose proof (none_run setp h false Hn) as H. destruct (pg_run setp _ h). exact H.
Qed.
End I.
