(** Concurrent callers of a blocking send(): conservation, wake-ups, progress. *)
From Coq Require Import ZArith Lia List Bool Permutation.
From Verif Require Import Py M_send S_send.
Import ListNotations.

Section P.
Context {St P Op : Type} (full : St -> bool) (putop : P -> Op) (step : St -> Op -> St) (wakes : St -> Op -> bool).
Notation bstep := (bstep full putop step wakes).
Notation bsnd := (bsnd St P).
Notation bop := (bop P Op).

Notation b_emit := (S_send.b_emit full putop).
Notation b_emits := (S_send.b_emits full putop step wakes).

Lemma b_emit_s x o : b_s (bstep x o) = fold_left step (b_emit x o) (b_s x).
Proof.
  destruct o as [p|i|o]; cbn [M_send.bstep S_send.b_emit]; unfold b_try.
  - destruct (full (b_s x)); reflexivity.
  - destruct (nth_error (b_run x) i); [|reflexivity]. destruct (full (b_s x)); reflexivity.
  - destruct (wakes (b_s x) o); reflexivity.
Qed.
Lemma b_emits_s l : forall x, b_s (fold_left bstep l x) = fold_left step (b_emits x l) (b_s x).
Proof. induction l as [|o l IH]; intros x; cbn [fold_left S_send.b_emits]; [reflexivity|]. rewrite fold_left_app, IH, b_emit_s. reflexivity. Qed.

Lemma nth_split_perm (l : list P) i p : nth_error l i = Some p -> Permutation l (p :: firstn i l ++ skipn (S i) l).
Proof.
  intros H. destruct (nth_error_split l i H) as (l1 & l2 & -> & <-). rewrite firstn_app, Nat.sub_diag, firstn_all, firstn_O, app_nil_r.
  replace (skipn (S (length l1)) (l1 ++ p :: l2)) with l2; [symmetry; apply Permutation_middle|].
  replace (S (length l1)) with (length (l1 ++ [p])) by (rewrite app_length; cbn; lia).
  replace (l1 ++ p :: l2) with ((l1 ++ [p]) ++ l2) by now rewrite <- app_assoc. rewrite skipn_app, skipn_all, Nat.sub_diag. reflexivity.
Qed.

Definition held (x : bsnd) : list P := b_put x ++ b_run x ++ b_wait x.
Lemma b_try_held x p run : Permutation (held (b_try full putop step x p run)) (p :: b_put x ++ run ++ b_wait x).
Proof.
  unfold b_try, held. destruct (full (b_s x)); cbn.
  - rewrite !app_assoc. symmetry. apply Permutation_cons_append.
  - rewrite <- app_assoc. cbn. symmetry. apply Permutation_middle.
Qed.
Lemma b_held x o : Permutation (held (bstep x o)) (held x ++ calls [o]).
Proof.
  destruct o as [p|i|o]; cbn [M_send.bstep calls flat_map].
  - rewrite b_try_held. apply Permutation_cons_append.
  - rewrite app_nil_r. destruct (nth_error (b_run x) i) as [p|] eqn:E; [|reflexivity]. rewrite b_try_held. unfold held.
    rewrite (nth_split_perm _ _ _ E) at 3. rewrite Permutation_middle. cbn. apply Permutation_app_head. reflexivity.
  - rewrite app_nil_r. unfold held. destruct (wakes (b_s x) o); cbn; rewrite ?app_nil_r; reflexivity.
Qed.
Lemma b_held_run l : forall x, Permutation (held (fold_left bstep l x)) (held x ++ calls l).
Proof.
  induction l as [|o l IH]; intros x; cbn [fold_left]; [cbn; now rewrite app_nil_r|]. rewrite IH, b_held.
  unfold calls. cbn [flat_map]. rewrite app_nil_r, <- app_assoc. reflexivity.
Qed.

(** ** a call waits only while the source is full *)
Section Wait.
Variable good : Op -> Prop.
Hypothesis Hstay : forall s o, good o -> wakes s o = false -> full s = true -> full (step s o) = true.
Definition gop (o : bop) : Prop := match o with BOp o => good o | _ => True end.
Definition Wt (x : bsnd) : Prop := b_wait x <> [] -> full (b_s x) = true.
Lemma Wt_try x p run : Wt x -> Wt (b_try full putop step x p run).
Proof. unfold Wt, b_try. intros H. destruct (full (b_s x)) eqn:E; cbn; [auto|]. intros Hn. specialize (H Hn). congruence. Qed.
Lemma Wt_step x o : gop o -> Wt x -> Wt (bstep x o).
Proof.
  intros Ho H. destruct o as [p|i|o]; cbn [M_send.bstep].
  - now apply Wt_try.
  - destruct (nth_error (b_run x) i); [now apply Wt_try|exact H].
  - unfold Wt in *. destruct (wakes (b_s x) o) eqn:E; cbn; [congruence|]. intros Hn. apply Hstay; auto.
Qed.
Lemma Wt_run l : Forall gop l -> forall x, Wt x -> Wt (fold_left bstep l x).
Proof. induction 1 as [|o l Ho Hl IH]; intros x Hx; cbn [fold_left]; [exact Hx|]. apply IH. now apply Wt_step. Qed.
End Wait.

(** ** progress under fair schedules *)
Section Live.
Variables (inv : St -> Prop) (okp : P -> Prop) (calm go : Op -> Prop) (busy : St -> bool) (mu : St -> nat).
Hypothesis Hput : forall s p, inv s -> okp p -> full s = false -> inv (step s (putop p)).
Hypothesis Hstep : forall s o, inv s -> calm o -> inv (step s o).
Hypothesis Hnf : forall s o, inv s -> calm o -> full s = false -> full (step s o) = false.
Hypothesis Hstay : forall s o, calm o -> wakes s o = false -> full s = true -> full (step s o) = true.
Hypothesis Hmule : forall s o, inv s -> calm o -> (mu (step s o) <= mu s)%nat.
Hypothesis Hmult : forall s o, inv s -> calm o -> go o -> busy s = true -> (mu (step s o) < mu s)%nat.
Hypothesis Hfb : forall s, inv s -> full s = true -> busy s = true.
Hypothesis Hbs : forall s o, inv s -> calm o -> busy s = false -> busy (step s o) = false.

Variable sched : nat -> bop.
Variable x0 : bsnd.
Notation bat := (S_send.bat full putop step wakes sched x0).
Hypothesis Hfair : bfair calm go sched.

Definition J (x : bsnd) : Prop := inv (b_s x) /\ Wt x /\ Forall okp (b_run x ++ b_wait x).
Hypothesis H0 : J x0.
Definition U (x : bsnd) : nat := (length (b_run x) + length (b_wait x))%nat.

Lemma bat_S n : bat (S n) = bstep (bat n) (sched n).
Proof. unfold S_send.bat. rewrite seq_S, map_app, fold_left_app. reflexivity. Qed.

(** one step: an item is put, or nothing but the source's own operation happened *)
Lemma step_cases n : J (bat n) -> J (bat (S n)) /\
  ((U (bat (S n)) < U (bat n))%nat \/
   U (bat (S n)) = U (bat n) /\ (mu (b_s (bat (S n))) <= mu (b_s (bat n)))%nat /\
   (full (b_s (bat n)) = false -> full (b_s (bat (S n))) = false /\ (b_run (bat n) <> [] -> b_run (bat (S n)) <> []))).
Proof.
  rewrite bat_S. generalize (bat n). intros x (Hi & Hw & Ho). pose proof (proj1 Hfair n) as Hs.
  assert (Hwt : Wt (bstep x (sched n))) by (apply (Wt_step calm Hstay); [destruct (sched n); auto; exact I|exact Hw]).
  destruct (sched n) as [p|i|o]; [contradiction| |]; cbn [M_send.bstep] in *.
  - destruct (nth_error (b_run x) i) as [p|] eqn:E; [|split; [split; auto|right; auto]].
    pose proof (nth_split_perm _ _ _ E) as Hp. pose proof (Permutation_length Hp) as Hl. cbn [length] in Hl.
    assert (Hop : Forall okp (p :: (firstn i (b_run x) ++ skipn (S i) (b_run x)) ++ b_wait x)).
    { apply Forall_forall. intros z Hz. rewrite Forall_forall in Ho. apply Ho. destruct Hz as [<-|Hz].
      - apply in_or_app. left. eapply nth_error_In. exact E.
      - apply in_app_or in Hz as [Hz|Hz]; apply in_or_app; auto. left. eapply Permutation_in; [symmetry; exact Hp|]. now right. }
    inversion Hop as [|? ? Hp1 Hp2]; subst. unfold b_try in *. destruct (full (b_s x)) eqn:Ef.
    + split; [split; [exact Hi|split; [exact Hwt|]]|].
      * cbn. rewrite app_assoc. apply Forall_app. split; [exact Hp2|constructor; auto].
      * right. unfold U. cbn [b_run b_wait b_s]. rewrite !app_length in *. cbn [length] in *. split; [lia|]. split; [lia|discriminate].
    + split; [split; [cbn; now apply Hput|split; [exact Hwt|exact Hp2]]|]. left. unfold U. cbn [b_run b_wait]. lia.
  - destruct (wakes (b_s x) o) eqn:E; (split; [split; [cbn; now apply Hstep|split; [exact Hwt|cbn; rewrite ?app_nil_r; exact Ho]]|]); right; unfold U; cbn;
    rewrite ?app_length; (split; [lia|split; [now apply Hmule|intros Hf; split; [now apply Hnf|]]]); auto.
    intros Hn Hz. apply app_eq_nil in Hz as [Hz _]. contradiction.
Qed.
Lemma J_all n : J (bat n).
Proof. induction n as [|n IH]; [exact H0|]. now apply step_cases. Qed.
Lemma U_mono n k : (U (bat (n + k)) <= U (bat n))%nat.
Proof.
  induction k as [|k IH]; [rewrite Nat.add_0_r; lia|]. rewrite Nat.add_succ_r. destruct (step_cases (n + k) (J_all _)) as [_ [H|[H _]]]; lia.
Qed.

Lemma to_go d : forall n, (exists o, sched (n + d) = BOp o /\ go o) ->
  exists m, (n <= m)%nat /\ ((U (bat m) < U (bat n))%nat \/ U (bat m) = U (bat n) /\ (busy (b_s (bat m)) = false \/ (mu (b_s (bat m)) < mu (b_s (bat n)))%nat)).
Proof.
  induction d as [|d IH]; intros n Hg.
  - rewrite Nat.add_0_r in Hg. destruct Hg as (o & Eo & Hg). destruct (busy (b_s (bat n))) eqn:Eb; [|exists n; auto].
    exists (S n). split; [lia|]. destruct (step_cases n (J_all n)) as [_ [H|(H1 & _)]]; [auto|right]. split; [exact H1|right].
    rewrite bat_S, Eo. pose proof (proj1 Hfair n) as Hs. rewrite Eo in Hs. pose proof (proj1 (J_all n)) as Hi.
    cbn [M_send.bstep]. destruct (wakes _ o); cbn; now apply Hmult.
  - destruct (step_cases n (J_all n)) as [_ [H|(H1 & H2 & _)]]; [exists (S n); auto|].
    destruct (IH (S n)) as (m & Hm & Hc); [now rewrite Nat.add_succ_comm|]. exists m. split; [lia|].
    destruct Hc as [Hc|[Hc [Hc'|Hc']]]; [left; lia|right; split; [lia|auto]|right; split; [lia|right; lia]].
Qed.
Lemma to_idle k : forall n, (mu (b_s (bat n)) <= k)%nat ->
  exists m, (n <= m)%nat /\ ((U (bat m) < U (bat n))%nat \/ U (bat m) = U (bat n) /\ busy (b_s (bat m)) = false).
Proof.
  induction k as [|k IH]; intros n Hk; destruct (proj1 (proj2 Hfair) n) as (m0 & Hm0 & Hg);
  (destruct (to_go (m0 - n) n) as (m & Hm & Hc); [now replace (n + (m0 - n))%nat with m0 by lia|]);
  (destruct Hc as [Hc|[Hc [Hc'|Hc']]]; [exists m; auto|exists m; auto|]).
  - lia.
  - destruct (IH m) as (m' & Hm' & Hd); [lia|]. exists m'. split; [lia|]. destruct Hd as [Hd|[Hd1 Hd2]]; [left; lia|right; split; [lia|exact Hd2]].
Qed.
Lemma to_run d : forall n, sched (n + d) = BRun 0 -> b_run (bat n) <> [] -> full (b_s (bat n)) = false ->
  exists m, (n <= m)%nat /\ (U (bat m) < U (bat n))%nat.
Proof.
  induction d as [|d IH]; intros n Hr Hn Hf.
  - rewrite Nat.add_0_r in Hr. exists (S n). split; [lia|]. rewrite bat_S, Hr. cbn [M_send.bstep]. destruct (b_run (bat n)) as [|p r] eqn:E; [congruence|].
    cbn [nth_error]. unfold b_try. rewrite Hf. unfold U. cbn. rewrite E. cbn. lia.
  - destruct (step_cases n (J_all n)) as [_ [H|(H1 & _ & H3)]]; [exists (S n); auto|].
    destruct (H3 Hf) as [H4 H5]. destruct (IH (S n)) as (m & Hm & Hc); [now rewrite Nat.add_succ_comm|auto|exact H4|]. exists m. split; lia.
Qed.
Lemma U_down n : (0 < U (bat n))%nat -> exists m, (n <= m)%nat /\ (U (bat m) < U (bat n))%nat.
Proof.
  intros Hu. destruct (to_idle _ n (le_n _)) as (m & Hm & [H|[H1 H2]]); [eauto|].
  assert (Hf : full (b_s (bat m)) = false).
  { destruct (full (b_s (bat m))) eqn:E; [|reflexivity]. rewrite (Hfb _ (proj1 (J_all m)) E) in H2. discriminate. }
  assert (Hr : b_run (bat m) <> []).
  { intros E. pose proof (proj1 (proj2 (J_all m))) as Hw. unfold Wt in Hw. unfold U in *. rewrite E in H1. cbn in H1.
    destruct (b_wait (bat m)) eqn:Ew; [cbn in H1; lia|]. rewrite Hw in Hf by discriminate. discriminate. }
  destruct (proj2 (proj2 Hfair) m 0%nat) as (m0 & Hm0 & Hr0).
  destruct (to_run (m0 - m) m) as (m' & Hm' & Hd); [now replace (m + (m0 - m))%nat with m0 by lia|exact Hr|exact Hf|]. exists m'. split; lia.
Qed.
Lemma U_zero k : forall n, (U (bat n) <= k)%nat -> exists m, (n <= m)%nat /\ U (bat m) = 0%nat.
Proof.
  induction k as [|k IH]; intros n Hk; [exists n; lia|]. destruct (Nat.eq_dec (U (bat n)) 0) as [E|E]; [exists n; lia|].
  destruct (U_down n) as (m & Hm & Hd); [lia|]. destruct (IH m) as (m' & Hm' & Hz); [lia|]. exists m'. split; [lia|exact Hz].
Qed.
Lemma idle_stays n k : U (bat n) = 0%nat -> busy (b_s (bat n)) = false -> U (bat (n + k)) = 0%nat /\ busy (b_s (bat (n + k))) = false.
Proof.
  intros Hu Hb. induction k as [|k [IH1 IH2]]; [rewrite Nat.add_0_r; auto|]. rewrite Nat.add_succ_r.
  split; [destruct (step_cases (n + k) (J_all _)) as [_ [H|[H _]]]; lia|].
  rewrite bat_S. pose proof (proj1 Hfair (n + k)%nat) as Hs. pose proof (proj1 (J_all (n + k))) as Hi. revert Hs. generalize (bat (n + k)), IH1, IH2, Hi.
  intros x Hx Hbx Hix Hs. destruct (sched (n + k)) as [p|i|o]; [contradiction| |]; cbn [M_send.bstep].
  - unfold U in Hx. assert (E : b_run x = []) by (destruct (b_run x); [reflexivity|cbn in Hx; lia]). rewrite E. destruct i; exact Hbx.
  - destruct (wakes _ o); cbn; now apply Hbs.
Qed.
Lemma senders_complete : exists N, forall n, (N <= n)%nat ->
  b_run (bat n) = [] /\ b_wait (bat n) = [] /\ busy (b_s (bat n)) = false /\ inv (b_s (bat n)).
Proof.
  destruct (U_zero _ 0%nat (le_n _)) as (n1 & _ & Hz). destruct (to_idle _ n1 (le_n _)) as (n2 & Hn2 & [H|[H1 H2]]); [lia|].
  exists n2. intros n Hn. replace n with (n2 + (n - n2))%nat by lia. destruct (idle_stays n2 (n - n2)) as [Hu Hb]; [lia|exact H2|].
  pose proof (proj1 (J_all (n2 + (n - n2)))) as Hi. revert Hu Hb Hi. generalize (bat (n2 + (n - n2))). unfold U. intros x Hu Hb Hi.
  split; [destruct (b_run x); [reflexivity|cbn in Hu; lia]|]. split; [destruct (b_wait x); [reflexivity|cbn in Hu; lia]|]. auto.
Qed.
End Live.
End P.
