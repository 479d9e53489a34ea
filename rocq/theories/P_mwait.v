(** Proofs about wait() of the masters. *)
From Coq Require Import ZArith Lia List Bool Permutation.
From Verif Require Import Py M_mwait S_mwait.
Import ListNotations.
Open Scope Z_scope.

Section Wait.
Context {S O : Type}.
Variable stp : S -> O -> S.
Variables wi ri we re : S -> bool.
Notation step := (mw_step stp wi ri we re).
Notation run := (mw_run stp wi ri we re).
Definition who (w : wcall) := (wc_id w, wc_kind w).

(** a call that sleeps does so at an event that is not set, which belongs to a half it waits for *)
Definition sleeps (s : S) (w : wcall) : Prop :=
  match wc_pos w with
  | AtW => waits_w (wc_kind w) = true /\ (wc_run w = false -> we s = false)
  | AtR => waits_r (wc_kind w) = true /\ (wc_run w = false -> re s = false)
  end.

Lemma go_r_sleeps s t k w : waits_r k = true -> go_r wi ri we re s t k = Some w -> sleeps s w /\ who w = (t, k).
Proof.
  intros Hk. unfold go_r, at_r, at_w, sleeps, who. destruct (ri s); cbn [negb].
  - destruct k; try discriminate. destruct (both_idle wi ri s); [discriminate|]. intros [= <-]. cbn. auto.
  - intros [= <-]. cbn. auto.
Qed.
Lemma go_w_sleeps s t k w : waits_w k = true -> go_w wi ri we re s t k = Some w -> sleeps s w /\ who w = (t, k).
Proof.
  intros Hk. unfold go_w. destruct (wi s); cbn [negb].
  - destruct k; try discriminate. now apply go_r_sleeps.
  - unfold at_w, sleeps, who. intros [= <-]. cbn. auto.
Qed.
Lemma enter_sleeps s t k w : enter wi ri we re s t k = Some w -> sleeps s w /\ who w = (t, k).
Proof.
  unfold enter. destruct k; [apply go_w_sleeps; reflexivity|apply go_r_sleeps; reflexivity|].
  destruct (both_idle wi ri s); [discriminate|]. apply go_w_sleeps. reflexivity.
Qed.
Lemma continue_sleeps s w w' : sleeps s w -> continue wi ri we re s w = Some w' -> sleeps s w' /\ who w' = who w.
Proof.
  unfold sleeps at 1, continue. destruct (wc_pos w); intros [Hk _]; [now apply go_w_sleeps|now apply go_r_sleeps].
Qed.

Lemma split_nth {A} n : forall (l : list A) x, nth_error l n = Some x -> l = firstn n l ++ x :: skipn (Datatypes.S n) l.
Proof.
  induction n as [|n IH]; intros [|a l] x; try discriminate; cbn [nth_error firstn skipn app].
  - now intros [= <-].
  - intros H. f_equal. now apply IH.
Qed.

Lemma wake_sleeps s s' w : sleeps s w -> sleeps s' (wake we re s s' w) /\ who (wake we re s s' w) = who w.
Proof.
  unfold sleeps, wake, who. destruct w as [t k p r]; destruct p; cbn; intros [Hk Hs]; split; auto; split; auto; intros E;
    apply orb_false_iff in E as [-> E]; rewrite (Hs eq_refl) in E; exact E.
Qed.

Definition inv (h : list (mwop O)) (x : mwst S) (rs : list (Z * wkind)) : Prop :=
  Forall (sleeps (mw_s x)) (mw_calls x) /\ Permutation (wait_calls h) (rs ++ map who (mw_calls x)).

Lemma inv_step h x rs o : inv h x rs -> inv (h ++ [o]) (fst (step x o)) (rs ++ snd (step x o)).
Proof.
  intros [Hs Hp]. assert (Hc : wait_calls (h ++ [o]) = wait_calls h ++ wait_calls [o]).
  { clear. induction h as [|p h IH]; [reflexivity|]. destruct p; cbn; now rewrite ?IH. }
  unfold inv. rewrite Hc. destruct o as [t k|n|o]; cbn [mw_step wait_calls].
  - destruct (enter wi ri we re (mw_s x) t k) as [w|] eqn:E; cbn [fst snd mw_s mw_calls].
    + apply enter_sleeps in E as [E1 E2]. split; [apply Forall_app; auto|]. rewrite app_nil_r, map_app, app_assoc.
      cbn [map]. rewrite E2. now apply Permutation_app_tail.
    + split; [exact Hs|]. rewrite <- app_assoc. transitivity ((rs ++ map who (mw_calls x)) ++ [(t, k)]); [now apply Permutation_app_tail|].
      rewrite <- app_assoc. apply Permutation_app_head. apply Permutation_app_comm.
  - rewrite app_nil_r. destruct (nth_error (mw_calls x) n) as [w|] eqn:En; [|cbn [fst snd]; rewrite app_nil_r; auto].
    destruct (wc_run w); [|cbn [fst snd]; rewrite app_nil_r; auto].
    apply split_nth in En. set (pre := firstn n (mw_calls x)) in *. set (suf := skipn (Datatypes.S n) (mw_calls x)) in *.
    rewrite En in Hs, Hp. apply Forall_app in Hs as [H1 H2]. apply Forall_cons_iff in H2 as [H2 H3].
    assert (Hm : Permutation (map who (pre ++ w :: suf)) (who w :: map who (pre ++ suf))).
    { rewrite !map_app. symmetry. apply Permutation_middle. }
    destruct (continue wi ri we re (mw_s x) w) as [w'|] eqn:E; cbn [fst snd mw_s mw_calls].
    + apply continue_sleeps in E as [E1 E2]; [|exact H2]. split; [rewrite !Forall_app; auto|].
      rewrite app_nil_r. etransitivity; [exact Hp|]. apply Permutation_app_head. etransitivity; [exact Hm|].
      rewrite (map_app who _ [w']). cbn [map]. rewrite E2. apply Permutation_cons_append.
    + split; [rewrite Forall_app; auto|]. etransitivity; [exact Hp|]. rewrite <- app_assoc. apply Permutation_app_head. exact Hm.
  - rewrite !app_nil_r. cbn [fst snd mw_s mw_calls]. split.
    + apply Forall_map. eapply Forall_impl; [|exact Hs]. intros w Hw. now apply wake_sleeps.
    + rewrite map_map. rewrite (map_ext_in _ who); [exact Hp|]. intros w Hw. rewrite Forall_forall in Hs. now apply wake_sleeps, Hs.
Qed.

Lemma run_app h1 : forall x h2, run x (h1 ++ h2) =
  let '(x1, r1) := run x h1 in let '(x2, r2) := run x1 h2 in (x2, r1 ++ r2).
Proof.
  induction h1 as [|o h1 IH]; intros x h2; cbn [app mw_run].
  - now destruct (run x h2).
  - destruct (step x o) as [x1 r1]. rewrite IH. destruct (run x1 h1) as [x2 r2]. destruct (run x2 h2). now rewrite app_assoc.
Qed.

Lemma inv_run s0 h : let '(x, rs) := run {| mw_s := s0; mw_calls := [] |} h in inv h x rs.
Proof.
  induction h as [|o h IH] using rev_ind; [split; [constructor|constructor]|].
  rewrite run_app. destruct (run {| mw_s := s0; mw_calls := [] |} h) as [x rs]. cbn [mw_run].
  pose proof (inv_step h x rs o IH) as H. destruct (step x o). cbn [fst snd] in H. now rewrite app_nil_r.
Qed.

(** the calls of wait do not touch the master *)
Lemma state_run s0 h : mw_s (fst (run {| mw_s := s0; mw_calls := [] |} h)) = fold_left stp (other_ops h) s0.
Proof.
  induction h as [|o h IH] using rev_ind; [reflexivity|].
  assert (Hc : other_ops (h ++ [o]) = other_ops h ++ other_ops [o]).
  { clear. induction h as [|p h IH]; [reflexivity|]. destruct p; cbn; now rewrite ?IH. }
  rewrite Hc, fold_left_app, <- IH, run_app. destruct (run {| mw_s := s0; mw_calls := [] |} h) as [x rs]. cbn [mw_run].
  destruct o as [t k|n|o]; cbn [mw_step other_ops fold_left].
  - destruct (enter wi ri we re (mw_s x) t k); reflexivity.
  - destruct (nth_error (mw_calls x) n) as [w|]; [|reflexivity]. destruct (wc_run w); [|reflexivity].
    destruct (continue wi ri we re (mw_s x) w); reflexivity.
  - reflexivity.
Qed.

(** ** what the user gets *)
Section At.
Variable x : mwst S.
Hypothesis Hw : we (mw_s x) = wi (mw_s x).
Hypothesis Hr : re (mw_s x) = ri (mw_s x).
Definition rests (k : wkind) : Prop := at_rest k (wi (mw_s x) = true) (ri (mw_s x) = true).

Lemma go_r_spec t k : waits_r k = true ->
  match go_r wi ri we re (mw_s x) t k with
  | None => rests k
  | Some w => ~ rests k /\ who w = (t, k) /\ wc_run w = false
  end.
Proof using Hw Hr.
  intros Hk. unfold go_r, at_r, at_w, rests, at_rest, both_idle. destruct (ri (mw_s x)) eqn:Er; cbn [negb andb].
  - destruct k; try discriminate Hk; [split; [discriminate|auto]|]. destruct (wi (mw_s x)) eqn:Ew; [split; auto|].
    split; [intros [H _]; specialize (H eq_refl); discriminate|]. cbn. auto.
  - split; [intros [_ H]; specialize (H Hk); discriminate|]. cbn. auto.
Qed.
Lemma go_w_spec t k : waits_w k = true ->
  match go_w wi ri we re (mw_s x) t k with
  | None => rests k
  | Some w => ~ rests k /\ who w = (t, k) /\ wc_run w = false
  end.
Proof using Hw Hr.
  intros Hk. unfold go_w. case_eq (wi (mw_s x)); intros Ew; cbn [negb].
  - destruct k; try discriminate Hk; [|now apply go_r_spec]. split; [auto|discriminate].
  - unfold at_w, rests, at_rest. rewrite Ew. split; [intros [H _]; specialize (H Hk); discriminate|]. cbn. rewrite Hw. auto.
Qed.
Lemma enter_spec t k :
  match enter wi ri we re (mw_s x) t k with
  | None => rests k
  | Some w => ~ rests k /\ who w = (t, k) /\ wc_run w = false
  end.
Proof using Hw Hr.
  unfold enter. destruct k; [apply go_w_spec; reflexivity|apply go_r_spec; reflexivity|].
  destruct (both_idle wi ri (mw_s x)) eqn:E; [|apply go_w_spec; reflexivity].
  apply andb_true_iff in E as [E1 E2]. split; auto.
Qed.
Lemma continue_spec w : sleeps (mw_s x) w ->
  match continue wi ri we re (mw_s x) w with
  | None => rests (wc_kind w)
  | Some w' => ~ rests (wc_kind w) /\ who w' = who w /\ wc_run w' = false
  end.
Proof using Hw Hr.
  unfold sleeps, continue. destruct (wc_pos w); intros [Hk _]; [now apply go_w_spec|now apply go_r_spec].
Qed.

Lemma wait_ok_of h rs : inv h x rs ->
  wait_ok step (wi (mw_s x) = true) (ri (mw_s x) = true) (wait_calls h) rs x.
Proof using Hw Hr.
  intros [Hs Hp]. unfold wait_ok. cbv zeta. fold who. fold rests. split; [exact Hp|].
  split; [|split; [|split]].
  - intros o t k. destruct o as [t' k'|n|o]; cbn [mw_step].
    + pose proof (enter_spec t' k') as H. destruct (enter wi ri we re (mw_s x) t' k'); cbn [snd In]; [tauto|].
      intros [[= <- <-]|[]]. exact H.
    + destruct (nth_error (mw_calls x) n) as [w|] eqn:En; [|intros []]. destruct (wc_run w); [|intros []].
      apply nth_error_In in En. rewrite Forall_forall in Hs. pose proof (continue_spec w (Hs _ En)) as H.
      destruct (continue wi ri we re (mw_s x) w); cbn [snd In]; [tauto|]. intros [[= <- <-]|[]]. exact H.
    + intros [].
  - intros t k H. cbn [mw_step]. pose proof (enter_spec t k) as E. destruct (enter wi ri we re (mw_s x) t k); [|reflexivity].
    now destruct E.
  - intros n w En H. pose proof (nth_error_In _ _ En) as Hin. rewrite Forall_forall in Hs. specialize (Hs _ Hin).
    assert (Hrun : wc_run w = true).
    { unfold sleeps in Hs. destruct H as [HW HR]. destruct (wc_run w); [reflexivity|].
      destruct (wc_pos w); destruct Hs as [Hk Hs]; specialize (Hs eq_refl).
      - rewrite Hw, (HW Hk) in Hs. discriminate.
      - rewrite Hr, (HR Hk) in Hs. discriminate. }
    split; [exact Hrun|]. cbn [mw_step]. rewrite En, Hrun. pose proof (continue_spec w Hs) as E.
    destruct (continue wi ri we re (mw_s x) w); [now destruct E|reflexivity].
  - intros n w En H. cbn [mw_step]. rewrite En. destruct (wc_run w); [|left; reflexivity]. right.
    pose proof (nth_error_In _ _ En) as Hin. rewrite Forall_forall in Hs. specialize (Hs _ Hin).
    pose proof (continue_spec w Hs) as E. destruct (continue wi ri we re (mw_s x) w) as [w'|]; [|contradiction].
    exists w'. destruct E as (_ & E1 & E2). rewrite app_assoc. auto.
Qed.
End At.

(** all pending calls return when everything is at rest *)
Lemma release_of h : forall x rs, inv h x rs -> we (mw_s x) = wi (mw_s x) -> re (mw_s x) = ri (mw_s x) ->
  wi (mw_s x) = true -> ri (mw_s x) = true ->
  run x (repeat (XRun 0%nat) (length (mw_calls x))) = ({| mw_s := mw_s x; mw_calls := [] |}, map who (mw_calls x)).
Proof.
  intros x. remember (length (mw_calls x)) as n eqn:En. revert x En h. induction n as [|n IH]; intros x En h rs Hi H1 H2 H3 H4.
  - destruct x as [s [|w l]]; [reflexivity|discriminate].
  - destruct x as [s [|w l]]; [discriminate|]. cbn [mw_s mw_calls] in *. cbn [repeat mw_run].
    pose proof (wait_ok_of {| mw_s := s; mw_calls := w :: l |} H1 H2 h rs Hi) as (_ & _ & _ & H & _).
    destruct (H 0%nat w eq_refl) as [_ E]; [split; auto|]. cbn [mw_s mw_calls firstn skipn app] in E. rewrite E.
    pose proof (inv_step h _ rs (XRun 0%nat) Hi) as Hi'. rewrite E in Hi'. cbn [fst snd] in Hi'.
    specialize (IH {| mw_s := s; mw_calls := l |}). cbn [mw_s mw_calls] in IH. injection En as En.
    now rewrite (IH En _ _ Hi' H1 H2 H3 H4).
Qed.
End Wait.

Lemma either_fold {A B OA OB} (f : A -> OA -> A) (g : B -> OB -> B) l : forall a b,
  fold_left (either f g) l (a, b) = (fold_left f (lefts l) a, fold_left g (rights l) b).
Proof. induction l as [|[o|o] l IH]; intros a b; cbn [fold_left lefts rights either fst snd]; [reflexivity| |]; apply IH. Qed.

Lemma at_rest_iff k (W W' R R' : Prop) : (W <-> W') -> (R <-> R') -> at_rest k W R <-> at_rest k W' R'.
Proof. unfold at_rest. tauto. Qed.
Lemma wait_ok_iff {S O} (st : mwst S -> mwop O -> mwst S * list (Z * wkind)) (W W' R R' : Prop) c r x :
  (W <-> W') -> (R <-> R') -> wait_ok st W R c r x -> wait_ok st W' R' c r x.
Proof.
  intros HW HR (H1 & H2 & H3 & H4 & H5).
  assert (Hk : forall k, at_rest k W R <-> at_rest k W' R') by (intros k; now apply at_rest_iff).
  split; [exact H1|]. split; [intros o t k H; apply Hk; eauto|]. split; [intros t k H; apply H3; now apply Hk|].
  split; [intros n w Hn H; apply H4; [exact Hn|now apply Hk]|]. intros n w Hn H. apply H5; [exact Hn|].
  intros H'. apply H. now apply Hk.
Qed.
