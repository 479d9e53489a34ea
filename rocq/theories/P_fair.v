(** Termination under fair schedules: a transition system in which every enabled step lowers a measure and every other
    step leaves the measure and the enabled steps as they are. *)
From Coq Require Import ZArith Lia List Bool.
From Verif Require Import M_litesys S_litesys M_sys S_sys S_live.
Import ListNotations. Open Scope nat_scope.

Section Fair.
Context {Y O : Type}.
Variable st : Y -> O -> Y.
Variable en : Y -> O -> bool.
Variable mu : Y -> nat.
Variables int ok : O -> Prop.
Variable base : Y -> list O.
Hypothesis H1 : forall y o, ok o -> mu (st y o) < mu y \/ (mu (st y o) = mu y /\ forall o', en (st y o) o' = en y o').
Hypothesis H2 : forall y o, int o -> en y o = true -> mu (st y o) < mu y.
Hypothesis H3 : forall y, Forall int (base y).
Hypothesis H4 : forall y, (forall o, In o (base y) -> en y o = false) -> forall o, int o -> en y o = false.

Variable sched : nat -> O.
Hypothesis Hok : forall m, ok (sched m).
Hypothesis Hfair : forall o, int o -> forall n, exists m, n <= m /\ sched m = o.

Fixpoint at_ (y : Y) (m : nat) : Y := match m with 0 => y | S m' => st (at_ y m') (sched m') end.

Lemma at_mono y n m : n <= m -> mu (at_ y m) < mu (at_ y n) \/ (mu (at_ y m) = mu (at_ y n) /\ forall o, en (at_ y m) o = en (at_ y n) o).
Proof.
  induction 1 as [|m Hm IH]; [right; auto|]. cbn [at_]. destruct (H1 (at_ y m) (sched m) (Hok m)) as [H|[H E]];
    destruct IH as [I|[I F]]; try (left; lia). right. split; [lia|]. intros o. rewrite E. apply F.
Qed.

Lemma fair_stops y : exists N, forall o, int o -> en (at_ y N) o = false.
Proof.
  cut (forall k n, mu (at_ y n) <= k -> exists N, forall o, int o -> en (at_ y N) o = false).
  { intros H. exact (H _ 0 (le_n _)). }
  intros k. induction k as [k IH] using lt_wf_ind. intros n Hk.
  destruct (existsb (en (at_ y n)) (base (at_ y n))) eqn:Ex.
  - apply existsb_exists in Ex. destruct Ex as (o & Ho & Eo).
    pose proof (proj1 (Forall_forall _ _) (H3 (at_ y n)) o Ho) as Io.
    destruct (Hfair o Io n) as (m & Hm & Em).
    destruct (at_mono y n m Hm) as [H|[H E]].
    + apply (IH (mu (at_ y m))) with (n := m); lia.
    + assert (D : mu (at_ y (S m)) < mu (at_ y m)).
      { cbn [at_]. rewrite Em. apply H2; auto. rewrite E. exact Eo. }
      apply (IH (mu (at_ y (S m)))) with (n := S m); lia.
  - exists n. apply H4. intros o Ho. destruct (en (at_ y n) o) eqn:E; auto.
    rewrite (proj2 (existsb_exists _ _)) in Ex; [discriminate|]. exists o. auto.
Qed.

Hypothesis H5 : forall y o, ok o -> (int o -> en y o = false) -> forall o', en (st y o) o' = en y o'.
Lemma fair_stays y N : (forall o, int o -> en (at_ y N) o = false) -> forall M, N <= M -> forall o, int o -> en (at_ y M) o = false.
Proof. intros H M HM. induction HM as [|M HM IH]; auto. cbn [at_]. intros o Ho. rewrite H5; auto. Qed.
Lemma fair_ends y : exists N, forall M, N <= M -> forall o, int o -> en (at_ y M) o = false.
Proof. destruct (fair_stops y) as [N HN]. exists N. apply fair_stays. exact HN. Qed.
End Fair.

(** Two systems, each step of one followed by a step of the other that tells it the new state. *)
Section Pair.
Context {YA OA YB OB : Type}.
Variable stA : YA -> OA -> YA.
Variable stB : YB -> OB -> YB.
Variable tellA : YB -> OA.
Variable tellB : YA -> OB.
Definition pstep (z : YA * YB) (o : OA + OB) : YA * YB :=
  match o with
  | inl o => (stA (fst z) o, stB (snd z) (tellB (stA (fst z) o)))
  | inr o => (stA (fst z) (tellA (stB (snd z) o)), stB (snd z) o)
  end.
Variable sched : nat -> OA + OB.
Variable z : YA * YB.
Definition schedA (m : nat) : OA := match sched m with inl o => o | inr o => tellA (stB (snd (at_ pstep sched z m)) o) end.
Definition schedB (m : nat) : OB := match sched m with inr o => o | inl o => tellB (stA (fst (at_ pstep sched z m)) o) end.
Lemma at_A m : at_ stA schedA (fst z) m = fst (at_ pstep sched z m).
Proof. induction m as [|m IH]; [reflexivity|]. cbn [at_]. rewrite IH. unfold schedA. destruct (sched m); reflexivity. Qed.
Lemma at_B m : at_ stB schedB (snd z) m = snd (at_ pstep sched z m).
Proof. induction m as [|m IH]; [reflexivity|]. cbn [at_]. rewrite IH. unfold schedB. destruct (sched m); reflexivity. Qed.
End Pair.

Lemma first_steps_S {O} (sched : nat -> O) N : first_steps sched (S N) = first_steps sched N ++ [sched N].
Proof. unfold first_steps. rewrite seq_S, map_app. reflexivity. Qed.

(** a fair schedule, for the Examples: 0; 0 1 2; 0 1 2 3 4; ... through a coding of the steps *)
Definition enum {O} (code : nat -> O) (m : nat) : O := code (m - Nat.sqrt m * Nat.sqrt m)%nat.
Lemma enum_fair {O} (int : O -> Prop) code : (forall o, int o -> exists k, code k = o) -> fair int (enum code).
Proof.
  intros H o Ho n. destruct (H o Ho) as (k & <-). exists ((n + k) * (n + k) + k)%nat. split; [nia|].
  unfold enum. rewrite (Nat.sqrt_unique ((n + k) * (n + k) + k) (n + k)) by nia. f_equal. lia.
Qed.
Definition u_code {C S} (k : nat) : uop C S :=
  match (k mod 12)%nat with 0 => UStart (k / 12) | 1 => UGet | 2 => USend | 3 => URGet | 4 => URecv | 5 => ULoad true | 6 => ULoad false
  | 7 => UXfer true | 8 => UXfer false | 9 => ULoadB | 10 => UXferB | _ => USlave end%nat.
Lemma u_code_all {C S} (o : uop C S) : uinternal o -> exists k, u_code k = o.
Proof.
  destruct o as [c|c|n| | | | |[|]|[|]| | | |f]; intros H; try contradiction H; [|exists 1|exists 2|exists 3|exists 4|exists 5|exists 6|exists 7|exists 8|exists 9|exists 10|exists 11]; try reflexivity.
  exists (n * 12). unfold u_code. rewrite Nat.mod_mul, Nat.div_mul by lia. reflexivity.
Qed.
Definition y_code {C S} (k : nat) : yop C S :=
  match (k mod 13)%nat with 0 => YStart (k / 13) | 1 => YGet | 2 => YSend | 3 => YRecv | 4 => YCGet (k / 13) | 5 => YCResp (k / 13) | 6 => YLoad true
  | 7 => YLoad false | 8 => YXfer true | 9 => YXfer false | 10 => YLoadB | 11 => YXferB | _ => YSlave end%nat.
Lemma y_code_all {C S} (o : yop C S) : internal o -> exists k, y_code k = o.
Proof.
  destruct o as [c|c|n| | | |n|n|[|]|[|]| | | |f]; intros H; try contradiction H;
    [|exists 1|exists 2|exists 3| | |exists 6|exists 7|exists 8|exists 9|exists 10|exists 11|exists 12]; try reflexivity.
  - exists (n * 13). unfold y_code. rewrite Nat.mod_mul, Nat.div_mul by lia. reflexivity.
  - exists (4 + n * 13). unfold y_code. rewrite Nat.mod_add, Nat.div_add by lia. reflexivity.
  - exists (5 + n * 13). unfold y_code. rewrite Nat.mod_add, Nat.div_add by lia. reflexivity.
Qed.
Lemma u_code_ok {C S} k : uno_issue (@u_code C S k) /\ (forall f, @u_code C S k <> UPoke f).
Proof. unfold u_code. destruct (k mod 12) as [|[|[|[|[|[|[|[|[|[|[|?]]]]]]]]]]]; (split; [exact I|intros f; discriminate]). Qed.
Lemma y_code_ok {C S} k : yno_issue (@y_code C S k) /\ (forall f, @y_code C S k <> YPoke f).
Proof. unfold y_code. destruct (k mod 13) as [|[|[|[|[|[|[|[|[|[|[|[|?]]]]]]]]]]]]; (split; [exact I|intros f; discriminate]). Qed.
