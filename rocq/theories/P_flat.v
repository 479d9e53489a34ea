(** The schedule in which the n-th step of a schedule is replaced by a sequence of steps. *)
From Coq Require Import ZArith Lia List Bool.
From Verif Require Import S_live.
Import ListNotations.
Open Scope nat_scope.

Section F.
Context {O : Type}.
Variable d : O.
Variable seg : nat -> list O.
Hypothesis Hne : forall n, seg n <> [].
Definition segs (n : nat) : list O := concat (map seg (seq 0 n)).
Definition flat (i : nat) : O := nth i (segs (S i)) d.

Lemma segs_S n : segs (S n) = segs n ++ seg n.
Proof. unfold segs. rewrite seq_S, map_app, concat_app. cbn. now rewrite app_nil_r. Qed.
Lemma segs_len n : n <= length (segs n).
Proof. induction n as [|n IH]; [lia|]. rewrite segs_S, app_length. pose proof (Hne n). destruct (seg n); [congruence|]. cbn. lia. Qed.
Lemma segs_pre n m : n <= m -> exists l, segs m = segs n ++ l.
Proof.
  induction 1 as [|m Hm (l & IH)]; [exists []; now rewrite app_nil_r|]. exists (l ++ seg m). rewrite segs_S, IH. now rewrite app_assoc.
Qed.
Lemma flat_nth n i : i < length (segs n) -> flat i = nth i (segs n) d.
Proof.
  intros Hi. unfold flat. destruct (Nat.le_gt_cases n (S i)) as [H|H].
  - destruct (segs_pre n (S i) H) as (l & ->). now rewrite app_nth1.
  - destruct (segs_pre (S i) n) as (l & ->); [lia|]. pose proof (segs_len (S i)). rewrite app_nth1; [reflexivity|lia].
Qed.
Lemma map_nth_seq (l : list O) : map (fun i => nth i l d) (seq 0 (length l)) = l.
Proof.
  induction l as [|x l IH] using rev_ind; [reflexivity|]. rewrite app_length. cbn [length]. rewrite Nat.add_1_r, seq_S, map_app. cbn [map plus].
  rewrite app_nth2, Nat.sub_diag by lia. cbn. f_equal. rewrite <- IH at 2. apply map_ext_in. intros i Hi. apply in_seq in Hi. now rewrite app_nth1 by lia.
Qed.
Lemma flat_first n : first_steps flat (length (segs n)) = segs n.
Proof.
  unfold first_steps. rewrite <- (map_nth_seq (segs n)) at 2. apply map_ext_in. intros i Hi. apply in_seq in Hi. apply flat_nth. lia.
Qed.
Lemma flat_in o m : In o (seg m) -> exists k, m <= k /\ flat k = o.
Proof.
  intros H. destruct (In_nth _ _ d H) as (j & Hj & E). exists (length (segs m) + j). split; [pose proof (segs_len m); lia|].
  rewrite (flat_nth (S m)); rewrite segs_S; [|rewrite app_length; lia]. rewrite app_nth2 by lia. replace (length (segs m) + j - length (segs m)) with j by lia. exact E.
Qed.
Lemma flat_from i : exists m, In (flat i) (seg m).
Proof.
  assert (H : forall n i, i < length (segs n) -> exists m, In (nth i (segs n) d) (seg m)).
  { induction n as [|n IH]; intros j Hj; [cbn in Hj; lia|]. rewrite segs_S in *. rewrite app_length in Hj. destruct (Nat.lt_ge_cases j (length (segs n))) as [H|H].
    - rewrite app_nth1 by lia. now apply IH.
    - rewrite app_nth2 by lia. exists n. apply nth_In. lia. }
  unfold flat. apply H. pose proof (segs_len (S i)). lia.
Qed.
End F.
