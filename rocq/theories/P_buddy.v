From Coq Require Import ZArith Lia List Bool.
From Coq Require Import ZifyBool ZifyNat.
From Verif Require Import Py M_buddy S_buddy.
Import ListNotations.
Open Scope Z_scope.
Ltac Zify.zify_post_hook ::= Z.div_mod_to_equations.

Definition p2 (k : nat) : Z := 2 ^ Z.of_nat k.

Lemma p2_pos k : 0 < p2 k.
Proof. unfold p2. apply Z.pow_pos_nonneg; lia. Qed.

Lemma p2_S k : p2 (S k) = 2 * p2 k.
Proof. unfold p2. rewrite Nat2Z.inj_succ, Z.pow_succ_r by lia. reflexivity. Qed.

Lemma p2_le j k : (j <= k)%nat -> p2 j <= p2 k.
Proof. intros. unfold p2. apply Z.pow_le_mono_r; lia. Qed.

Lemma p2_split j k : (j <= k)%nat -> p2 k = p2 (k - j) * p2 j.
Proof.
  intros. unfold p2. rewrite <- Z.pow_add_r by lia. f_equal. lia.
Qed.

(** 1 if x lies in the block of level k at a, else 0 *)
Definition inb (a : Z) (k : nat) (x : Z) : Z :=
  if (a <=? x) && (x <? a + p2 k) then 1 else 0.

Fixpoint cntl (k : nat) (l : list Z) (x : Z) : Z :=
  match l with [] => 0 | a :: l' => inb a k x + cntl k l' x end.

Fixpoint cntfl (k : nat) (fl : list (list Z)) (x : Z) : Z :=
  match fl with [] => 0 | l :: fl' => cntl k l x + cntfl (S k) fl' x end.

Fixpoint cntd (d : dict nat) (x : Z) : Z :=
  match d with [] => 0 | (a, k) :: d' => inb a k x + cntd d' x end.

Ltac ifs := repeat match goal with |- context [if ?c then _ else _] => destruct c eqn:? end; try lia.

Lemma inb_bounds a k x : 0 <= inb a k x <= 1.
Proof. unfold inb. destruct (_ && _); lia. Qed.

Lemma cntl_nonneg k l x : 0 <= cntl k l x.
Proof. induction l; cbn [cntl]; [lia|]. pose proof (inb_bounds a k x). lia. Qed.

Lemma cntfl_nonneg k fl x : 0 <= cntfl k fl x.
Proof.
  revert k; induction fl; intros; cbn [cntfl]; [lia|].
  pose proof (cntl_nonneg k a x). specialize (IHfl (S k)). lia.
Qed.

Lemma cntd_nonneg d x : 0 <= cntd d x.
Proof. induction d as [|[a k] d]; cbn [cntd]; [lia|]. pose proof (inb_bounds a k x). lia. Qed.

Lemma cntl_app k l m x : cntl k (l ++ m) x = cntl k l x + cntl k m x.
Proof. induction l; cbn [cntl app]; [lia|]. rewrite IHl. lia. Qed.

Lemma cntd_app l m x : cntd (l ++ m) x = cntd l x + cntd m x.
Proof. induction l as [|[a k] l]; cbn [cntd app]; [lia|]. rewrite IHl. lia. Qed.

Lemma cntl_In k l x a : In a l -> inb a k x <= cntl k l x.
Proof.
  induction l; cbn [In cntl]; [easy|]. intros [->|H].
  - pose proof (cntl_nonneg k l x). lia.
  - pose proof (inb_bounds a0 k x). specialize (IHl H). lia.
Qed.

Lemma cntd_In d x a k : In (a, k) d -> inb a k x <= cntd d x.
Proof.
  induction d as [|[a' k'] d IH]; cbn [In cntd]; [easy|]. intros [H|H].
  - inversion H; subst. pose proof (cntd_nonneg d x). lia.
  - pose proof (inb_bounds a' k' x). specialize (IH H). lia.
Qed.

Lemma fl_set_length fl k l : length (fl_set fl k l) = length fl.
Proof. revert k; induction fl; intros; cbn [fl_set]; auto. destruct k; cbn; auto. Qed.

Lemma fl_get_set fl k l j : (k < length fl)%nat ->
  fl_get (fl_set fl k l) j = if Nat.eqb j k then l else fl_get fl j.
Proof.
  unfold fl_get. revert k j; induction fl; intros k j Hk; cbn [length] in Hk; [lia|].
  destruct k; cbn [fl_set].
  - destruct j; reflexivity.
  - destruct j; cbn [nth]; [reflexivity|]. rewrite IHfl by lia. reflexivity.
Qed.

Lemma cntfl_set fl : forall k0 k l x, (k < length fl)%nat ->
  cntfl k0 (fl_set fl k l) x
  = cntfl k0 fl x - cntl (k0 + k) (fl_get fl k) x + cntl (k0 + k) l x.
Proof.
  unfold fl_get. induction fl; intros k0 k l x Hk; cbn [length] in Hk; [lia|].
  destruct k; cbn [fl_set cntfl nth].
  - rewrite Nat.add_0_r. lia.
  - rewrite IHfl by lia. replace (S k0 + k)%nat with (k0 + S k)%nat by lia. lia.
Qed.

Lemma cntfl_ge fl : forall k0 k x, cntl (k0 + k) (fl_get fl k) x <= cntfl k0 fl x.
Proof.
  unfold fl_get. induction fl; intros k0 k x; cbn [cntfl].
  - destruct k; cbn; lia.
  - destruct k; cbn [nth].
    + rewrite Nat.add_0_r. pose proof (cntfl_nonneg (S k0) fl x). lia.
    + specialize (IHfl (S k0) k x). replace (S k0 + k)%nat with (k0 + S k)%nat in IHfl by lia.
      pose proof (cntl_nonneg k0 a x). lia.
Qed.

(** two different free lists: contributions add *)
Lemma cntfl_ge2 fl : forall k0 j k x, (j < k)%nat ->
  cntl (k0 + j) (fl_get fl j) x + cntl (k0 + k) (fl_get fl k) x <= cntfl k0 fl x.
Proof.
  induction fl; intros k0 j k x Hjk.
  - unfold fl_get. destruct j, k; cbn; lia.
  - unfold fl_get. destruct k; [lia|]. cbn [cntfl nth]. destruct j.
    + rewrite Nat.add_0_r. pose proof (cntfl_ge fl (S k0) k x) as H. unfold fl_get in H.
      replace (S k0 + k)%nat with (k0 + S k)%nat in H by lia. lia.
    + specialize (IHfl (S k0) j k x ltac:(lia)). unfold fl_get in IHfl.
      replace (S k0 + j)%nat with (k0 + S j)%nat in IHfl by lia.
      replace (S k0 + k)%nat with (k0 + S k)%nat in IHfl by lia.
      pose proof (cntl_nonneg k0 a x). lia.
Qed.

Lemma cntfl_In fl k a x : In a (fl_get fl k) -> inb a k x <= cntfl 0 fl x.
Proof.
  intros H. pose proof (cntl_In k _ x a H). pose proof (cntfl_ge fl 0 k x). cbn [plus] in *. lia.
Qed.

Lemma cntl_pos k l x : 0 < cntl k l x -> exists a, In a l /\ a <= x < a + p2 k.
Proof.
  induction l; cbn [cntl]; [lia|]. intros H.
  unfold inb in H. destruct ((a <=? x) && (x <? a + p2 k)) eqn:E.
  - exists a. split; [now left|lia].
  - destruct IHl as (b & Hb & Hb'); [lia|]. exists b. split; [now right|auto].
Qed.

Lemma cntfl_pos fl : forall k0 x, 0 < cntfl k0 fl x ->
  exists k a, (k < length fl)%nat /\ In a (fl_get fl k) /\ a <= x < a + p2 (k0 + k).
Proof.
  induction fl; intros k0 x H; cbn [cntfl] in H; [lia|].
  destruct (Z.ltb_spec 0 (cntl k0 a x)).
  - apply cntl_pos in H0. destruct H0 as (b & Hb & Hb'). exists O, b.
    rewrite Nat.add_0_r. cbn. repeat split; auto; lia.
  - destruct (IHfl (S k0) x) as (k & b & Hk & Hb & Hb'); [lia|].
    exists (S k), b. replace (k0 + S k)%nat with (S k0 + k)%nat by lia.
    cbn [length]. repeat split; auto; lia.
Qed.

Lemma cntd_pos d x : 0 < cntd d x -> exists a k, In (a, k) d /\ a <= x < a + p2 k.
Proof.
  induction d as [|[a k] d IH]; cbn [cntd]; [lia|]. intros H.
  unfold inb in H. destruct ((a <=? x) && (x <? a + p2 k)) eqn:E.
  - exists a, k. split; [now left|lia].
  - destruct IH as (b & j & Hb & Hb'); [lia|]. exists b, j. split; [now right|auto].
Qed.

(** ** number theory of buddies *)
Lemma buddy_even k a : a mod p2 k = 0 -> (a / p2 k) mod 2 = 0 ->
  buddy_of k a = a + p2 k /\ a mod p2 (S k) = 0.
Proof.
  intros Ha He. unfold buddy_of. fold (p2 k). rewrite He. split; [reflexivity|].
  rewrite p2_S. pose proof (p2_pos k).
  set (q := a / p2 k) in *. assert (a = p2 k * q) by (pose proof (Z.div_mod a (p2 k)); lia).
  assert (q = 2 * (q / 2)) by lia.
  rewrite H0, H1. replace (p2 k * (2 * (q / 2))) with ((q / 2) * (2 * p2 k)) by lia.
  apply Z.mod_mul. lia.
Qed.

Lemma buddy_odd k a : a mod p2 k = 0 -> (a / p2 k) mod 2 <> 0 ->
  buddy_of k a = a - p2 k /\ (a - p2 k) mod p2 (S k) = 0.
Proof.
  intros Ha He. unfold buddy_of. fold (p2 k).
  replace ((a / p2 k) mod 2 =? 0) with false by lia. split; [reflexivity|].
  rewrite p2_S. pose proof (p2_pos k).
  set (q := a / p2 k) in *. assert (a = p2 k * q) by (pose proof (Z.div_mod a (p2 k)); lia).
  assert (q = 2 * (q / 2) + 1) by lia.
  rewrite H0, H1. replace (p2 k * (2 * (q / 2) + 1) - p2 k) with ((q / 2) * (2 * p2 k)) by lia.
  apply Z.mod_mul. lia.
Qed.

Lemma aligned_mul k a : a mod p2 k = 0 -> exists q, a = p2 k * q.
Proof. intros. exists (a / p2 k). pose proof (p2_pos k). pose proof (Z.div_mod a (p2 k)). lia. Qed.

Lemma aligned_of_mul k q : (p2 k * q) mod p2 k = 0.
Proof. rewrite Z.mul_comm. apply Z.mod_mul. pose proof (p2_pos k). lia. Qed.

Lemma buddy_even_mul k q : buddy_of k (p2 (S k) * q) = p2 (S k) * q + p2 k.
Proof.
  unfold buddy_of. fold (p2 k). pose proof (p2_pos k). rewrite p2_S.
  replace (2 * p2 k * q / p2 k) with (2 * q).
  2:{ replace (2 * p2 k * q) with ((2 * q) * p2 k) by lia. rewrite Z.div_mul; lia. }
  replace ((2 * q) mod 2 =? 0) with true by lia. reflexivity.
Qed.

Lemma buddy_odd_mul k q : buddy_of k (p2 (S k) * q + p2 k) = p2 (S k) * q.
Proof.
  unfold buddy_of. fold (p2 k). pose proof (p2_pos k). rewrite p2_S.
  replace ((2 * p2 k * q + p2 k) / p2 k) with (2 * q + 1).
  2:{ replace (2 * p2 k * q + p2 k) with ((2 * q + 1) * p2 k) by lia. rewrite Z.div_mul; lia. }
  replace ((2 * q + 1) mod 2 =? 0) with false by lia. lia.
Qed.

(** aligned a: either a = 2s*q or 2s*q + s *)
Lemma aligned_cases k a : a mod p2 k = 0 ->
  exists q, a = p2 (S k) * q \/ a = p2 (S k) * q + p2 k.
Proof.
  intros H. destruct (aligned_mul k a H) as [r ->]. exists (r / 2). rewrite p2_S.
  destruct (Z.eq_dec (r mod 2) 0).
  - left. assert (r = 2 * (r / 2)) by lia. rewrite H0 at 1. lia.
  - right. assert (r = 2 * (r / 2) + 1) by lia. rewrite H0 at 1. lia.
Qed.

Lemma buddy_invol k a : a mod p2 k = 0 -> buddy_of k (buddy_of k a) = a.
Proof.
  intros H. destruct (aligned_cases k a H) as (q & [-> | ->]).
  - rewrite buddy_even_mul. apply buddy_odd_mul.
  - rewrite buddy_odd_mul. apply buddy_even_mul.
Qed.

Lemma buddy_neq k a : buddy_of k a <> a.
Proof.
  unfold buddy_of. fold (p2 k). pose proof (p2_pos k). destruct (_ =? 0); lia.
Qed.

Lemma buddy_merge k a : a mod p2 k = 0 ->
  (Z.min a (buddy_of k a)) mod p2 (S k) = 0 /\
  forall x, inb (Z.min a (buddy_of k a)) (S k) x = inb a k x + inb (buddy_of k a) k x.
Proof.
  intros H. pose proof (p2_pos k). destruct (aligned_cases k a H) as (q & [-> | ->]).
  - rewrite buddy_even_mul. rewrite Z.min_l by lia. split; [apply aligned_of_mul|].
    intros x. unfold inb. set (b := p2 (S k) * q). rewrite (p2_S k). ifs.
  - rewrite buddy_odd_mul. rewrite Z.min_r by lia. split; [apply aligned_of_mul|].
    intros x. unfold inb. set (b := p2 (S k) * q). rewrite (p2_S k). ifs.
Qed.

(** aligned blocks are nested or disjoint *)
Lemma aligned_nested j k a b x : (j <= k)%nat ->
  a mod p2 j = 0 -> b mod p2 k = 0 -> a <= x < a + p2 j -> b <= x < b + p2 k ->
  b <= a /\ a + p2 j <= b + p2 k.
Proof.
  intros Hjk Ha Hb Hax Hbx. pose proof (p2_pos j). pose proof (p2_pos k).
  destruct (aligned_mul _ _ Ha) as [p ->]. destruct (aligned_mul _ _ Hb) as [q ->].
  rewrite (p2_split j k Hjk) in *. set (s := p2 j) in *. set (t := p2 (k - j)) in *.
  assert (0 < t) by (unfold t; apply p2_pos).
  assert (t * q <= p) by nia. assert (p + 1 <= t * q + t) by nia. nia.
Qed.

(** ** invariant *)
Definition fl_aligned (fl : list (list Z)) : Prop :=
  forall k a, In a (fl_get fl k) -> a mod p2 k = 0.
Definition fl_nobuddy (fl : list (list Z)) : Prop :=
  forall k a, In a (fl_get fl k) -> ~ In (buddy_of k a) (fl_get fl k).
Definition rng (K : nat) (x : Z) : Z := if (0 <=? x) && (x <? p2 K) then 1 else 0.

Record binv (K : nat) (b : buddy) : Prop := {
  bi_len : length (b_free b) = S K;
  bi_al : fl_aligned (b_free b);
  bi_nb : fl_nobuddy (b_free b);
  bi_live : forall a k, In (a, k) (b_alloc b) -> a mod p2 k = 0 /\ (k <= K)%nat;
  bi_cnt : forall x, cntfl 0 (b_free b) x + cntd (b_alloc b) x = rng K x
}.

(** a block whose every point is counted lies in range *)
Lemma block_range K a k :
  (forall x, inb a k x <= rng K x) -> 0 <= a /\ a + p2 k <= p2 K.
Proof.
  intros H. pose proof (p2_pos k). pose proof (H a) as H1. pose proof (H (a + p2 k - 1)) as H2.
  unfold inb, rng in *.
  replace ((a <=? a) && (a <? a + p2 k)) with true in H1 by lia.
  replace ((a <=? a + p2 k - 1) && (a + p2 k - 1 <? a + p2 k)) with true in H2 by lia.
  destruct ((0 <=? a) && (a <? p2 K)) eqn:E1; [|lia].
  destruct ((0 <=? a + p2 k - 1) && (a + p2 k - 1 <? p2 K)) eqn:E2; lia.
Qed.

(** ** merge loop *)
Lemma remove_first_In x y l : In y (remove_first x l) -> In y l.
Proof.
  induction l; cbn [remove_first]; [easy|]. destruct (a =? x); cbn [In]; tauto.
Qed.

Lemma cntl_remove k x y l : In y l -> cntl k (remove_first y l) x = cntl k l x - inb y k x.
Proof.
  induction l; cbn [remove_first cntl]; [easy|].
  destruct (Z.eqb_spec a y).
  - subst. lia.
  - intros [H|H]; [lia|]. cbn [cntl]. rewrite IHl by auto. lia.
Qed.

Lemma existsb_In x l : existsb (Z.eqb x) l = true <-> In x l.
Proof.
  rewrite existsb_exists. split.
  - intros (y & Hy & E). apply Z.eqb_eq in E. now subst.
  - intros H. exists x. split; auto. apply Z.eqb_refl.
Qed.

Lemma b_merge_spec K (rest : Z -> Z) fuel : forall fl a k,
  length fl = S K -> fl_aligned fl -> fl_nobuddy fl -> a mod p2 k = 0 -> (k <= K)%nat ->
  (forall x, 0 <= rest x) ->
  (forall x, cntfl 0 fl x + inb a k x + rest x = rng K x) ->
  (K - k < fuel)%nat ->
  exists fl', b_merge fuel fl a k = (fl', Ok tt) /\ length fl' = S K /\ fl_aligned fl' /\
    fl_nobuddy fl' /\ forall x, cntfl 0 fl' x = cntfl 0 fl x + inb a k x.
Proof.
  induction fuel; intros fl a k Hlen Hal Hnb Ha Hk Hrest Hcnt Hf; [lia|].
  cbn [b_merge]. replace (Nat.ltb k (length fl)) with true by lia.
  destruct (existsb (Z.eqb (buddy_of k a)) (fl_get fl k)) eqn:EB.
  - apply existsb_In in EB.
    assert (Hrb : 0 <= buddy_of k a /\ buddy_of k a + p2 k <= p2 K).
    { apply block_range. intros x. specialize (Hcnt x). specialize (Hrest x).
      pose proof (cntfl_In fl k (buddy_of k a) x EB). pose proof (inb_bounds a k x). lia. }
    assert (Hra : 0 <= a /\ a + p2 k <= p2 K).
    { apply block_range. intros x. specialize (Hcnt x). specialize (Hrest x).
      pose proof (cntfl_nonneg 0 fl x). lia. }
    assert (Hk' : (k < K)%nat).
    { destruct (Nat.eq_dec k K); [|lia]. subst k. pose proof (buddy_neq K a). lia. }
    destruct (buddy_merge k a Ha) as [Hma Hmc].
    destruct (IHfuel (fl_set fl k (remove_first (buddy_of k a) (fl_get fl k)))
                (Z.min a (buddy_of k a)) (S k)) as (fl' & E & Hl' & Hal' & Hnb' & Hc'); auto.
    + now rewrite fl_set_length.
    + intros j c. rewrite fl_get_set by lia. destruct (Nat.eqb_spec j k).
      * subst. intros Hc. apply remove_first_In in Hc. eauto.
      * eauto.
    + intros j c. rewrite fl_get_set by lia. destruct (Nat.eqb_spec j k).
      * subst. intros Hc C. apply remove_first_In in Hc. apply remove_first_In in C.
        exact (Hnb _ _ Hc C).
      * eauto.
    + intros x. rewrite cntfl_set by lia. cbn [plus]. rewrite cntl_remove by auto.
      rewrite Hmc. specialize (Hcnt x). lia.
    + lia.
    + exists fl'. repeat split; auto. intros x. rewrite Hc'.
      rewrite cntfl_set by lia. cbn [plus]. rewrite cntl_remove by auto. rewrite Hmc. lia.
  - assert (Hni : ~ In (buddy_of k a) (fl_get fl k)).
    { intros C. apply existsb_In in C. congruence. }
    eexists. split; [reflexivity|]. rewrite fl_set_length. repeat split; auto.
    + intros j c. rewrite fl_get_set by lia. destruct (Nat.eqb_spec j k); [|eauto].
      subst. intros Hc. apply in_app_or in Hc. destruct Hc as [Hc|[<-|[]]]; eauto.
    + intros j c. rewrite fl_get_set by lia. destruct (Nat.eqb_spec j k); [|eauto].
      subst. intros Hc C. apply in_app_or in Hc. apply in_app_or in C.
      destruct Hc as [Hc|[<-|[]]]; destruct C as [C|[C|[]]].
      * exact (Hnb _ _ Hc C).
      * apply Hni. rewrite C. rewrite buddy_invol; eauto.
      * auto.
      * symmetry in C. now apply buddy_neq in C.
    + intros x. rewrite cntfl_set by lia. cbn [plus]. rewrite cntl_app. cbn [cntl]. lia.
Qed.

(** ** find and split *)
Lemma b_find_some fuel : forall fl k j, b_find fuel fl k = Some j ->
  (k <= j < length fl)%nat /\ fl_get fl j <> [] /\
  forall i, (k <= i < j)%nat -> fl_get fl i = [].
Proof.
  induction fuel; intros fl k j H; cbn [b_find] in H; [discriminate|].
  destruct (Nat.ltb_spec k (length fl)); [|discriminate].
  destruct (fl_get fl k) eqn:E.
  - apply IHfuel in H. destruct H as (H1 & H2 & H3). repeat split; auto; try lia.
    intros i Hi. destruct (Nat.eq_dec i k); [subst; auto|]. apply H3. lia.
  - inversion H; subst j. repeat split; auto; try lia. now rewrite E.
Qed.

Lemma b_find_none fuel : forall fl k, b_find fuel fl k = None ->
  (length fl < fuel + k)%nat -> forall i, (k <= i)%nat -> fl_get fl i = [].
Proof.
  induction fuel; intros fl k H Hf i Hi; cbn [b_find] in H.
  - unfold fl_get. apply nth_overflow. lia.
  - destruct (Nat.ltb_spec k (length fl)).
    + destruct (fl_get fl k) eqn:E; [|discriminate].
      destruct (Nat.eq_dec i k); [subst; auto|]. apply (IHfuel fl (S k)); auto; lia.
    + unfold fl_get. apply nth_overflow. lia.
Qed.

Ltac Zify.zify_post_hook ::= idtac.
Lemma b_split_spec n : forall fl bucket orig block rest,
  bucket = (orig + n)%nat -> (bucket < length fl)%nat ->
  fl_get fl bucket = block :: rest ->
  (forall i, (orig <= i < bucket)%nat -> fl_get fl i = []) ->
  fl_aligned fl -> fl_nobuddy (fl_set fl bucket rest) ->
  exists fl' rest', b_split n fl bucket = (fl', Ok orig) /\
    length fl' = length fl /\
    fl_get fl' orig = block :: rest' /\ block mod p2 orig = 0 /\
    fl_aligned (fl_set fl' orig rest') /\ fl_nobuddy (fl_set fl' orig rest') /\
    forall x, cntfl 0 (fl_set fl' orig rest') x + inb block orig x = cntfl 0 fl x.
Proof.
  induction n; intros fl bucket orig block rest Hb Hlt Hget Hlow Hal Hnb; cbn [b_split].
  - assert (bucket = orig) by lia. subst bucket. rewrite H in *. exists fl, rest. repeat split; auto.
    + apply (Hal orig). rewrite Hget. now left.
    + intros j c. rewrite fl_get_set by lia. destruct (Nat.eqb_spec j orig); [|eauto].
      subst. intros Hc. apply (Hal orig). rewrite Hget. now right.
    + intros x. rewrite cntfl_set by lia. rewrite Hget. cbn [plus cntl]. lia.
  - rewrite Hget. destruct bucket as [|bk]; [lia|]. cbn [pred]. fold (p2 bk).
    set (fl1 := fl_set fl (S bk) rest).
    assert (Hl1 : length fl1 = length fl) by apply fl_set_length.
    assert (Hg1 : fl_get fl1 bk = []).
    { unfold fl1. rewrite fl_get_set by lia.
      replace (Nat.eqb bk (S bk)) with false by lia. apply Hlow. lia. }
    rewrite Hg1. cbn [app].
    set (fl2 := fl_set fl1 bk [block; block + p2 bk]).
    assert (Hl2 : length fl2 = length fl) by (unfold fl2; rewrite fl_set_length; auto).
    assert (Hg2 : fl_get fl2 bk = [block; block + p2 bk]).
    { unfold fl2. rewrite fl_get_set by lia. now rewrite Nat.eqb_refl. }
    assert (Hblk : block mod p2 (S bk) = 0) by (apply (Hal (S bk)); rewrite Hget; now left).
    destruct (aligned_mul _ _ Hblk) as [q Hq].
    assert (Hba : block mod p2 bk = 0 /\ (block + p2 bk) mod p2 bk = 0).
    { pose proof (p2_pos bk). rewrite Hq, p2_S. split.
      - replace (2 * p2 bk * q) with (p2 bk * (2 * q)) by lia. apply aligned_of_mul.
      - replace (2 * p2 bk * q + p2 bk) with (p2 bk * (2 * q + 1)) by lia. apply aligned_of_mul. }
    assert (HD : forall i, i <> bk -> fl_get fl2 i = if Nat.eqb i (S bk) then rest else fl_get fl i).
    { intros i Hi. unfold fl2. rewrite fl_get_set by lia.
      replace (Nat.eqb i bk) with false by lia. unfold fl1. rewrite fl_get_set by lia. reflexivity. }
    destruct (IHn fl2 bk orig block [block + p2 bk])
      as (fl' & rest' & E & Hl' & Hg' & Hbo & Hal' & Hnb' & Hc'); auto; try lia.
    + intros i Hi. rewrite HD by lia. replace (Nat.eqb i (S bk)) with false by lia.
      apply Hlow. lia.
    + intros j c. destruct (Nat.eq_dec j bk).
      * subst j. rewrite Hg2. cbn [In]. intros [<-|[<-|[]]]; tauto.
      * rewrite HD by auto. destruct (Nat.eqb_spec j (S bk)); [|eauto].
        subst j. intros Hc. apply (Hal (S bk)). rewrite Hget. now right.
    + intros j c. rewrite fl_get_set by lia. destruct (Nat.eqb_spec j bk).
      * cbn [In]. intros [<-|[]] [C|[]]. symmetry in C. now apply buddy_neq in C.
      * rewrite HD by auto. specialize (Hnb j c). rewrite fl_get_set in Hnb by lia. exact Hnb.
    + exists fl', rest'. rewrite E. split; [reflexivity|]. split; [congruence|]. split; [exact Hg'|].
      split; [exact Hbo|]. split; [exact Hal'|]. split; [exact Hnb'|].
      clear Hq Hblk Hba Hbo IHn HD. intros x. rewrite Hc'. unfold fl2. rewrite cntfl_set by lia. rewrite Hg1.
      unfold fl1. rewrite cntfl_set by lia. rewrite Hget. cbn [plus cntl].
      assert (inb block (S bk) x = inb block bk x + inb (block + p2 bk) bk x).
      { pose proof (p2_pos bk). unfold inb. rewrite p2_S. ifs. }
      lia.
Qed.
Ltac Zify.zify_post_hook ::= Z.div_mod_to_equations.

(** ** alloc *)
Lemma dset_fresh {A} (d : dict A) k v : dget d k = None -> dset d k v = d ++ [(k, v)].
Proof.
  induction d as [|[k' v'] d IH]; cbn [dget dset app]; auto.
  destruct (k' =? k); [discriminate|]. intros H. now rewrite IH.
Qed.

Lemma dget_none_notin {A} (d : dict A) k : (forall v, ~ In (k, v) d) -> dget d k = None.
Proof.
  intros H. destruct (dget d k) eqn:E; auto. apply dget_In in E. exfalso. eapply H; eauto.
Qed.

Definition obucket (b : buddy) (n : Z) : nat := Z.to_nat (bit_length (Z.max n (b_min b) - 1)).

Lemma b_alloc_spec K b n : binv K b -> 1 <= n <= b_size b ->
  let k := obucket b n in
  match b_alloc_op b n with
  | (b', Ok a) =>
      binv K b' /\ b_size b' = b_size b /\ b_min b' = b_min b /\
      b_alloc b' = b_alloc b ++ [(a, k)] /\ (k <= K)%nat /\
      a mod p2 k = 0 /\ 0 <= a /\ a + p2 k <= p2 K /\
      (forall x, a <= x < a + p2 k -> cntd (b_alloc b) x = 0)
  | (b', Err e) =>
      b' = b /\ e = Plain /\ forall i, (k <= i)%nat -> fl_get (b_free b) i = []
  end.
Proof.
  intros [Hlen Hal Hnb Hlive Hcnt] Hn k. unfold b_alloc_op.
  replace ((n <? 1) || (b_size b <? n)) with false by lia. fold (obucket b n). fold k.
  destruct (b_find (S (length (b_free b))) (b_free b) k) as [bucket|] eqn:EF.
  2:{ repeat split; auto. intros i Hi. eapply b_find_none; eauto. lia. }
  apply b_find_some in EF. destruct EF as (Hr & Hne & Hlow).
  destruct (fl_get (b_free b) bucket) as [|block rest] eqn:EG; [congruence|].
  destruct (b_split_spec (bucket - k) (b_free b) bucket k block rest)
    as (fl' & rest' & E & Hl' & Hg' & Hbo & Hal' & Hnb' & Hc'); auto; try lia.
  { intros j c. rewrite fl_get_set by lia. destruct (Nat.eqb_spec j bucket); [|eauto].
    subst j. intros Hc C. apply (Hnb bucket c); rewrite EG; right; assumption. }
  rewrite E, Hg'.
  assert (HR : 0 <= block /\ block + p2 k <= p2 K).
  { apply block_range. intros x. rewrite <- Hcnt, <- Hc'.
    pose proof (cntfl_nonneg 0 (fl_set fl' k rest') x). pose proof (cntd_nonneg (b_alloc b) x). lia. }
  assert (HZ : forall x, block <= x < block + p2 k -> cntd (b_alloc b) x = 0).
  { intros x Hx. specialize (Hcnt x). rewrite <- Hc' in Hcnt.
    pose proof (cntfl_nonneg 0 (fl_set fl' k rest') x). pose proof (cntd_nonneg (b_alloc b) x).
    unfold inb, rng in Hcnt. replace ((block <=? x) && (x <? block + p2 k)) with true in Hcnt by lia.
    destruct ((0 <=? x) && (x <? p2 K)); lia. }
  assert (HF : dget (b_alloc b) block = None).
  { apply dget_none_notin. intros v Hv. pose proof (p2_pos k). pose proof (p2_pos v).
    specialize (HZ block ltac:(lia)). pose proof (cntd_In _ block _ _ Hv) as Hge.
    unfold inb in Hge. replace ((block <=? block) && (block <? block + p2 v)) with true in Hge by lia.
    lia. }
  assert (HkK : (k <= K)%nat) by lia.
  rewrite dset_fresh by auto.
  cbn [b_size b_min b_alloc]. split; [|tauto].
  split; cbn [b_free b_alloc].
  - rewrite fl_set_length. lia.
  - exact Hal'.
  - exact Hnb'.
  - intros a j Hin. apply in_app_or in Hin. destruct Hin as [Hin|[Hin|[]]]; eauto.
    inversion Hin; subst. auto.
  - intros x. rewrite cntd_app. cbn [cntd]. specialize (Hc' x). specialize (Hcnt x). lia.
Qed.

(** ** free *)
Lemma cntd_ddel d a k x : NoDup (map fst d) -> In (a, k) d ->
  cntd (ddel d a) x = cntd d x - inb a k x.
Proof.
  unfold ddel. induction d as [|[a' k'] d IH]; intros Hnd Hin; cbn [In] in Hin; [easy|].
  cbn [map fst] in Hnd. inversion Hnd as [|? ? Hni Hnd']; subst.
  cbn [filter fst cntd]. destruct (Z.eqb_spec a' a); cbn [negb].
  - subst a'. destruct Hin as [Hin|Hin].
    + inversion Hin; subst. 
      assert (HF : filter (fun kv : Z * nat => negb (fst kv =? a)) d = d).
      { clear - Hni. induction d as [|[c j] d IH]; auto. cbn [filter fst map In] in *.
        destruct (Z.eqb_spec c a); [tauto|]. cbn [negb]. f_equal. tauto. }
      rewrite HF. lia.
    + exfalso. apply Hni. apply in_map_iff. exists (a, k). auto.
  - destruct Hin as [Hin|Hin]; [inversion Hin; congruence|].
    cbn [cntd]. rewrite IH by auto. lia.
Qed.

Lemma live_NoDup K b : binv K b -> NoDup (map fst (b_alloc b)).
Proof.
  intros [_ _ _ Hlive Hcnt].
  assert (H : forall x, cntd (b_alloc b) x <= 1).
  { intros x. specialize (Hcnt x). pose proof (cntfl_nonneg 0 (b_free b) x).
    unfold rng in Hcnt. destruct (_ && _); lia. }
  clear Hcnt Hlive. induction (b_alloc b) as [|[a k] d IH]; cbn [map fst]; constructor.
  - intros C. apply in_map_iff in C. destruct C as ([a' k'] & E & Hin). cbn in E. subst a'.
    specialize (H a). cbn [cntd] in H. pose proof (cntd_In d a a k' Hin) as Hge.
    pose proof (p2_pos k). pose proof (p2_pos k'). unfold inb in *.
    replace ((a <=? a) && (a <? a + p2 k)) with true in H by lia.
    replace ((a <=? a) && (a <? a + p2 k')) with true in Hge by lia. lia.
  - apply IH. intros x. specialize (H x). cbn [cntd] in H. pose proof (inb_bounds a k x). lia.
Qed.

Lemma b_free_spec K b a : binv K b ->
  match b_free_op b a with
  | (b', Ok _) => binv K b' /\ b_size b' = b_size b /\ b_min b' = b_min b /\
                  (exists k, In (a, k) (b_alloc b)) /\ b_alloc b' = ddel (b_alloc b) a
  | (b', Err e) => b' = b /\ e = ValueError /\ forall k, ~ In (a, k) (b_alloc b)
  end.
Proof.
  intros HI. pose proof (live_NoDup K b HI) as Hnd.
  destruct HI as [Hlen Hal Hnb Hlive Hcnt]. unfold b_free_op.
  destruct (dget (b_alloc b) a) as [k|] eqn:EG.
  - apply dget_In in EG. destruct (Hlive _ _ EG) as [Ha Hk].
    destruct (b_merge_spec K (cntd (ddel (b_alloc b) a)) (S (length (b_free b))) (b_free b) a k)
      as (fl' & E & Hl' & Hal' & Hnb' & Hc'); auto.
    + intros x. apply cntd_nonneg.
    + intros x. rewrite (cntd_ddel _ _ k) by auto. specialize (Hcnt x). lia.
    + lia.
    + rewrite E. cbn [b_size b_min b_alloc]. split; [|eauto].
      split; cbn [b_free b_alloc]; auto.
      * intros c j Hin. unfold ddel in Hin. apply filter_In in Hin. destruct Hin. eauto.
      * intros x. rewrite Hc'. rewrite (cntd_ddel _ _ k) by auto. specialize (Hcnt x). lia.
  - repeat split; auto. intros k Hin.
    clear - EG Hin. induction (b_alloc b) as [|[c j] d IH]; cbn [dget In] in *; [easy|].
    destruct (Z.eqb_spec c a); [discriminate|]. destruct Hin as [Hin|Hin]; [inversion Hin; congruence|auto].
Qed.

(** ** completeness: a region without live bytes contains a big enough free block *)
Lemma free_region K b : binv K b -> forall k A,
  A mod p2 k = 0 -> 0 <= A -> A + p2 k <= p2 K ->
  (forall x, A <= x < A + p2 k -> cntd (b_alloc b) x = 0) ->
  exists j c, (k <= j)%nat /\ In c (fl_get (b_free b) j) /\ c <= A /\ A + p2 k <= c + p2 j.
Proof.
  intros [Hlen Hal Hnb Hlive Hcnt]. induction k; intros A HA HA0 HAK Hfree.
  - assert (Hp : 0 < cntfl 0 (b_free b) A).
    { specialize (Hcnt A). pose proof (p2_pos 0). rewrite Hfree in Hcnt by lia.
      unfold rng in Hcnt. replace ((0 <=? A) && (A <? p2 K)) with true in Hcnt by lia. lia. }
    apply cntfl_pos in Hp. destruct Hp as (j & c & Hj & Hc & Hx). cbn [plus] in Hx.
    exists j, c. change (p2 0) with 1. repeat split; auto; lia.
  - destruct (aligned_mul _ _ HA) as [q Hq]. pose proof (p2_pos k) as Hpk. rewrite p2_S in *.
    assert (Hlo : A mod p2 k = 0).
    { rewrite Hq. replace (2 * p2 k * q) with (p2 k * (2 * q)) by lia. apply aligned_of_mul. }
    assert (Hhi : (A + p2 k) mod p2 k = 0).
    { rewrite Hq. replace (2 * p2 k * q + p2 k) with (p2 k * (2 * q + 1)) by lia. apply aligned_of_mul. }
    destruct (IHk A) as (j1 & c1 & Hj1 & Hc1 & Hb1 & He1); auto; try lia.
    { intros x Hx. apply Hfree. lia. }
    destruct (IHk (A + p2 k)) as (j2 & c2 & Hj2 & Hc2 & Hb2 & He2); auto; try lia.
    { intros x Hx. apply Hfree. lia. }
    destruct (Nat.eq_dec j1 k) as [->|Hn1].
    + destruct (Nat.eq_dec j2 k) as [->|Hn2].
      * exfalso. assert (c1 = A) by lia. assert (c2 = A + p2 k) by lia. subst c1 c2.
        apply (Hnb k A Hc1). rewrite Hq in Hc2 |- *.
        replace (2 * p2 k) with (p2 (S k)) in * by apply p2_S.
        rewrite buddy_even_mul. exact Hc2.
      * exists j2, c2. split; [lia|]. split; auto.
        assert (HN : c2 <= A /\ A + p2 (S k) <= c2 + p2 j2).
        { apply (aligned_nested (S k) j2 A c2 (A + p2 k)); eauto; rewrite ?p2_S; lia. }
        rewrite p2_S in HN. exact HN.
    + exists j1, c1. split; [lia|]. split; auto.
      assert (HN : c1 <= A /\ A + p2 (S k) <= c1 + p2 j1).
      { apply (aligned_nested (S k) j1 A c1 A); eauto; rewrite ?p2_S; lia. }
      rewrite p2_S in HN. exact HN.
Qed.

(** ** nothing live: initial free lists *)
Lemma fl_eq_init fl K : length fl = S K -> fl_get fl K = [0] ->
  (forall k, (k < K)%nat -> fl_get fl k = []) -> fl = repeat [] K ++ [[0]].
Proof.
  intros Hl HK Hlt. apply (nth_ext' _ _ []).
  - rewrite app_length, repeat_length. cbn. lia.
  - intros i Hi. fold (fl_get fl i). destruct (Nat.eq_dec i K).
    + subst. rewrite app_nth2; rewrite repeat_length; [|lia]. rewrite Nat.sub_diag. exact HK.
    + rewrite app_nth1 by (rewrite repeat_length; lia). rewrite nth_repeat. apply Hlt. lia.
Qed.

Lemma all_free_init K b : binv K b -> b_alloc b = [] -> b_free b = repeat [] K ++ [[0]].
Proof.
  intros HI Hempty. pose proof (p2_pos K) as HpK.
  destruct (free_region K b HI K 0) as (j & c & Hj & Hc & Hb & He); try lia.
  { apply Z.mod_0_l. lia. }
  { intros x _. rewrite Hempty. reflexivity. }
  destruct HI as [Hlen Hal Hnb Hlive Hcnt]. rewrite Hempty in Hcnt. cbn [cntd] in Hcnt.
  assert (Hjl : (j < length (b_free b))%nat).
  { destruct (Nat.ltb_spec j (length (b_free b))); auto.
    unfold fl_get in Hc. rewrite nth_overflow in Hc by lia. easy. }
  assert (j = K) by lia. subst j.
  assert (HR : forall k a, In a (fl_get (b_free b) k) -> 0 <= a /\ a + p2 k <= p2 K).
  { intros k a Hin. apply block_range. intros x. rewrite <- Hcnt.
    pose proof (cntfl_In _ _ _ x Hin). lia. }
  assert (c = 0) by (pose proof (HR K c Hc); lia). subst c.
  apply fl_eq_init; auto.
  - destruct (fl_get (b_free b) K) as [|c l] eqn:E; [easy|].
    assert (HT : cntl K (c :: l) 0 <= 1).
    { pose proof (cntfl_ge (b_free b) 0 K 0) as H. cbn [plus] in H. rewrite E in H.
      specialize (Hcnt 0). unfold rng in Hcnt. destruct (_ && _); lia. }
    assert (Hall : forall a, In a (c :: l) -> a = 0).
    { intros a Hin. rewrite <- E in Hin. pose proof (HR K a Hin). lia. }
    assert (c = 0) by (apply Hall; now left). subst c.
    destruct l as [|c l]; auto. assert (c = 0) by (apply Hall; right; now left). subst c.
    exfalso. cbn [cntl] in HT. pose proof (cntl_nonneg K l 0). unfold inb in HT.
    replace ((0 <=? 0) && (0 <? 0 + p2 K)) with true in HT by lia. lia.
  - intros k Hk. destruct (fl_get (b_free b) k) as [|a l] eqn:E; auto. exfalso.
    assert (Hin : In a (fl_get (b_free b) k)) by (rewrite E; now left).
    pose proof (HR k a Hin). pose proof (p2_pos k).
    pose proof (cntfl_ge2 (b_free b) 0 k K a Hk) as H2. cbn [plus] in H2.
    pose proof (cntl_In k _ a a Hin) as G1. pose proof (cntl_In K _ a 0 Hc) as G2.
    specialize (Hcnt a). unfold inb in G1, G2. unfold rng in Hcnt.
    replace ((a <=? a) && (a <? a + p2 k)) with true in G1 by lia.
    replace ((0 <=? a) && (a <? 0 + p2 K)) with true in G2 by lia.
    destruct (_ && _); lia.
Qed.

(** ** initial state and histories *)
Definition bK (size : Z) : nat := Z.to_nat (bit_length (size - 1)).

Lemma binv_init size mn : binv (bK size) (b_init size mn).
Proof.
  assert (HG : forall k, fl_get (b_free (b_init size mn)) k
               = if Nat.eqb k (bK size) then [0] else []).
  { intros k. unfold b_init, fl_get. cbn [b_free]. fold (bK size).
    destruct (Nat.eqb_spec k (bK size)).
    - subst. rewrite app_nth2; rewrite repeat_length; [|lia]. now rewrite Nat.sub_diag.
    - destruct (Nat.ltb_spec k (bK size)).
      + rewrite app_nth1 by (rewrite repeat_length; lia). apply nth_repeat.
      + apply nth_overflow. rewrite app_length, repeat_length. cbn. lia. }
  split.
  - unfold b_init. cbn [b_free]. rewrite app_length, repeat_length. cbn. unfold bK. lia.
  - intros k a. rewrite HG. destruct (Nat.eqb k (bK size)); [|easy].
    intros [<-|[]]. apply Z.mod_0_l. pose proof (p2_pos k). lia.
  - intros k a. rewrite HG. destruct (Nat.eqb k (bK size)); [|easy].
    intros [<-|[]] [C|[]]. symmetry in C. now apply buddy_neq in C.
  - easy.
  - intros x. unfold b_init. cbn [b_free b_alloc cntd]. fold (bK size).
    assert (H : forall K k0, cntfl k0 (repeat [] K ++ [[0]]) x = inb 0 (k0 + K) x).
    { induction K; intros k0; cbn [repeat app cntfl cntl].
      - rewrite Nat.add_0_r. lia.
      - rewrite IHK. replace (S k0 + K)%nat with (k0 + S K)%nat by lia. lia. }
    rewrite H. cbn [plus]. unfold inb, rng. rewrite Z.add_0_l. ifs.
Qed.

Definition live_list (d : dict nat) : list (Z * Z) := map (fun p => (fst p, p2 (snd p))) d.

Lemma obucket_block b n : 1 <= n -> p2 (obucket b n) = block_size (b_min b) n.
Proof.
  intros Hn. unfold obucket, block_size, p2. set (m := Z.max n (b_min b)).
  assert (1 <= m) by lia. rewrite Z2Nat.id by apply bit_length_nonneg. f_equal.
  destruct (Z.eq_dec m 1) as [->|]; [reflexivity|].
  unfold bit_length. replace (m - 1 =? 0) with false by lia.
  rewrite Z.abs_eq by lia. rewrite Z.log2_up_eqn by lia. unfold Z.succ, Z.pred.
  f_equal.
Qed.

Lemma bK_managed size : 1 <= size -> p2 (bK size) = managed size.
Proof.
  intros H. pose proof (obucket_block (Buddy size 0 [] []) size H) as E.
  unfold obucket, block_size in E. cbn [b_min] in E.
  rewrite Z.max_l in E by lia. exact E.
Qed.

Lemma live_filter d a :
  live_list (ddel d a) = filter (fun p => negb (fst p =? a)) (live_list d).
Proof.
  unfold live_list, ddel. induction d as [|[c k] d IH]; auto. cbn [filter map fst snd].
  destruct (c =? a); cbn [negb map fst snd]; rewrite IH; reflexivity.
Qed.

Lemma b_step_inv K b o : binv K b ->
  let '(b', r) := b_step b o in
  binv K b' /\ b_size b' = b_size b /\ b_min b' = b_min b /\
  live_list (b_alloc b') = live_step (b_min b) (live_list (b_alloc b)) o r.
Proof.
  intros HI. destruct o as [n|a]; cbn [b_step].
  - destruct (Z_le_dec 1 n) as [H1|H1]; [destruct (Z_le_dec n (b_size b)) as [H2|H2]|].
    + pose proof (b_alloc_spec K b n HI ltac:(lia)) as H. cbv zeta in H.
      destruct (b_alloc_op b n) as [b' [a|e]].
      * destruct H as (HI' & Hs & Hm & Ha & _). split; [exact HI'|]. split; [exact Hs|]. split; [exact Hm|].
        cbn [live_step]. rewrite Ha. unfold live_list. rewrite map_app. cbn [map fst snd].
        now rewrite obucket_block.
      * destruct H as (-> & -> & _). auto.
    + unfold b_alloc_op. replace ((n <? 1) || (b_size b <? n)) with true by lia. auto.
    + unfold b_alloc_op. replace ((n <? 1) || (b_size b <? n)) with true by lia. auto.
  - pose proof (b_free_spec K b a HI) as H. destruct (b_free_op b a) as [b' [u|e]].
    + destruct H as (HI' & Hs & Hm & _ & Ha). split; [exact HI'|]. split; [exact Hs|]. split; [exact Hm|].
      cbn [live_step]. rewrite Ha. apply live_filter.
    + destruct H as (-> & -> & _). auto.
Qed.

Lemma b_run_inv K ops : forall b, binv K b ->
  let '(b', rs) := b_run b ops in
  binv K b' /\ b_size b' = b_size b /\ b_min b' = b_min b /\
  live_list (b_alloc b') = live_after (b_min b) (live_list (b_alloc b)) ops rs.
Proof.
  induction ops as [|o ops IH]; intros b HI; cbn [b_run]; auto.
  pose proof (b_step_inv K b o HI) as H. destruct (b_step b o) as [b1 r].
  destruct H as (HI1 & Hs1 & Hm1 & Hl1). specialize (IH b1 HI1).
  destruct (b_run b1 ops) as [b2 rs]. destruct IH as (HI2 & Hs2 & Hm2 & Hl2).
  split; [exact HI2|]. split; [congruence|]. split; [congruence|].
  cbn [live_after]. rewrite Hl2, Hl1, Hm1. reflexivity.
Qed.

Lemma b_reach_inv size mn b live : b_reach size mn b live ->
  binv (bK size) b /\ b_size b = size /\ b_min b = mn /\ live = live_list (b_alloc b).
Proof.
  intros (ops & -> & ->). pose proof (b_run_inv (bK size) ops _ (binv_init size mn)) as H.
  destruct (b_run (b_init size mn) ops) as [b rs]. cbn [fst snd].
  destruct H as (H1 & H2 & H3 & H4). split; auto.
Qed.

Lemma live_list_In d a B : In (a, B) (live_list d) -> exists k, In (a, k) d /\ B = p2 k.
Proof.
  intros H. apply in_map_iff in H. destruct H as ([c k] & E & Hin). cbn in E.
  inversion E; subst. eauto.
Qed.

Lemma live_In_list d a k : In (a, k) d -> In (a, p2 k) (live_list d).
Proof. intros H. apply in_map_iff. exists (a, k). auto. Qed.

(** ** property lemmas *)
Lemma buddy_alloc_ok size mn b live n b' a :
  b_reach size mn b live -> b_alloc_op b n = (b', Ok a) ->
  let B := block_size mn n in
  n <= B /\ mn <= B /\ a mod B = 0 /\ 0 <= a /\ a + B <= managed size /\
  forall a' B', In (a', B') live -> disjoint a B a' B'.
Proof.
  intros HR HA B. apply b_reach_inv in HR. destruct HR as (HI & Hs & Hm & ->).
  assert (Hn : 1 <= n <= b_size b).
  { unfold b_alloc_op in HA. destruct ((n <? 1) || (b_size b <? n)) eqn:E; [discriminate|]. lia. }
  pose proof (b_alloc_spec _ b n HI Hn) as H. cbv zeta in H. rewrite HA in H.
  destruct H as (_ & _ & _ & _ & _ & Hal & H0 & HB & HZ).
  rewrite obucket_block, Hm in * by lia. fold B in Hal, HB, HZ.
  rewrite bK_managed in HB by lia.
  assert (HBm : Z.max n mn <= B).
  { unfold B, block_size.
    destruct (Z.eq_dec (Z.max n mn) 1) as [E|E]; [rewrite E; cbn; lia|].
    pose proof (Z.log2_up_spec (Z.max n mn) ltac:(lia)). lia. }
  repeat split; auto; try lia.
  intros a' B' Hin. apply live_list_In in Hin. destruct Hin as (k' & Hin & ->).
  pose proof (p2_pos k'). unfold disjoint.
  destruct (Z_le_dec (a + B) a'); [auto|]. destruct (Z_le_dec (a' + p2 k') a); [auto|].
  exfalso. specialize (HZ (Z.max a a') ltac:(lia)).
  pose proof (cntd_In _ (Z.max a a') _ _ Hin) as G. unfold inb in G.
  replace ((a' <=? Z.max a a') && (Z.max a a' <? a' + p2 k')) with true in G by lia. lia.
Qed.

Lemma buddy_free_iff size mn b live a :
  b_reach size mn b live ->
  ((exists b', b_free_op b a = (b', Ok tt)) <-> exists B, In (a, B) live) /\
  (forall b' e, b_free_op b a = (b', Err e) -> b' = b /\ e = ValueError).
Proof.
  intros HR. apply b_reach_inv in HR. destruct HR as (HI & Hs & Hm & ->).
  pose proof (b_free_spec _ b a HI) as H.
  destruct (b_free_op b a) as [b1 [[]|e]].
  - destruct H as (_ & _ & _ & (k & Hk) & _). split; [|intros; discriminate].
    split; [|eauto]. intros _. exists (p2 k). now apply live_In_list.
  - destruct H as (-> & -> & Hn). split.
    + split; [intros [b' C]; discriminate|]. intros [B HB]. apply live_list_In in HB.
      destruct HB as (k & Hk & _). exfalso. eapply Hn; eauto.
    + intros b' e E. inversion E; auto.
Qed.

Lemma buddy_all_freed size mn b :
  b_reach size mn b [] -> b = b_init size mn.
Proof.
  intros HR. apply b_reach_inv in HR. destruct HR as (HI & Hs & Hm & HL).
  assert (HE : b_alloc b = []) by (destruct (b_alloc b); [auto|discriminate]).
  pose proof (all_free_init _ b HI HE) as HF. unfold b_init. fold (bK size).
  destruct b; cbn in *. subst. reflexivity.
Qed.

Lemma buddy_alloc_complete size mn b live n :
  b_reach size mn b live -> 1 <= n <= size ->
  let B := block_size mn n in
  (exists b' a, b_alloc_op b n = (b', Ok a)) <->
  (exists A, A mod B = 0 /\ 0 <= A /\ A + B <= managed size /\
     forall a' B', In (a', B') live -> disjoint A B a' B').
Proof.
  intros HR Hn B. split.
  - intros (b' & a & HA). exists a. pose proof (buddy_alloc_ok _ _ _ _ _ _ _ HR HA) as H.
    cbv zeta in H. fold B in H. tauto.
  - intros (A & HA & HA0 & HAM & HD). apply b_reach_inv in HR. destruct HR as (HI & Hs & Hm & ->).
    pose proof (b_alloc_spec _ b n HI ltac:(lia)) as H. cbv zeta in H.
    destruct (b_alloc_op b n) as [b' [a|e]]; [eauto|]. exfalso.
    destruct H as (_ & _ & Hempty).
    assert (HB : B = p2 (obucket b n)) by (unfold B; rewrite <- Hm, obucket_block by lia; reflexivity).
    rewrite HB in *.
    destruct (free_region _ b HI (obucket b n) A) as (j & c & Hj & Hc & _); auto.
    + rewrite bK_managed by lia. lia.
    + intros x Hx. pose proof (cntd_nonneg (b_alloc b) x).
      destruct (Z.ltb_spec 0 (cntd (b_alloc b) x)); [|lia].
      apply cntd_pos in H0. destruct H0 as (a & k & Hin & Hax).
      specialize (HD a (p2 k) (live_In_list _ _ _ Hin)). unfold disjoint in HD. lia.
    + rewrite Hempty in Hc by auto. easy.
Qed.

Lemma buddy_alloc_err size mn b live n b' e :
  b_reach size mn b live -> b_alloc_op b n = (b', Err e) ->
  b' = b /\ (e = if (1 <=? n) && (n <=? size) then Plain else ValueError).
Proof.
  intros HR HA. apply b_reach_inv in HR. destruct HR as (HI & Hs & Hm & ->).
  destruct ((1 <=? n) && (n <=? size)) eqn:E.
  - pose proof (b_alloc_spec _ b n HI ltac:(lia)) as H. cbv zeta in H. rewrite HA in H. tauto.
  - unfold b_alloc_op in HA. replace ((n <? 1) || (b_size b <? n)) with true in HA by lia.
    inversion HA; auto.
Qed.

(** live allocations are pairwise disjoint and inside the managed range *)
Lemma buddy_live_disjoint size mn b live :
  1 <= size -> b_reach size mn b live ->
  ForallOrdPairs (fun p q => disjoint (fst p) (snd p) (fst q) (snd q)) live /\
  Forall (fun p => 0 <= fst p /\ fst p mod snd p = 0 /\ fst p + snd p <= managed size) live.
Proof.
  intros Hsz HR. apply b_reach_inv in HR. destruct HR as (HI & Hs & Hm & ->).
  pose proof HI as [_ _ _ Hlive Hcnt].
  assert (Hle : forall x, cntd (b_alloc b) x <= rng (bK size) x).
  { intros x. specialize (Hcnt x). pose proof (cntfl_nonneg 0 (b_free b) x). lia. }
  clear Hcnt. split.
  - assert (H1 : forall x, cntd (b_alloc b) x <= 1).
    { intros x. specialize (Hle x). unfold rng in Hle. destruct (_ && _); lia. }
    clear Hle Hlive HI. unfold live_list.
    induction (b_alloc b) as [|[a k] d IH]; cbn [map fst snd]; constructor.
    + apply Forall_forall. intros [a' B'] Hin. apply (live_list_In d) in Hin.
      destruct Hin as (k' & Hin & ->). cbn [fst snd]. pose proof (p2_pos k). pose proof (p2_pos k').
      unfold disjoint. destruct (Z_le_dec (a + p2 k) a'); [auto|].
      destruct (Z_le_dec (a' + p2 k') a); [auto|]. exfalso.
      specialize (H1 (Z.max a a')). cbn [cntd] in H1.
      pose proof (cntd_In _ (Z.max a a') _ _ Hin) as G. unfold inb in *.
      replace ((a <=? Z.max a a') && (Z.max a a' <? a + p2 k)) with true in H1 by lia.
      replace ((a' <=? Z.max a a') && (Z.max a a' <? a' + p2 k')) with true in G by lia. lia.
    + apply IH. intros x. specialize (H1 x). cbn [cntd] in H1. pose proof (inb_bounds a k x). lia.
  - apply Forall_forall. intros [a B] Hin. apply live_list_In in Hin.
    destruct Hin as (k & Hin & ->). cbn [fst snd].
    assert (0 <= a /\ a + p2 k <= p2 (bK size)).
    { apply block_range. intros x. specialize (Hle x). pose proof (cntd_In _ x _ _ Hin). lia. }
    rewrite bK_managed in H by lia. pose proof (proj1 (Hlive _ _ Hin)). tauto.
Qed.

(** reachability is preserved *)
Lemma b_run_app ops1 : forall b ops2,
  b_run b (ops1 ++ ops2) =
  let '(b1, r1) := b_run b ops1 in let '(b2, r2) := b_run b1 ops2 in (b2, r1 ++ r2).
Proof.
  induction ops1 as [|o ops1 IH]; intros b ops2; cbn [app b_run].
  - destruct (b_run b ops2); reflexivity.
  - destruct (b_step b o) as [b1 r]. rewrite IH. destruct (b_run b1 ops1) as [b2 rs].
    destruct (b_run b2 ops2) as [b3 rs']. reflexivity.
Qed.

Lemma live_after_app mn ops1 : forall live rs1 ops2 rs2, length ops1 = length rs1 ->
  live_after mn live (ops1 ++ ops2) (rs1 ++ rs2)
  = live_after mn (live_after mn live ops1 rs1) ops2 rs2.
Proof.
  induction ops1 as [|o ops1 IH]; intros live rs1 ops2 rs2 Hl; destruct rs1; cbn in Hl; try lia; auto.
  cbn [app live_after]. apply IH. lia.
Qed.

Lemma b_run_length ops : forall b, length (snd (b_run b ops)) = length ops.
Proof.
  induction ops as [|o ops IH]; intros b; cbn [b_run]; auto.
  destruct (b_step b o) as [b1 r]. specialize (IH b1). destruct (b_run b1 ops). cbn in *. lia.
Qed.

Lemma b_reach_step size mn b live o :
  b_reach size mn b live ->
  b_reach size mn (fst (b_step b o)) (live_step mn live o (snd (b_step b o))).
Proof.
  intros (ops & Hb & Hl). exists (ops ++ [o]). rewrite b_run_app.
  pose proof (b_run_length ops (b_init size mn)) as HL.
  destruct (b_run (b_init size mn) ops) as [b1 r1]. cbn [fst snd] in *. subst b1.
  cbn [b_run]. destruct (b_step b o) as [b2 r]. cbn [fst snd].
  rewrite live_after_app by lia. rewrite <- Hl. auto.
Qed.

Lemma b_reach_init size mn : b_reach size mn (b_init size mn) [].
Proof. exists []. auto. Qed.

Definition is_pow2 (n : Z) : Prop := exists k, 0 <= k /\ n = 2 ^ k.

Lemma managed_pow2 size : is_pow2 size -> managed size = size.
Proof.
  intros (k & Hk & ->). unfold managed. rewrite Z.log2_up_pow2 by lia. reflexivity.
Qed.

(** for other capacities two half-sized requests already leave the range *)
Lemma buddy_overrun size :
  1 <= size -> ~ is_pow2 size ->
  exists n ops a, snd (b_run (b_init size 1) ops) = [BAddr (fst a); BAddr (snd a)] /\
    ops = [BAlloc n; BAlloc n] /\ 1 <= n <= size /\
    (size < fst a + n \/ size < snd a + n).
Proof.
  intros Hs Hnp.
  assert (Hs2 : 2 <= size).
  { destruct (Z.eq_dec size 1); [|lia]. exfalso. apply Hnp. exists 0. subst. cbn. lia. }
  pose proof (Z.log2_up_spec size ltac:(lia)) as Hlu.
  pose proof (Z.log2_up_pos size ltac:(lia)) as Hlp.
  set (L := Z.log2_up size) in *. set (n := 2 ^ (L - 1)).
  assert (Hpn : 0 < n) by (apply Z.pow_pos_nonneg; lia).
  assert (HM : managed size = 2 * n).
  { unfold managed, n. fold L. rewrite <- Z.pow_succ_r by lia. f_equal. lia. }
  assert (Hlt : size < 2 * n).
  { destruct (Z.eq_dec size (2 * n)); [|unfold managed in HM; fold L in HM; lia].
    exfalso. apply Hnp. exists L. split; [lia|]. unfold managed in HM. fold L in HM. lia. }
  assert (Hn : 1 <= n <= size).
  { unfold Z.pred in Hlu. replace (L + -1) with (L - 1) in Hlu by lia. fold n in Hlu. lia. }
  assert (HB : block_size 1 n = n).
  { unfold block_size. rewrite Z.max_l by lia. unfold n.
    rewrite Z.log2_up_pow2 by lia. reflexivity. }
  pose proof (b_reach_init size 1) as R0.
  destruct (proj2 (buddy_alloc_complete size 1 _ _ n R0 Hn)) as (b1 & a1 & E1).
  { exists 0. rewrite HB. rewrite Z.mod_0_l by lia. repeat split; try lia. easy. }
  pose proof (buddy_alloc_ok _ _ _ _ _ _ _ R0 E1) as (_ & _ & A1 & A1p & A1r & _).
  rewrite HB in *.
  pose proof (b_reach_step _ _ _ _ (BAlloc n) R0) as R1. cbn [b_step] in R1. rewrite E1 in R1.
  cbn [fst snd live_step app] in R1. rewrite HB in R1.
  assert (Ha1 : a1 = 0 \/ a1 = n).
  { pose proof (Z.div_mod a1 n ltac:(lia)). assert (a1 / n = 0 \/ a1 / n = 1) by nia. nia. }
  destruct (proj2 (buddy_alloc_complete size 1 _ _ n R1 Hn)) as (b2 & a2 & E2).
  { exists (n - a1). rewrite HB. unfold disjoint.
    assert ((n - a1) mod n = 0).
    { destruct Ha1; subst a1.
      - rewrite Z.sub_0_r. apply Z.mod_same. lia.
      - rewrite Z.sub_diag. apply Z.mod_0_l. lia. }
    repeat split; try lia. intros a' B' [E|[]]. inversion E; subst. lia. }
  pose proof (buddy_alloc_ok _ _ _ _ _ _ _ R1 E2) as (_ & _ & A2 & A2p & A2r & D).
  rewrite HB in *. specialize (D a1 n (or_introl eq_refl)). unfold disjoint in D.
  exists n, [BAlloc n; BAlloc n], (a1, a2). cbn [b_run b_step fst snd]. rewrite E1, E2. cbn [snd].
  repeat split; auto; try lia.
Qed.
