(** Specification of byte-addressed memory: a total function from addresses to bytes.
    Independent of every implementation detail of the modelled code. *)
From Coq Require Import ZArith Lia List Bool.
From Coq Require Import ZifyBool ZifyNat.
From Verif Require Import Py.
Import ListNotations.
Open Scope Z_scope.

Definition flat := Z -> Z.

(** the [n] bytes starting at address [a] *)
Definition rd (f : flat) (a : Z) (n : Z) : list Z := map f (zrange a (a + n)).

(** [f] with the bytes [d] stored from address [a] on *)
Definition wr (f : flat) (a : Z) (d : list Z) : flat :=
  fun x => if (a <=? x) && (x <? a + zlen d) then znth 0 d (x - a) else f x.

Definition feq (f g : flat) : Prop := forall x, f x = g x.
Infix "=f" := feq (at level 70).

Lemma feq_refl f : f =f f. Proof. easy. Qed.
Lemma feq_sym f g : f =f g -> g =f f. Proof. unfold feq; intros; auto. Qed.
Lemma feq_trans f g h : f =f g -> g =f h -> f =f h.
Proof. unfold feq; intros. now rewrite H. Qed.

Lemma rd_length f a n : 0 <= n -> zlen (rd f a n) = n.
Proof.
  intros. unfold rd, zlen. rewrite map_length, zrange_length. lia.
Qed.

Lemma rd_0 f a : rd f a 0 = [].
Proof. unfold rd. rewrite zrange_empty by lia. reflexivity. Qed.

Lemma rd_neg f a n : n <= 0 -> rd f a n = [].
Proof. intros. unfold rd. rewrite zrange_empty by lia. reflexivity. Qed.

Lemma rd_split f a n m : 0 <= n -> 0 <= m -> rd f a (n + m) = rd f a n ++ rd f (a + n) m.
Proof.
  intros. unfold rd. rewrite (zrange_split a (a + n) (a + (n + m))) by lia.
  rewrite map_app. replace (a + (n + m)) with (a + n + m) by lia. reflexivity.
Qed.

Lemma rd_cons f a n : 0 < n -> rd f a n = f a :: rd f (a + 1) (n - 1).
Proof.
  intros. unfold rd. rewrite (zrange_cons a) by lia. cbn [map].
  replace (a + 1 + (n - 1)) with (a + n) by lia. reflexivity.
Qed.

Lemma rd_nth f a n i : 0 <= i < n -> znth 0 (rd f a n) i = f (a + i).
Proof.
  intros. unfold rd. rewrite (znth_map f 0) by (unfold zlen; rewrite zrange_length; lia).
  unfold zrange. rewrite znth_zseq by lia. reflexivity.
Qed.

Lemma rd_ext f g a n : (forall x, a <= x < a + n -> f x = g x) -> rd f a n = rd g a n.
Proof.
  intros. unfold rd. apply map_ext_in. intros x Hx. apply in_zrange in Hx. auto.
Qed.

Lemma rd_feq f g a n : f =f g -> rd f a n = rd g a n.
Proof. intros. apply rd_ext. auto. Qed.

Lemma wr_nil f a : wr f a [] =f f.
Proof.
  intros x. unfold wr. rewrite zlen_nil.
  destruct ((a <=? x) && (x <? a + 0)) eqn:E; [lia|reflexivity].
Qed.

Lemma wr_app f a d e : wr (wr f a d) (a + zlen d) e =f wr f a (d ++ e).
Proof.
  intros x. unfold wr. rewrite zlen_app.
  pose proof (zlen_nonneg d). pose proof (zlen_nonneg e).
  destruct ((a + zlen d <=? x) && (x <? a + zlen d + zlen e)) eqn:E1.
  - replace ((a <=? x) && (x <? a + (zlen d + zlen e))) with true by lia.
    rewrite znth_app2 by lia. f_equal. lia.
  - destruct ((a <=? x) && (x <? a + zlen d)) eqn:E2.
    + replace ((a <=? x) && (x <? a + (zlen d + zlen e))) with true by lia.
      rewrite znth_app1 by lia. reflexivity.
    + replace ((a <=? x) && (x <? a + (zlen d + zlen e))) with false by lia. reflexivity.
Qed.

Lemma wr_feq f g a d : f =f g -> wr f a d =f wr g a d.
Proof. intros H x. unfold wr. destruct ((a <=? x) && _); auto. Qed.

Lemma wr_cons f a b d : wr f a (b :: d) =f wr (wr f a [b]) (a + 1) d.
Proof.
  change (b :: d) with ([b] ++ d). apply feq_sym.
  replace (a + 1) with (a + zlen [b]) by reflexivity. apply wr_app.
Qed.

Lemma rd_wr_same f a d : rd (wr f a d) a (zlen d) = d.
Proof.
  pose proof (zlen_nonneg d).
  apply (nth_ext_z 0); rewrite rd_length by lia; auto.
  intros. rewrite rd_nth by lia. unfold wr.
  replace ((a <=? a + i) && (a + i <? a + zlen d)) with true by lia. f_equal. lia.
Qed.

Lemma wr_outside f a d x : x < a \/ a + zlen d <= x -> wr f a d x = f x.
Proof.
  intros. unfold wr. destruct ((a <=? x) && (x <? a + zlen d)) eqn:E; [lia|reflexivity].
Qed.

Lemma wr_inside f a d x : a <= x < a + zlen d -> wr f a d x = znth 0 d (x - a).
Proof.
  intros. unfold wr. replace ((a <=? x) && (x <? a + zlen d)) with true by lia. reflexivity.
Qed.

Lemma rd_wr_disjoint f a d b n :
  b + n <= a \/ a + zlen d <= b -> rd (wr f a d) b n = rd f b n.
Proof. intros. apply rd_ext. intros. apply wr_outside. lia. Qed.

Lemma wr_rd_same f a n : 0 <= n -> wr f a (rd f a n) =f f.
Proof.
  intros H x. unfold wr. rewrite rd_length by lia.
  destruct ((a <=? x) && (x <? a + n)) eqn:E; auto.
  rewrite rd_nth by lia. f_equal. lia.
Qed.

Lemma are_bytes_rd f a n : (forall x, is_byte (f x)) -> are_bytes (rd f a n).
Proof.
  intros. unfold rd, are_bytes. apply Forall_forall. intros y Hy.
  apply in_map_iff in Hy. destruct Hy as (x & <- & _). auto.
Qed.

Lemma znth_is_byte d i : are_bytes d -> is_byte (znth 0 d i).
Proof.
  intros. unfold znth. destruct (Nat.ltb_spec (Z.to_nat i) (length d)).
  - unfold are_bytes in H. rewrite Forall_forall in H. apply H. now apply nth_In.
  - rewrite nth_overflow by lia. unfold is_byte; lia.
Qed.

Lemma wr_is_byte f a d x : (forall y, is_byte (f y)) -> are_bytes d -> is_byte (wr f a d x).
Proof. intros. unfold wr. destruct ((a <=? x) && _); auto. now apply znth_is_byte. Qed.
