(** Python values and primitive operations used by the model.
    Nothing here is specific to /repo; it fixes the meaning given to the Python
    constructs that occur in the modelled code. *)
From Coq Require Import ZArith Lia List Bool.
From Coq Require Import ZifyBool ZifyNat.
Import ListNotations.
Open Scope Z_scope.

(** Exceptions are values.  [Plain] is [raise Exception(..)]. *)
Inductive exc :=
| ValueError | IndexError | KeyError | TypeError | OverflowError | AttributeError
| AssertionError | QueueFull | Plain | RecursionError | OSError | OutOfFuel.

Inductive res (A : Type) := Ok (a : A) | Err (e : exc).
Arguments Ok {A} _.
Arguments Err {A} _.

Definition bind {A B} (r : res A) (k : A -> res B) : res B :=
  match r with Ok a => k a | Err e => Err e end.
Notation "'do' x <- r ; k" := (bind r (fun x => k))
  (at level 200, x name, r at level 100, k at level 200).
Notation "'do' ' p <- r ; k" := (bind r (fun x => match x with p => k end))
  (at level 200, p pattern, r at level 100, k at level 200).

Definition exc_eqb (a b : exc) : bool :=
  match a, b with
  | ValueError, ValueError | IndexError, IndexError | KeyError, KeyError
  | TypeError, TypeError | OverflowError, OverflowError | AttributeError, AttributeError
  | AssertionError, AssertionError | QueueFull, QueueFull | Plain, Plain
  | RecursionError, RecursionError | OSError, OSError | OutOfFuel, OutOfFuel => true
  | _, _ => false
  end.

(** bytes/bytearray/list of ints: [list Z]; [len] as an integer. *)
Definition zlen {A} (l : list A) : Z := Z.of_nat (length l).

Definition is_byte (b : Z) : Prop := 0 <= b < 256.
Definition is_byteb (b : Z) : bool := (0 <=? b) && (b <? 256).
Definition are_bytes (l : list Z) : Prop := Forall is_byte l.

(** l[i] for 0 <= i < len(l) *)
Definition znth {A} (d : A) (l : list A) (i : Z) : A := nth (Z.to_nat i) l d.

(** l[a:b] for 0 <= a (clamping of the upper bound as in Python) *)
Definition zslice {A} (l : list A) (a b : Z) : list A :=
  firstn (Z.to_nat (b - a)) (skipn (Z.to_nat a) l).

(** bytearray slice assignment l[a:b] = d with 0 <= a <= b <= len(l) *)
Definition zsplice {A} (l : list A) (a b : Z) (d : list A) : list A :=
  firstn (Z.to_nat a) l ++ d ++ skipn (Z.to_nat b) l.

(** b'\x00'*n *)
Definition zeros (n : Z) : list Z := repeat 0 (Z.to_nat n).

(** (x).bit_length() *)
Definition bit_length (x : Z) : Z := if x =? 0 then 0 else Z.log2 (Z.abs x) + 1.

(** consecutive integers a, a+1, .., a+n-1 *)
Fixpoint zseq (a : Z) (n : nat) : list Z :=
  match n with O => [] | S n' => a :: zseq (a + 1) n' end.

(** range(a, b) *)
Definition zrange (a b : Z) : list Z := zseq a (Z.to_nat (b - a)).

(** len(obj) for obj.__len__() = n: CPython raises OverflowError above sys.maxsize
    and ValueError below zero. *)
Definition py_len (n : Z) : res Z :=
  if n <? 0 then Err ValueError
  else if n <? 2 ^ 63 then Ok n else Err OverflowError.

(** slice(start, stop).indices(size) for integer start/stop, size >= 0 and step 1. *)
Definition slice_clamp (size i : Z) : Z :=
  if i <? 0 then Z.max 0 (i + size) else Z.min i size.

(** dicts with integer keys *)
Definition dict (A : Type) := list (Z * A).

Fixpoint dget {A} (d : dict A) (k : Z) : option A :=
  match d with
  | [] => None
  | (k', v) :: d' => if k' =? k then Some v else dget d' k
  end.

Fixpoint dset {A} (d : dict A) (k : Z) (v : A) : dict A :=
  match d with
  | [] => [(k, v)]
  | (k', v') :: d' => if k' =? k then (k, v) :: d' else (k', v') :: dset d' k v
  end.

Definition ddel {A} (d : dict A) (k : Z) : dict A :=
  filter (fun kv => negb (fst kv =? k)) d.

(** int.to_bytes(n, 'little'), int.from_bytes(.., 'little') *)
Fixpoint le_bytes (n : nat) (x : Z) : list Z :=
  match n with O => [] | S n' => x mod 256 :: le_bytes n' (x / 256) end.

Fixpoint le_int (l : list Z) : Z :=
  match l with [] => 0 | b :: l' => b + 256 * le_int l' end.

Inductive byteorder := Little | Big.

(** w.to_bytes(ws, byteorder); negative ws is a ValueError *)
Definition to_bytes (w ws : Z) (bo : byteorder) : res (list Z) :=
  if ws <? 0 then Err ValueError
  else if (w <? 0) || (256 ^ ws <=? w) then Err OverflowError
  else Ok (match bo with
           | Little => le_bytes (Z.to_nat ws) w
           | Big => rev (le_bytes (Z.to_nat ws) w)
           end).

Definition from_bytes (l : list Z) (bo : byteorder) : Z :=
  match bo with Little => le_int l | Big => le_int (rev l) end.

(* ------------------------------------------------------------------ *)
(** * Lemmas *)

Lemma zlen_nonneg {A} (l : list A) : 0 <= zlen l.
Proof. unfold zlen. lia. Qed.

Lemma zlen_app {A} (l m : list A) : zlen (l ++ m) = zlen l + zlen m.
Proof. unfold zlen. rewrite app_length. lia. Qed.

Lemma zlen_cons {A} (x : A) l : zlen (x :: l) = 1 + zlen l.
Proof. unfold zlen. cbn [length]. lia. Qed.

Lemma zlen_nil {A} : zlen (@nil A) = 0.
Proof. reflexivity. Qed.

Lemma zlen_map {A B} (f : A -> B) l : zlen (map f l) = zlen l.
Proof. unfold zlen. now rewrite map_length. Qed.

Lemma zlen_0_nil {A} (l : list A) : zlen l = 0 -> l = [].
Proof. destruct l; cbn; [easy|]. unfold zlen; cbn; lia. Qed.

Lemma zseq_length a n : length (zseq a n) = n.
Proof. revert a; induction n; intros; cbn; auto. Qed.

Lemma zseq_app a n m : zseq a (n + m) = zseq a n ++ zseq (a + Z.of_nat n) m.
Proof.
  revert a; induction n; intros; cbn [zseq plus app].
  - f_equal. lia.
  - f_equal. rewrite IHn. do 2 f_equal. lia.
Qed.

Lemma zseq_nth a n i d : (i < n)%nat -> nth i (zseq a n) d = a + Z.of_nat i.
Proof.
  revert a i; induction n; intros a i H; [lia|].
  destruct i; cbn [zseq nth]; [lia|]. rewrite IHn by lia. lia.
Qed.

Lemma in_zseq x a n : In x (zseq a n) <-> a <= x < a + Z.of_nat n.
Proof.
  revert a; induction n; intros; cbn [zseq In]; [lia|].
  rewrite IHn. lia.
Qed.

Lemma in_zrange x a b : In x (zrange a b) <-> a <= x < b.
Proof. unfold zrange. rewrite in_zseq. lia. Qed.

Lemma zrange_length a b : length (zrange a b) = Z.to_nat (b - a).
Proof. apply zseq_length. Qed.

Lemma zlen_zrange a b : zlen (zrange a b) = Z.max 0 (b - a).
Proof. unfold zlen. rewrite zrange_length. lia. Qed.

Lemma zrange_empty a b : b <= a -> zrange a b = [].
Proof. intros. unfold zrange. replace (Z.to_nat (b - a)) with O by lia. reflexivity. Qed.

Lemma zrange_cons a b : a < b -> zrange a b = a :: zrange (a + 1) b.
Proof.
  intros. unfold zrange. replace (Z.to_nat (b - a)) with (S (Z.to_nat (b - (a + 1)))) by lia.
  reflexivity.
Qed.

Lemma zrange_split a b c : a <= b <= c -> zrange a c = zrange a b ++ zrange b c.
Proof.
  intros. unfold zrange.
  replace (Z.to_nat (c - a)) with (Z.to_nat (b - a) + Z.to_nat (c - b))%nat by lia.
  rewrite zseq_app. do 2 f_equal. lia.
Qed.

Lemma zseq_NoDup a n : NoDup (zseq a n).
Proof.
  revert a; induction n; intros; cbn [zseq]; constructor; auto.
  rewrite in_zseq. lia.
Qed.

Lemma nth_default_indep {A} (l : list A) d d' i :
  (i < length l)%nat -> nth i l d = nth i l d'.
Proof. apply nth_indep. Qed.

Lemma nth_ext' {A} (l m : list A) d :
  length l = length m -> (forall i, (i < length l)%nat -> nth i l d = nth i m d) -> l = m.
Proof. intros. eapply nth_ext; eauto. Qed.

Lemma zslice_length {A} (l : list A) a b :
  0 <= a -> a <= b -> b <= zlen l -> zlen (zslice l a b) = b - a.
Proof.
  intros. unfold zslice, zlen in *. rewrite firstn_length, skipn_length. lia.
Qed.

Lemma nth_firstn {A} (l : list A) n i d : (i < n)%nat -> nth i (firstn n l) d = nth i l d.
Proof.
  revert l i; induction n; intros; [lia|].
  destruct l; cbn; [now destruct i|]. destruct i; auto. apply IHn. lia.
Qed.

Lemma nth_skipn {A} (l : list A) n i d : nth i (skipn n l) d = nth (n + i) l d.
Proof.
  revert l i; induction n; intros; cbn [skipn plus nth]; auto.
  destruct l; cbn [nth]; [now destruct i|]. apply IHn.
Qed.

Lemma znth_zslice {A} (d : A) l a b i :
  0 <= a -> 0 <= i < b - a -> znth d (zslice l a b) i = znth d l (a + i).
Proof.
  intros. unfold znth, zslice. rewrite nth_firstn by lia. rewrite nth_skipn.
  f_equal. lia.
Qed.

Lemma zslice_all {A} (l : list A) b : zlen l <= b -> zslice l 0 b = l.
Proof.
  intros. unfold zslice. cbn [skipn Z.to_nat]. apply firstn_all2. unfold zlen in *. lia.
Qed.

Lemma zslice_empty {A} (l : list A) a b : b <= a -> zslice l a b = [].
Proof. intros. unfold zslice. replace (Z.to_nat (b - a)) with O by lia. reflexivity. Qed.

Lemma firstn_skipn_app {A} (l : list A) n m :
  firstn n l ++ firstn m (skipn n l) = firstn (n + m) l.
Proof.
  revert l; induction n; intros; cbn [firstn skipn app plus]; auto.
  destruct l; cbn [app]; [now destruct m|]. f_equal. apply IHn.
Qed.

Lemma skipn_skipn' {A} (l : list A) n m : skipn n (skipn m l) = skipn (m + n) l.
Proof.
  revert l; induction m; intros; cbn [skipn plus]; auto.
  destruct l; [now destruct n|]. apply IHm.
Qed.

Lemma zslice_split {A} (l : list A) a b c :
  0 <= a -> a <= b <= c -> zslice l a c = zslice l a b ++ zslice l b c.
Proof.
  intros. unfold zslice.
  replace (skipn (Z.to_nat b) l) with (skipn (Z.to_nat (b - a)) (skipn (Z.to_nat a) l)).
  2:{ rewrite skipn_skipn'. f_equal. lia. }
  rewrite firstn_skipn_app. f_equal. lia.
Qed.

Lemma zslice_0 {A} (l : list A) n : zslice l 0 n = firstn (Z.to_nat n) l.
Proof. unfold zslice. rewrite Z.sub_0_r. reflexivity. Qed.

Lemma zsplice_length {A} (l : list A) a b d :
  0 <= a <= b -> b <= zlen l -> zlen d = b - a -> zlen (zsplice l a b d) = zlen l.
Proof.
  intros. unfold zsplice. rewrite !zlen_app.
  unfold zlen in *. rewrite firstn_length, skipn_length. lia.
Qed.

Lemma znth_zsplice {A} (dflt : A) (l : list A) a b d i :
  0 <= a <= b -> b <= zlen l -> zlen d = b - a -> 0 <= i < zlen l ->
  znth dflt (zsplice l a b d) i =
    if (a <=? i) && (i <? b) then znth dflt d (i - a) else znth dflt l i.
Proof.
  intros. unfold zsplice, znth, zlen in *.
  destruct (Z.ltb_spec i a).
  - rewrite app_nth1 by (rewrite firstn_length; lia).
    rewrite nth_firstn by lia. replace (a <=? i) with false by lia. reflexivity.
  - rewrite app_nth2 by (rewrite firstn_length; lia).
    rewrite firstn_length. destruct (Z.ltb_spec i b).
    + rewrite app_nth1 by lia. replace ((a <=? i) && true) with true by lia.
      f_equal. lia.
    + rewrite app_nth2 by lia. rewrite nth_skipn.
      rewrite andb_false_r. f_equal. lia.
Qed.

Lemma zeros_length n : 0 <= n -> zlen (zeros n) = n.
Proof. intros. unfold zeros, zlen. rewrite repeat_length. lia. Qed.

Lemma znth_zeros n i : znth 0 (zeros n) i = 0.
Proof. unfold znth, zeros. apply nth_repeat. Qed.

Lemma nth_ext_z {A} (d : A) (l m : list A) :
  zlen l = zlen m -> (forall i, 0 <= i < zlen l -> znth d l i = znth d m i) -> l = m.
Proof.
  unfold zlen, znth. intros Hl Hi. apply (nth_ext' l m d); [lia|].
  intros i H. specialize (Hi (Z.of_nat i) ltac:(lia)). rewrite Nat2Z.id in Hi. exact Hi.
Qed.

Lemma znth_app1 {A} (d : A) l m i : 0 <= i < zlen l -> znth d (l ++ m) i = znth d l i.
Proof. unfold znth, zlen. intros. apply app_nth1. lia. Qed.

Lemma znth_app2 {A} (d : A) l m i : zlen l <= i -> znth d (l ++ m) i = znth d m (i - zlen l).
Proof. unfold znth, zlen. intros. rewrite app_nth2 by lia. f_equal. lia. Qed.

Lemma znth_map {A B} (f : A -> B) da db l i :
  0 <= i < zlen l -> znth db (map f l) i = f (znth da l i).
Proof.
  unfold znth, zlen. intros.
  rewrite (nth_indep _ db (f da)) by (rewrite map_length; lia). apply map_nth.
Qed.

Lemma znth_zseq a n i d : 0 <= i < Z.of_nat n -> znth d (zseq a n) i = a + i.
Proof. intros. unfold znth. rewrite zseq_nth by lia. lia. Qed.

Lemma znth_default {A} (d d' : A) l i : 0 <= i < zlen l -> znth d l i = znth d' l i.
Proof. unfold znth, zlen. intros. apply nth_indep. lia. Qed.

Lemma znth_over {A} (d : A) l i : zlen l <= i -> znth d l i = d.
Proof. unfold znth, zlen. intros. apply nth_overflow. lia. Qed.

Lemma znth_cons0 {A} (d : A) x l : znth d (x :: l) 0 = x.
Proof. reflexivity. Qed.

Lemma znth_cons {A} (d : A) x l i : 0 < i -> znth d (x :: l) i = znth d l (i - 1).
Proof.
  intros. unfold znth. replace (Z.to_nat i) with (S (Z.to_nat (i - 1))) by lia. reflexivity.
Qed.

Lemma zseq_shift a b n : map (Z.add b) (zseq a n) = zseq (b + a) n.
Proof.
  revert a; induction n; intros; cbn [zseq map]; auto.
  f_equal. rewrite IHn. f_equal. lia.
Qed.

(** ** dicts *)
Lemma dget_dset {A} (d : dict A) k v k' :
  dget (dset d k v) k' = if k =? k' then Some v else dget d k'.
Proof.
  induction d as [|[k0 v0] d IH]; cbn [dset dget].
  - destruct (k =? k') eqn:E; reflexivity.
  - destruct (Z.eqb_spec k0 k); cbn [dget].
    + subst. destruct (Z.eqb_spec k k'); reflexivity.
    + rewrite IH. destruct (Z.eqb_spec k0 k'), (Z.eqb_spec k k'); try reflexivity; lia.
Qed.

Lemma dget_ddel {A} (d : dict A) k k' :
  dget (ddel d k) k' = if k =? k' then None else dget d k'.
Proof.
  unfold ddel. induction d as [|[k0 v0] d IH]; cbn [filter dget fst].
  - now destruct (k =? k').
  - destruct (Z.eqb_spec k0 k); cbn [negb dget].
    + rewrite IH. subst. destruct (Z.eqb_spec k k'); reflexivity.
    + rewrite IH. destruct (Z.eqb_spec k0 k'), (Z.eqb_spec k k'); try reflexivity; lia.
Qed.

Lemma dget_In {A} (d : dict A) k v : dget d k = Some v -> In (k, v) d.
Proof.
  induction d as [|[k0 v0] d IH]; cbn [dget]; [easy|].
  destruct (Z.eqb_spec k0 k); intros H.
  - inversion H; subst. now left.
  - right. auto.
Qed.

(** ** little-endian digits *)
Lemma le_bytes_length n x : length (le_bytes n x) = n.
Proof. revert x; induction n; intros; cbn; auto. Qed.

Lemma le_bytes_are_bytes n x : are_bytes (le_bytes n x).
Proof.
  revert x; induction n; intros; cbn [le_bytes]; constructor; [|apply IHn].
  unfold is_byte. apply Z.mod_pos_bound. lia.
Qed.

Lemma le_int_bytes n x : 0 <= x < 256 ^ Z.of_nat n -> le_int (le_bytes n x) = x.
Proof.
  revert x; induction n; intros x H; cbn [le_bytes le_int].
  - change (256 ^ Z.of_nat 0) with 1 in H. lia.
  - rewrite IHn.
    + pose proof (Z.div_mod x 256). lia.
    + rewrite Nat2Z.inj_succ, Z.pow_succ_r in H by lia.
      split; [apply Z.div_pos; lia|]. apply Z.div_lt_upper_bound; lia.
Qed.

Lemma le_bytes_int l : are_bytes l -> le_bytes (length l) (le_int l) = l.
Proof.
  induction 1; cbn [length le_bytes le_int]; auto.
  unfold is_byte in H. f_equal.
  - rewrite Z.mul_comm, Z.mod_add by lia. apply Z.mod_small. lia.
  - rewrite Z.mul_comm, Z.div_add by lia. rewrite (Z.div_small x 256) by lia. apply IHForall.
Qed.

Lemma le_int_bound l : are_bytes l -> 0 <= le_int l < 256 ^ zlen l.
Proof.
  induction 1; cbn [le_int].
  - cbn. lia.
  - rewrite zlen_cons. unfold is_byte in H.
    rewrite Z.pow_add_r by (pose proof (zlen_nonneg l); lia). change (256 ^ 1) with 256. lia.
Qed.

Lemma are_bytes_app l m : are_bytes (l ++ m) <-> are_bytes l /\ are_bytes m.
Proof. apply Forall_app. Qed.

Lemma are_bytes_rev l : are_bytes l -> are_bytes (rev l).
Proof. apply Forall_rev. Qed.

Lemma to_bytes_ok w ws bo bs :
  to_bytes w ws bo = Ok bs ->
  0 <= ws /\ 0 <= w < 256 ^ ws /\ zlen bs = ws /\ are_bytes bs /\ from_bytes bs bo = w.
Proof.
  unfold to_bytes. intros H.
  destruct (ws <? 0) eqn:E1; [discriminate|].
  destruct ((w <? 0) || (256 ^ ws <=? w)) eqn:E2; [discriminate|].
  apply orb_false_iff in E2. destruct E2 as [E2 E3].
  assert (Hw : 0 <= w < 256 ^ ws) by lia. assert (0 <= ws) by lia.
  inversion H; subst bs; clear H.
  assert (Hr : le_int (le_bytes (Z.to_nat ws) w) = w).
  { apply le_int_bytes. rewrite Z2Nat.id by lia. lia. }
  repeat split; try lia.
  - unfold zlen. destruct bo; rewrite ?rev_length, le_bytes_length; lia.
  - destruct bo; [|apply are_bytes_rev]; apply le_bytes_are_bytes.
  - destruct bo; cbn [from_bytes]; rewrite ?rev_involutive; exact Hr.
Qed.

Lemma to_bytes_fits w ws bo :
  0 <= ws -> 0 <= w < 256 ^ ws -> exists bs, to_bytes w ws bo = Ok bs.
Proof.
  intros. unfold to_bytes. replace (ws <? 0) with false by lia.
  replace ((w <? 0) || (256 ^ ws <=? w)) with false.
  - eauto.
  - symmetry. apply orb_false_iff. lia.
Qed.

Lemma to_bytes_overflow w ws bo :
  0 <= ws -> ~ 0 <= w < 256 ^ ws -> to_bytes w ws bo = Err OverflowError.
Proof.
  intros. unfold to_bytes. replace (ws <? 0) with false by lia.
  replace ((w <? 0) || (256 ^ ws <=? w)) with true; auto.
  symmetry. apply orb_true_iff. lia.
Qed.

(** ** bit_length *)
Lemma bit_length_nonneg x : 0 <= bit_length x.
Proof.
  unfold bit_length. destruct (x =? 0); [lia|]. pose proof (Z.log2_nonneg (Z.abs x)). lia.
Qed.

(** 2**(n-1).bit_length() is the smallest power of two >= n, for n >= 1 *)
Lemma bit_length_up n : 1 <= n -> n <= 2 ^ bit_length (n - 1).
Proof.
  intros. unfold bit_length. destruct (Z.eqb_spec (n - 1) 0).
  - cbn. lia.
  - pose proof (Z.log2_spec (Z.abs (n - 1)) ltac:(lia)). unfold Z.succ in *. lia.
Qed.

Lemma bit_length_least n k : 1 <= n -> 0 <= k -> n <= 2 ^ k -> bit_length (n - 1) <= k.
Proof.
  intros. unfold bit_length. destruct (Z.eqb_spec (n - 1) 0); [lia|].
  rewrite Z.abs_eq by lia.
  assert (Z.log2 (n - 1) < k); [|lia].
  apply Z.log2_lt_pow2; lia.
Qed.

Lemma bit_length_pow2 k : 0 <= k -> bit_length (2 ^ k - 1) = k.
Proof.
  intros. pose proof (Z.pow_pos_nonneg 2 k ltac:(lia) H).
  assert (bit_length (2 ^ k - 1) <= k) by (apply bit_length_least; lia).
  pose proof (bit_length_up (2 ^ k) ltac:(lia)).
  apply Z.pow_le_mono_r_iff in H2; [lia|lia|]. apply bit_length_nonneg.
Qed.

(** ** Forall on prefixes and suffixes *)
Lemma Forall_firstn' {A} (P : A -> Prop) n l : Forall P l -> Forall P (firstn n l).
Proof. intros H. revert n. induction H; intros [|n]; cbn; constructor; auto. Qed.

Lemma Forall_skipn' {A} (P : A -> Prop) n l : Forall P l -> Forall P (skipn n l).
Proof. intros H. revert n. induction H; intros [|n]; cbn; auto. Qed.

Lemma are_bytes_zslice l a b : are_bytes l -> are_bytes (zslice l a b).
Proof. intros. unfold zslice. apply Forall_firstn', Forall_skipn'. exact H. Qed.
