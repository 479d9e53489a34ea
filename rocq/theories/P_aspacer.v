(** Proofs about address spaces: round trips and words. *)
From Coq Require Import ZArith Lia List Bool.
From Coq Require Import ZifyBool ZifyNat.
From Verif Require Import Py S_flat M_sparse S_sparse P_sparse M_memory P_memory M_buddy S_buddy P_buddy
  M_aspace S_aspace P_aspace P_aspacew P_aspacec P_aspaceh P_aspacep.
Import ListNotations.
Open Scope Z_scope.

Lemma store_same c l x b : c l x <> None -> store c l x b l x = Some b.
Proof. intros H. unfold store. rewrite Nat.eqb_refl, Z.eqb_refl. cbn. destruct (c l x); congruence. Qed.
Lemma store_other c l x b l' x' : (l, x) <> (l', x') -> store c l x b l' x' = c l' x'.
Proof.
  intros H. unfold store. destruct (Nat.eqb_spec l l'); cbn; auto. destruct (Z.eqb_spec x x'); auto. congruence.
Qed.
Lemma store_some c l x b l' x' : c l' x' <> None -> store c l x b l' x' <> None.
Proof.
  intros H. unfold store. destruct (Nat.eqb_spec l l'); cbn; auto. destruct (Z.eqb_spec x x'); auto. subst.
  destruct (c l' x'); congruence.
Qed.

Lemma stores_notin locs : forall c data l x, ~ In (l, x) locs -> stores c locs data l x = c l x.
Proof.
  induction locs as [|[l0 x0] locs IH]; intros c [|b data] l x H; cbn [stores]; auto.
  rewrite IH by (intros K; apply H; now right). apply store_other. intros E. apply H. left. auto.
Qed.

Lemma stores_get locs : forall c data j l x, NoDup locs -> nth_error locs j = Some (l, x) ->
  (length locs <= length data)%nat -> c l x <> None -> stores c locs data l x = nth_error data j.
Proof.
  induction locs as [|[l0 x0] locs IH]; intros c data j l x Hnd Hj HL Hc; [destruct j; discriminate|].
  inversion Hnd as [|? ? Hn Hnd']; subst. destruct data as [|b data]; [cbn in HL; lia|]. cbn [stores].
  destruct j as [|j]; cbn [nth_error] in *.
  - inversion Hj; subst. rewrite stores_notin by auto. now apply store_same.
  - apply IH; auto; [cbn in HL; lia|]. now apply store_some.
Qed.

(** an access inside one region is the access of that region *)
Lemma read_one_region lim h p po regs al e b n : hok h -> contained h -> hget h p = Some po ->
  o_kind po = KSpace regs al -> In e regs ->
  e_base e <= b < e_base e + e_size e -> 0 <= n -> b + n <= e_base e + e_size e ->
  rd_obj (S lim) h p b n = rd_obj lim h (e_reg e) (translated e b) n.
Proof.
  intros Hok HC Gp Kp Hin Ha Hn Hf. cbn [rd_obj]. rewrite Gp, Kp.
  pose proof (hok_get _ _ _ Hok Gp) as Ho. unfold okobj in Ho. rewrite Kp in Ho.
  assert (Hpos : Forall (fun e => 0 < e_size e) regs).
  { apply Forall_forall. intros x He. apply (HC _ _ _ _ _ Gp Kp He). }
  destruct (HC _ _ _ _ _ Gp Kp Hin) as (Hc0 & _ & Hc1).
  rewrite (find_single _ _ e); auto; try lia.
  cbn [sp_read_loop]. replace (b <? e_base e) with false by lia.
  replace (Z.min (e_size e - (b - e_base e)) n) with n by lia. fold (translated e b).
  destruct (rd_obj lim h (e_reg e) (translated e b) n) as [h1 [d|x]]; auto.
  replace (0 <? n - n) with false by lia. reflexivity.
Qed.

Lemma write_one_region lim h p po regs al e b d : hok h -> contained h -> hget h p = Some po ->
  o_kind po = KSpace regs al -> In e regs ->
  e_base e <= b < e_base e + e_size e -> b + zlen (pd_list d) <= e_base e + e_size e ->
  wr_obj (S lim) h p b d = wr_obj lim h (e_reg e) (translated e b) d.
Proof.
  intros Hok HC Gp Kp Hin Ha Hf. cbn [wr_obj]. rewrite Gp, Kp.
  pose proof (hok_get _ _ _ Hok Gp) as Ho. unfold okobj in Ho. rewrite Kp in Ho.
  assert (Hpos : Forall (fun e => 0 < e_size e) regs).
  { apply Forall_forall. intros x He. apply (HC _ _ _ _ _ Gp Kp He). }
  pose proof (zlen_nonneg (pd_list d)) as Hn.
  destruct (HC _ _ _ _ _ Gp Kp Hin) as (Hc0 & _ & Hc1).
  rewrite (find_single _ _ e); auto; try lia. set (n := zlen (pd_list d)) in *.
  cbn [sp_write_loop]. replace (b <? e_base e) with false by lia.
  replace (Z.min (e_size e - (b - e_base e)) n) with n by lia. fold (translated e b).
  assert (E : pd_slice d 0 (0 + n) = d).
  { subst n. destruct d; cbn [pd_slice pd_list]; f_equal; apply zslice_all; cbn [pd_list]; lia. }
  rewrite E. destruct (wr_obj lim h (e_reg e) (translated e b) d) as [h1 [[]|x]]; auto.
  replace (0 <? n - n) with false by lia. reflexivity.
Qed.

(** addresses [a, a+n) of [i] are distinct bytes of memories, within the recursion limit *)
Definition plain_memory (lim : nat) (h : heap) (i : nat) (a n : Z) : Prop :=
  (forall j, 0 <= j < n -> exists d l x, decodes h d i (a + j) l x /\ (d <= lim)%nat /\ content h l x <> None) /\
  (forall j k d d' l x, 0 <= j < n -> 0 <= k < n -> decodes h d i (a + j) l x ->
     decodes h d' i (a + k) l x -> j = k).

Lemma NoDup_nth_inj {A} (l : list A) : 
  (forall j k x, nth_error l j = Some x -> nth_error l k = Some x -> j = k) -> NoDup l.
Proof.
  intros H. apply NoDup_nth_error. intros i j Hi E. destruct (nth_error l i) as [x|] eqn:E1.
  - eapply H; eauto.
  - apply nth_error_None in E1. lia.
Qed.

Lemma nth_error_znth {A} (d : A) l j : 0 <= j < zlen l -> nth_error l (Z.to_nat j) = Some (znth d l j).
Proof. intros H. unfold znth. apply nth_error_nth'. unfold zlen in H. lia. Qed.

Lemma write_read_back lim h i a data : hok h -> contained h -> lawful h -> are_bytes data -> data <> [] ->
  plain_memory lim h i a (zlen data) ->
  exists h', wr_obj lim h i a (PBytes data) = (h', Ok tt) /\ rd_obj lim h' i a (zlen data) = (h', Ok data) /\
    hok h' /\ hskel h' = hskel h.
Proof.
  intros Hok HC HL Hb Hne [HM HI].
  destruct (wr_obj_complete lim h i a data Hok HC Hne Hb) as (h' & EW).
  { intros j Hj. apply memdec_content. auto. }
  exists h'. split; auto.
  destruct (wr_obj_sound lim h i a (PBytes data) h' _ Hok Hb EW) as (Hs & Hok' & locs & Hle & Hfull & HD & HCe).
  specialize (Hfull eq_refl). cbn [pd_list] in *.
  assert (Hzl : zlen locs = zlen data) by (unfold zlen; lia).
  assert (HC' : contained h') by (eapply contained_skel; [symmetry; exact Hs|auto]).
  assert (HL' : lawful h') by (eapply lawful_skel; [symmetry; exact Hs|auto]).
  assert (Hpos : 0 < zlen data) by (destruct data; [congruence|unfold zlen; cbn [length]; lia]).
  assert (HD' : forall j, 0 <= j < zlen data -> exists d, (d <= lim)%nat /\
     decodes h d i (a + j) (fst (znth dloc locs j)) (snd (znth dloc locs j)) /\
     content h (fst (znth dloc locs j)) (snd (znth dloc locs j)) <> None).
  { intros j Hj. destruct (HD j ltac:(lia)) as (d & Hd & D). exists d. split; auto. split; auto.
    destruct (HM j Hj) as (d2 & l & x & D2 & _ & Hx).
    destruct (decodes_unique _ _ _ _ _ _ Hok D _ _ _ D2) as (_ & -> & ->). auto. }
  assert (Hnd : NoDup locs).
  { apply NoDup_nth_inj. intros j k x Hj Hk.
    assert (Hjl : (j < length locs)%nat) by (apply nth_error_Some; congruence).
    assert (Hkl : (k < length locs)%nat) by (apply nth_error_Some; congruence).
    pose proof (nth_error_znth dloc locs (Z.of_nat j) ltac:(unfold zlen; lia)) as Ej.
    pose proof (nth_error_znth dloc locs (Z.of_nat k) ltac:(unfold zlen; lia)) as Ek.
    rewrite Nat2Z.id in Ej, Ek.
    destruct (HD (Z.of_nat j) ltac:(unfold zlen; lia)) as (d1 & _ & D1).
    destruct (HD (Z.of_nat k) ltac:(unfold zlen; lia)) as (d2 & _ & D2).
    assert (E1 : znth dloc locs (Z.of_nat j) = x) by congruence.
    assert (E2 : znth dloc locs (Z.of_nat k) = x) by congruence.
    rewrite E1 in D1. rewrite E2 in D2.
    assert (Z.of_nat j = Z.of_nat k); [|lia].
    eapply HI; [| |exact D1|exact D2]; unfold zlen in *; lia. }
  assert (HCn : forall j, 0 <= j < zlen data ->
     content h' (fst (znth dloc locs j)) (snd (znth dloc locs j)) = Some (znth 0 data j)).
  { intros j Hj. rewrite HCe. destruct (HD' j Hj) as (d & _ & _ & Hx).
    rewrite (stores_get locs _ _ (Z.to_nat j)); auto; try lia.
    - apply nth_error_znth. lia.
    - rewrite <- surjective_pairing. apply nth_error_znth. lia. }
  destruct (rd_obj_complete lim h' i a (zlen data) Hok' HC' Hpos) as (got & ER).
  { intros j Hj. apply memdec_content. destruct (HD' j Hj) as (d & Hd & D & _). eexists d, _, _.
    split; [eapply decodes_skel; [symmetry; exact Hs|exact D]|]. split; auto. rewrite HCn by lia. discriminate. }
  destruct (rd_obj_sound lim _ _ _ _ _ _ Hok' ER) as [_ HR]. destruct (HR got eq_refl HL') as (_ & Hlen & HB).
  split; [|auto]. rewrite ER. do 2 f_equal. apply (nth_ext_z 0); [lia|]. intros j Hj.
  destruct (HB j ltac:(lia)) as (d2 & l2 & x2 & D2 & _ & Hx2).
  destruct (HD' j ltac:(lia)) as (d & Hd & D & _).
  assert (D' : decodes h' d i (a + j) (fst (znth dloc locs j)) (snd (znth dloc locs j)))
    by (eapply decodes_skel; [symmetry; exact Hs|exact D]).
  destruct (decodes_unique _ _ _ _ _ _ Hok' D2 _ _ _ D') as (_ & -> & ->).
  rewrite HCn in Hx2 by lia. destruct Hx2; congruence.
Qed.

Lemma words_back ws bo words bs : 0 <= ws -> Forall (fun w => 0 <= w < 256 ^ ws) words ->
  words_to_bytes words bo ws = Ok bs -> bytes_to_words bs (zlen words) bo ws = words.
Proof.
  intros Hws HF E. destruct (words_to_bytes_ok ws bo words Hws HF) as (bs' & Hbs & Hl & Hb & Hn).
  rewrite E in Hbs. inversion Hbs; subst bs'.
  pose proof (zlen_nonneg words). unfold bytes_to_words. apply (nth_ext_z 0).
  - rewrite zlen_map. rewrite zlen_zrange. lia.
  - rewrite zlen_map. rewrite zlen_zrange. intros i Hi.
    rewrite (znth_map _ 0) by (rewrite zlen_zrange; lia).
    unfold zrange. rewrite znth_zseq by lia. cbn [Z.add].
    specialize (Hn i ltac:(lia)). apply to_bytes_ok in Hn. apply Hn.
Qed.

Lemma words_roundtrip lim h i a words bo ws : hok h -> contained h -> lawful h -> 0 < ws -> words <> [] ->
  Forall (fun w => 0 <= w < 256 ^ ws) words -> plain_memory lim h i a (ws * zlen words) ->
  exists h', if_write_words lim h i a words bo ws = (h', Ok tt) /\
    if_read_words lim h' i a (zlen words) bo ws = (h', Ok words) /\ hok h' /\ hskel h' = hskel h.
Proof.
  intros Hok HC HL Hws Hne HF HM.
  destruct (words_to_bytes_ok ws bo words ltac:(lia) HF) as (bs & Hbs & Hl & Hb & _).
  assert (0 < zlen words) by (destruct words; [congruence|unfold zlen; cbn [length]; lia]).
  assert (Hne' : bs <> []) by (intros ->; change (zlen (@nil Z)) with 0 in Hl; nia).
  rewrite <- Hl in HM.
  destruct (write_read_back lim h i a bs Hok HC HL Hb Hne' HM) as (h' & EW & ER & H1 & H2).
  exists h'. unfold if_write_words. rewrite Hbs. split; auto. split; auto. unfold if_read_words.
  replace (zlen words * ws) with (zlen bs) by lia. rewrite ER. cbn [bind].
  rewrite (words_back ws bo words bs) by (auto; lia). reflexivity.
Qed.

Lemma FOP_nth {A} (R : A -> A -> Prop) l : ForallOrdPairs R l -> forall j k x y, (j < k)%nat ->
  nth_error l j = Some x -> nth_error l k = Some y -> R x y.
Proof.
  induction 1 as [|z l Hz Hl IH]; intros j k x y Hjk Hj Hk; [destruct j; discriminate|].
  destruct k as [|k]; [lia|]. destruct j as [|j]; cbn [nth_error] in *.
  - inversion Hj; subst. rewrite Forall_forall in Hz. apply Hz. eapply nth_error_In; eauto.
  - eapply (IH j k); eauto. lia.
Qed.

Lemma meets_spec e base s : 0 <= e_size e -> (meets e base s <->
  (overlap (e_base e) (e_size e) base (Z.max s 1) \/ (e_size e = 0 /\ base < e_base e < base + s))).
Proof.
  intros He. unfold meets, overlap. split.
  - intros [H1 H2]. destruct (Z.eq_dec (e_size e) 0); [right; lia|left]. exists (Z.max base (e_base e)). lia.
  - intros [(x & H1)|H]; lia.
Qed.

