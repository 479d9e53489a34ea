From Coq Require Import ZArith Lia List Bool.
From Coq Require Import ZifyBool ZifyNat.
From Verif Require Import Py S_flat M_sparse S_sparse P_sparse M_memory.
Import ListNotations.
Open Scope Z_scope.
Ltac Zify.zify_post_hook ::= Z.div_mod_to_equations.

(** memories reachable by any history of SparseMemory calls *)
Definition sm_reachable (size : Z) (m : sparse) : Prop :=
  exists ops, m = fst (sm_run (sm_init size) ops).

Lemma sm_reachable_rel size m : sm_reachable size m -> exists s, sm_rel m s /\ f_size s = size.
Proof.
  intros [ops ->]. pose proof (sm_run_spec ops _ _ (sm_rel_init size)) as H.
  destruct (sm_run (sm_init size) ops) as [m rs].
  destruct (f_run (f_init size) ops) as [s rs'] eqn:E. destruct H as [H _].
  exists s. split; auto. 
  assert (HS : forall ops s0, f_size (fst (f_run s0 ops)) = f_size s0).
  { clear. induction ops as [|o ops IH]; intros; cbn [f_run fst]; auto.
    specialize (IH (fst (f_step s0 o))).
    assert (HH : f_size (fst (f_step s0 o)) = f_size s0).
    { destruct o as [a n|a d| |[i|a b st]|i v|a b st v]; cbn [f_step]; auto; unfold f_write;
        repeat match goal with |- context [if ?c then _ else _] => destruct c
                             | |- context [match ?c with None => _ | Some _ => _ end] => destruct c end; auto. }
    destruct (f_step s0 o) as [s1 r]. cbn [fst] in *.
    destruct (f_run s1 ops) as [s2 rs]. cbn [fst] in *. congruence. }
  specialize (HS ops (f_init size)). rewrite E in HS. auto.
Qed.

Lemma mem_read_rel m s a n :
  sm_rel m s -> 0 <= a < f_size s -> 0 <= n ->
  mem_read m a n = Ok (rd (f_mem s) a (Z.min n (f_size s - a))).
Proof.
  intros Hrel Ha Hn. unfold mem_read.
  pose proof (sm_step_spec m s (SGet (KSlice (Some a) (Some (a + n)) None)) Hrel) as H.
  cbn [sm_step f_step step_err py_bound] in H.
  unfold step_err in H. replace (f_size s <? 0) with false in H by lia.
  destruct H as [_ H].
  replace (a <? 0) with false in H by lia. replace (a + n <? 0) with false in H by lia.
  unfold f_read, in_range in H.
  replace (Z.max 0 (Z.min (f_size s) a)) with a in H by lia.
  replace (Z.max 0 (Z.min (f_size s) (a + n)) - a) with (Z.min n (f_size s - a)) in H by lia.
  replace ((0 <=? a) && (a <? f_size s) && (0 <=? Z.min n (f_size s - a)) &&
           (a + Z.min n (f_size s - a) <=? f_size s)) with true in H by lia.
  destruct (sm_getitem m (KSlice (Some a) (Some (a + n)) None)); cbn [out_bytes] in H;
    congruence.
Qed.

Lemma mem_write_rel m s a d :
  sm_rel m s -> 0 <= a < f_size s -> a + zlen d <= f_size s -> are_bytes d ->
  exists m', mem_write m a d = (m', Ok tt) /\ sm_rel m' (F (f_size s) (wr (f_mem s) a d)).
Proof.
  intros Hrel Ha Hd Hb. unfold mem_write. pose proof (zlen_nonneg d).
  pose proof (sm_step_spec m s (SSetSlice (Some a) (Some (a + zlen d)) None d) Hrel) as H0.
  cbn [sm_step f_step step_err py_bound] in H0.
  unfold step_err in H0. replace (f_size s <? 0) with false in H0 by lia.
  replace (a <? 0) with false in H0 by lia. replace (a + zlen d <? 0) with false in H0 by lia.
  replace (Z.max 0 (Z.min (f_size s) a)) with a in H0 by lia.
  replace (Z.max 0 (Z.min (f_size s) (a + zlen d)) - a) with (zlen d) in H0 by lia.
  assert (HG : good_prefix d = zlen d) by (apply good_prefix_full; auto).
  rewrite HG, !Z.eqb_refl in H0. cbn [negb] in H0.
  replace (a <? f_size s) with true in H0 by lia.
  destruct (sm_setitem m (KSlice (Some a) (Some (a + zlen d)) None) d) as [m' r].
  destruct H0 as [H1 H2]. exists m'. destruct r as [[]|e]; cbn [out_unit] in H2; [auto|discriminate].
Qed.

(** a write past the end is rejected and has no effect *)
Lemma mem_write_over m s a d :
  sm_rel m s -> 0 <= a -> 0 <= f_size s -> f_size s < a + zlen d -> 0 < zlen d -> are_bytes d ->
  mem_write m a d = (m, Err IndexError).
Proof.
  intros Hrel Ha Hs Hd Hd0 Hb. pose proof Hrel as (Hsz & _). unfold mem_write.
  pose proof (zlen_nonneg d).
  cbn [sm_setitem]. unfold slice_indices. rewrite Hsz.
  replace (f_size s <? 0) with false by lia.
  unfold slice_clamp. replace (a <? 0) with false by lia.
  replace (a + zlen d <? 0) with false by lia.
  rewrite (proj2 (forallb_is_byteb d)) by auto. cbn [negb].
  replace (Z.min (a + zlen d) (f_size s) - Z.min a (f_size s) =? zlen d) with false by lia.
  reflexivity.
Qed.

Lemma words_to_bytes_ok ws bo words :
  0 <= ws -> Forall (fun w => 0 <= w < 256 ^ ws) words ->
  exists bs, words_to_bytes words bo ws = Ok bs /\ zlen bs = ws * zlen words /\ are_bytes bs /\
    (forall i, 0 <= i < zlen words -> to_bytes (znth 0 words i) ws bo = Ok (zslice bs (ws * i) (ws * (i + 1)))).
Proof.
  intros Hws. induction words as [|w words IH]; intros HF; cbn [words_to_bytes].
  - exists []. repeat split; auto. + cbn. lia. + constructor.
    + intros i Hi. change (zlen (@nil Z)) with 0 in Hi. lia.
  - inversion HF as [|? ? Hw HF']; subst.
    destruct (IH HF') as (bs & -> & Hl & Hb & Hn).
    destruct (to_bytes_fits w ws bo Hws Hw) as [b Eb]. rewrite Eb. cbn [bind].
    destruct (to_bytes_ok _ _ _ _ Eb) as (_ & _ & Hbl & Hbb & _).
    exists (b ++ bs). rewrite zlen_app, zlen_cons. repeat split; auto.
    + lia.
    + apply are_bytes_app; auto.
    + intros i Hi. pose proof (zlen_nonneg words). destruct (Z.eq_dec i 0) as [->|Hi0].
      * rewrite znth_cons0, Eb. f_equal. change (0 + 1) with 1. rewrite Z.mul_0_r, zslice_0, firstn_app.
        replace (Z.to_nat (ws * 1) - length b)%nat with O by (rewrite Z.mul_1_r; unfold zlen in *; lia).
        cbn [firstn]. rewrite app_nil_r. symmetry. apply firstn_all2. unfold zlen in *; lia.
      * rewrite znth_cons by lia. rewrite Hn by lia. f_equal.
        unfold zslice. rewrite skipn_app.
        assert (ws * i >= ws) by nia.
        rewrite (skipn_all2 b) by (unfold zlen in *; lia). cbn [app].
        replace (ws * (i - 1 + 1) - ws * (i - 1)) with (ws * (i + 1) - ws * i) by lia.
        f_equal. f_equal. unfold zlen in *.
        replace (ws * (i - 1)) with (ws * i - ws) by lia. lia.
Qed.

Lemma words_to_bytes_overflow ws bo words :
  0 <= ws -> ~ Forall (fun w => 0 <= w < 256 ^ ws) words ->
  words_to_bytes words bo ws = Err OverflowError.
Proof.
  intros Hws. induction words as [|w words IH]; intros HF; cbn [words_to_bytes].
  - exfalso. apply HF. constructor.
  - destruct (Z_lt_dec w 0); [rewrite to_bytes_overflow by lia; reflexivity|].
    destruct (Z_lt_dec w (256 ^ ws)); [|rewrite to_bytes_overflow by lia; reflexivity].
    destruct (to_bytes_fits w ws bo Hws ltac:(lia)) as [b ->]. cbn [bind].
    rewrite IH; [reflexivity|]. intros C. apply HF. constructor; auto; lia.
Qed.

Lemma le_bytes_nth n : forall x j, (j < n)%nat ->
  nth j (le_bytes n x) 0 = (x / 256 ^ Z.of_nat j) mod 256.
Proof.
  induction n; intros x j Hj; [lia|]. destruct j.
  - cbn [le_bytes nth]. change (256 ^ Z.of_nat 0) with 1. now rewrite Z.div_1_r.
  - cbn [le_bytes nth]. rewrite IHn by lia.
    rewrite Z.div_div by (try apply Z.pow_pos_nonneg; lia). do 2 f_equal.
    rewrite Nat2Z.inj_succ, Z.pow_succ_r by lia. reflexivity.
Qed.

Lemma to_bytes_digits w ws bo bs j :
  to_bytes w ws bo = Ok bs -> 0 <= j < ws ->
  znth 0 bs j = (w / 256 ^ (match bo with Little => j | Big => ws - 1 - j end)) mod 256.
Proof.
  intros H Hj. unfold to_bytes in H.
  destruct (ws <? 0); [discriminate|]. destruct ((w <? 0) || (256 ^ ws <=? w)); [discriminate|].
  inversion H; subst bs. unfold znth. destruct bo.
  - rewrite le_bytes_nth by lia. repeat f_equal. lia.
  - rewrite rev_nth by (rewrite le_bytes_length; lia). rewrite le_bytes_length.
    rewrite le_bytes_nth by lia. do 3 f_equal. lia.
Qed.

Lemma mem_words_roundtrip m s a words bo ws :
  sm_rel m s -> 0 <= ws -> 0 <= a < f_size s -> a + ws * zlen words <= f_size s ->
  Forall (fun w => 0 <= w < 256 ^ ws) words ->
  exists m' s', mem_write_words m a words bo ws = (m', Ok tt) /\
    sm_rel m' s' /\ f_size s' = f_size s /\
    mem_read_words m' a (zlen words) bo ws = Ok words /\
    (forall x, x < a \/ a + ws * zlen words <= x -> f_mem s' x = f_mem s x) /\
    (forall i j, 0 <= i < zlen words -> 0 <= j < ws ->
       f_mem s' (a + ws * i + j)
       = (znth 0 words i / 256 ^ (match bo with Little => j | Big => ws - 1 - j end)) mod 256).
Proof.
  intros Hrel Hws Ha Hfit HF. pose proof (zlen_nonneg words) as Hwn.
  assert (Hpn : 0 <= zlen words * ws) by nia.
  destruct (words_to_bytes_ok ws bo words Hws HF) as (bs & Hbs & Hl & Hb & Hn).
  unfold mem_write_words. rewrite Hbs.
  destruct (mem_write_rel m s a bs Hrel Ha ltac:(lia) Hb) as (m' & -> & Hrel').
  exists m', (F (f_size s) (wr (f_mem s) a bs)). repeat split; auto; try apply Hrel'.
  - unfold mem_read_words. rewrite (mem_read_rel _ _ _ _ Hrel'); cbn [f_size f_mem]; try lia.
    cbn [bind]. f_equal.
    replace (Z.min (zlen words * ws) (f_size s - a)) with (zlen bs) by lia.
    rewrite rd_wr_same. unfold bytes_to_words.
    apply (nth_ext_z 0).
    + rewrite zlen_map. rewrite zlen_zrange. lia.
    + rewrite zlen_map. rewrite zlen_zrange. intros i Hi.
      rewrite (znth_map _ 0) by (rewrite zlen_zrange; lia).
      unfold zrange. rewrite znth_zseq by lia. cbn [Z.add].
      specialize (Hn i ltac:(lia)). apply to_bytes_ok in Hn. apply Hn.
  - intros x Hx. cbn [f_mem]. apply wr_outside. lia.
  - intros i j Hi Hj. cbn [f_mem].
    assert (ws * i + j < ws * zlen words) by nia. assert (0 <= ws * i) by nia.
    rewrite wr_inside by lia.
    pose proof (Hn i Hi) as Hi'. pose proof (to_bytes_digits _ _ _ _ j Hi' Hj) as HD.
    rewrite znth_zslice in HD by lia. rewrite <- HD. f_equal. lia.
Qed.

Lemma bytes_roundtrip_1 m s a b :
  sm_rel m s -> 0 <= a < f_size s -> is_byte b ->
  exists m', mem_write_byte m a b = (m', Ok tt) /\ mem_read_byte m' a = Ok b.
Proof.
  intros Hrel Ha Hb.
  destruct (mem_write_rel m s a [b] Hrel Ha ltac:(change (zlen [b]) with 1; lia)) as (m' & E & Hrel').
  { constructor; auto. }
  exists m'. split; [exact E|]. unfold mem_read_byte.
  rewrite (mem_read_rel _ _ _ _ Hrel'); cbn [f_size f_mem]; try lia.
  replace (Z.min 1 (f_size s - a)) with (zlen [b]) by (change (zlen [b]) with 1; lia).
  rewrite rd_wr_same. reflexivity.
Qed.

(** ** observations through the public API *)

(** the byte that mem.read(x, 1) returns *)
Definition peek (m : sparse) (x : Z) : Z :=
  match sm_read m x 1 with Ok (b :: _) => b | _ => 0 end.

Lemma peek_rel m s x : sm_rel m s -> 0 <= x < f_size s -> peek m x = f_mem s x.
Proof.
  intros Hrel Hx. unfold peek. pose proof (sm_read_spec m s x 1 Hrel) as H.
  unfold f_read, in_range in H.
  replace ((0 <=? x) && (x <? f_size s) && (0 <=? 1) && (x + 1 <=? f_size s)) with true in H by lia.
  destruct (sm_read m x 1); cbn [out_bytes] in H; [|discriminate].
  inversion H; subst. rewrite rd_cons by lia. reflexivity.
Qed.

Lemma sm_write_atomic m a d m' e :
  are_bytes d -> (exists s, sm_rel m s) -> sm_write m a d = (m', Err e) -> m' = m /\ e = ValueError.
Proof.
  intros Hd [s Hrel] H. unfold sm_write in H.
  destruct ((a <? 0) || (sm_size m <=? a)); [inversion H; auto|].
  destruct (sm_size m <? a + zlen d); [inversion H; auto|].
  exfalso. pose proof Hrel as (_ & Hwf & _). pose proof (zlen_nonneg d).
  pose proof (sm_write_loop_spec (sm_fuel (zlen d)) (sm_segs m) a d 0 (zlen d) Hwf
     ltac:(lia) ltac:(lia) ltac:(lia) ltac:(right; unfold sm_fuel; lia)) as HL.
  cbv zeta in HL. cbn [Z.to_nat skipn] in HL.
  destruct (sm_write_loop (sm_fuel (zlen d)) (sm_segs m) a d 0 (zlen d)) as [segs' r].
  destruct HL as [_ HL]. rewrite (proj2 (good_prefix_full d) Hd), Z.eqb_refl in HL.
  destruct HL as [-> _]. inversion H.
Qed.

Lemma sm_getitem_slice m size a b st :
  sm_reachable size m -> 0 <= size -> (st = None \/ st = Some 1) ->
  let a' := py_bound size 0 a in
  let b' := py_bound size size b in
  sm_getitem m (KSlice a b st) =
    if (a' <=? b') && (a' <? size)
    then Ok (zslice (map (peek m) (zrange 0 size)) a' b')
    else Err ValueError.
Proof.
  intros Hreach Hs Hst a' b'. destruct (sm_reachable_rel _ _ Hreach) as (s & Hrel & Hsz).
  pose proof (sm_step_spec m s (SGet (KSlice a b st)) Hrel) as H.
  cbn [sm_step f_step] in H. unfold step_err in H. rewrite Hsz in H.
  replace (size <? 0) with false in H by lia.
  assert (Hb : 0 <= a' <= size /\ 0 <= b' <= size).
  { unfold a', b', py_bound. destruct a as [z|], b as [z0|]; try lia;
      try destruct (z <? 0); try destruct (z0 <? 0); lia. }
  assert (H' : out_bytes (sm_getitem m (KSlice a b st)) = f_read s a' (b' - a')).
  { destruct Hst; subst st; cbn [Z.eqb Pos.eqb] in H; destruct H as [_ H]; exact H. }
  clear H. unfold f_read, in_range in H'. rewrite Hsz in H'.
  destruct ((a' <=? b') && (a' <? size)) eqn:E.
  - replace ((0 <=? a') && (a' <? size) && (0 <=? b' - a') && (a' + (b' - a') <=? size))
      with true in H' by lia.
    destruct (sm_getitem m (KSlice a b st)) as [l|e]; cbn [out_bytes] in H'; [|discriminate].
    inversion H' as [H0]. f_equal.
    assert (HZ : zlen (map (peek m) (zrange 0 size)) = size) by (rewrite zlen_map, zlen_zrange; lia).
    apply (nth_ext_z 0); rewrite rd_length by lia.
    + rewrite zslice_length by lia. lia.
    + intros i Hi. rewrite rd_nth, znth_zslice by lia.
      rewrite (znth_map _ 0) by (rewrite zlen_zrange; lia).
      unfold zrange. rewrite znth_zseq by lia. cbn [Z.add]. symmetry. apply peek_rel; auto. lia.
  - replace ((0 <=? a') && (a' <? size) && (0 <=? b' - a') && (a' + (b' - a') <=? size))
      with false in H' by lia.
    destruct (sm_getitem m (KSlice a b st)) as [l|e]; cbn [out_bytes] in H'; congruence.
Qed.

Lemma sm_reachable_run size m ops :
  sm_reachable size m -> sm_reachable size (fst (sm_run m ops)).
Proof.
  intros [ops0 ->]. exists (ops0 ++ ops). revert ops.
  generalize (sm_init size) as m0.
  induction ops0 as [|o ops0 IH]; intros m0 ops; cbn [sm_run app fst]; auto.
  destruct (sm_step m0 o) as [m1 r]. specialize (IH m1 ops).
  destruct (sm_run m1 ops0) as [m2 rs]. destruct (sm_run m1 (ops0 ++ ops)) as [m3 rs3].
  cbn [fst] in *. exact IH.
Qed.

Lemma sm_step_reachable size m o :
  sm_reachable size m -> sm_reachable size (fst (sm_step m o)).
Proof.
  intros H. pose proof (sm_reachable_run size m [o] H) as H'. cbn [sm_run] in H'.
  destruct (sm_step m o). exact H'.
Qed.

Lemma sm_setitem_reachable size m a b st v :
  sm_reachable size m -> sm_reachable size (fst (sm_setitem m (KSlice a b st) v)).
Proof.
  intros H. pose proof (sm_step_reachable size m (SSetSlice a b st v) H) as H'.
  cbn [sm_step] in H'. destruct (sm_setitem m (KSlice a b st) v). exact H'.
Qed.

Lemma sm_setitem_slice m size a b st v :
  sm_reachable size m -> 0 <= size -> (st = None \/ st = Some 1) ->
  let a' := py_bound size 0 a in
  let b' := py_bound size size b in
  let '(m', r) := sm_setitem m (KSlice a b st) v in
  (are_bytes v /\ zlen v = b' - a' /\ a' < size ->
     r = Ok tt /\
     forall x, 0 <= x < size ->
       peek m' x = if (a' <=? x) && (x <? b') then znth 0 v (x - a') else peek m x) /\
  (~ (are_bytes v /\ zlen v = b' - a' /\ a' < size) ->
     m' = m /\ exists e, r = Err e).
Proof.
  intros Hreach Hs Hst a' b'. destruct (sm_reachable_rel _ _ Hreach) as (s & Hrel & Hsz).
  pose proof Hrel as (Hms & Hwf & _).
  pose proof (sm_step_spec m s (SSetSlice a b st v) Hrel) as H.
  cbn [sm_step f_step] in H. unfold step_err in H. rewrite Hsz in H.
  replace (size <? 0) with false in H by lia.
  fold a' b' in H.
  assert (Hb : 0 <= a' <= size /\ 0 <= b' <= size).
  { unfold a', b', py_bound. destruct a as [z|], b as [z0|]; try lia;
      try destruct (z <? 0); try destruct (z0 <? 0); lia. }
  assert (Hm : forall e, snd (sm_setitem m (KSlice a b st) v) = Err e ->
                         fst (sm_setitem m (KSlice a b st) v) = m).
  { intros e. cbn [sm_setitem].
    destruct (slice_indices (sm_size m) a b st) as [[x y]|e0]; cbn [fst snd]; auto.
    destruct (forallb is_byteb v) eqn:EB; cbn [negb fst snd]; auto.
    destruct (y - x =? zlen v); cbn [negb fst snd]; auto.
    intros He. destruct (sm_write m x v) as [m1 r1] eqn:EW. cbn [fst snd] in *. subst r1.
    apply sm_write_atomic in EW; [tauto| |eauto]. now apply forallb_is_byteb. }
  destruct (sm_setitem m (KSlice a b st) v) as [m' r] eqn:ES. cbn [fst snd] in Hm.
  assert (H' : let '(s', r') :=
     if negb (good_prefix v =? zlen v) then (s, OErr ValueError)
     else if negb (zlen v =? b' - a') then (s, OErr IndexError)
     else if a' <? size then (F size (wr (f_mem s) a' v), OUnit) else (s, OErr ValueError)
     in sm_rel m' s' /\ out_unit r = r').
  { destruct Hst; subst st; cbn [Z.eqb Pos.eqb] in H; exact H. }
  clear H. pose proof (good_prefix_full v) as HG.
  split.
  - intros (Hv & Hlen & Ha). apply HG in Hv.
    rewrite Hv, Hlen, !Z.eqb_refl in H'. cbn [negb] in H'.
    replace (a' <? size) with true in H' by lia. destruct H' as [Hrel' Hr].
    destruct r as [[]|e]; cbn [out_unit] in Hr; [|discriminate]. split; auto.
    intros x Hx. rewrite (peek_rel _ _ _ Hrel') by (cbn; lia). cbn [f_mem].
    rewrite (peek_rel _ _ _ Hrel) by lia. unfold wr. rewrite Hlen.
    replace (a' + (b' - a')) with b' by lia. reflexivity.
  - intros Hn.
    assert (HE : exists e, r = Err e).
    { destruct (Z.eqb_spec (good_prefix v) (zlen v)); cbn [negb] in H'.
      - destruct (Z.eqb_spec (zlen v) (b' - a')); cbn [negb] in H'.
        + destruct (Z.ltb_spec a' size).
          * exfalso. apply Hn. rewrite <- HG. auto.
          * destruct H' as [_ H']. destruct r; [discriminate|eauto].
        + destruct H' as [_ H']. destruct r; [discriminate|eauto].
      - destruct H' as [_ H']. destruct r; [discriminate|eauto]. }
    destruct HE as [e ->]. split; eauto.
Qed.

Lemma mem_words_api size m a words bo ws :
  sm_reachable size m -> 0 <= ws -> 0 <= a < size -> a + ws * zlen words <= size ->
  Forall (fun w => 0 <= w < 256 ^ ws) words ->
  exists m', mem_write_words m a words bo ws = (m', Ok tt) /\
    mem_read_words m' a (zlen words) bo ws = Ok words /\
    (forall x, 0 <= x < size -> x < a \/ a + ws * zlen words <= x -> peek m' x = peek m x) /\
    (forall i j, 0 <= i < zlen words -> 0 <= j < ws ->
       peek m' (a + ws * i + j)
       = (znth 0 words i / 256 ^ (match bo with Little => j | Big => ws - 1 - j end)) mod 256).
Proof.
  intros Hreach Hws Ha Hfit HF. destruct (sm_reachable_rel _ _ Hreach) as (s & Hrel & Hsz).
  rewrite <- Hsz in *.
  destruct (mem_words_roundtrip m s a words bo ws Hrel Hws Ha Hfit HF)
    as (m' & s' & E & Hrel' & Hsz' & Hrd & Hout & Hin).
  exists m'. repeat split; auto.
  - intros x Hx Hx'. rewrite (peek_rel _ _ _ Hrel') by lia. rewrite (peek_rel _ _ _ Hrel) by lia.
    auto.
  - intros i j Hi Hj. assert (0 <= ws * i) by nia.
    assert (ws * i + j < ws * zlen words) by nia.
    rewrite (peek_rel _ _ _ Hrel') by lia. auto.
Qed.

Lemma mem_words_overflow m a words bo ws :
  0 <= ws -> ~ Forall (fun w => 0 <= w < 256 ^ ws) words ->
  mem_write_words m a words bo ws = (m, Err OverflowError).
Proof.
  intros. unfold mem_write_words. rewrite words_to_bytes_overflow; auto.
Qed.

Lemma mem_single_word size m a w bo ws :
  sm_reachable size m -> 0 <= ws -> 0 <= a < size -> a + ws <= size -> 0 <= w < 256 ^ ws ->
  exists m', mem_write_word m a w bo ws = (m', Ok tt) /\ mem_read_word m' a bo ws = Ok w.
Proof.
  intros Hreach Hws Ha Hfit Hw.
  destruct (mem_words_api size m a [w] bo ws Hreach Hws Ha) as (m' & E & Hr & _).
  - change (zlen [w]) with 1. lia.
  - constructor; auto.
  - exists m'. split; [exact E|]. unfold mem_read_word. change (zlen [w]) with 1 in Hr.
    rewrite Hr. reflexivity.
Qed.

Lemma mem_byte_api size m a b :
  sm_reachable size m -> 0 <= a < size -> is_byte b ->
  exists m', mem_write_byte m a b = (m', Ok tt) /\ mem_read_byte m' a = Ok b.
Proof.
  intros Hreach Ha Hb. destruct (sm_reachable_rel _ _ Hreach) as (s & Hrel & Hsz).
  eapply bytes_roundtrip_1; eauto. lia.
Qed.

(** Memory.read silently truncates at the end of the memory *)
Lemma mem_read_api size m a n :
  sm_reachable size m -> 0 <= a < size -> 0 <= n ->
  mem_read m a n = Ok (map (peek m) (zrange a (Z.min (a + n) size))).
Proof.
  intros Hreach Ha Hn. destruct (sm_reachable_rel _ _ Hreach) as (s & Hrel & Hsz).
  rewrite (mem_read_rel m s a n Hrel) by lia. f_equal. unfold rd.
  replace (a + Z.min n (f_size s - a)) with (Z.min (a + n) size) by lia.
  apply map_ext_in. intros x Hx. apply in_zrange in Hx. symmetry. apply peek_rel; auto. lia.
Qed.
