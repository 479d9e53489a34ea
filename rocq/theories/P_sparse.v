From Coq Require Import ZArith Lia List Bool.
From Coq Require Import ZifyBool ZifyNat.
From Verif Require Import Py S_flat M_sparse S_sparse.
Import ListNotations.
Open Scope Z_scope.
Ltac Zify.zify_post_hook ::= Z.div_mod_to_equations.

Lemma land_4095 a : Z.land a 4095 = a mod 4096.
Proof. change 4095 with (Z.ones 12). rewrite Z.land_ones by lia. reflexivity. Qed.

(** every stored block has 4096 bytes *)
Definition segs_wf (segs : dict (list Z)) : Prop :=
  forall k b, dget segs k = Some b -> zlen b = 4096.

(** abstraction: the byte at address x *)
Definition segs_flat (segs : dict (list Z)) : flat :=
  fun x => znth 0 (sm_block segs (x - x mod 4096)) (x mod 4096).

Lemma sm_block_len segs k : segs_wf segs -> zlen (sm_block segs k) = 4096.
Proof.
  intros H. unfold sm_block. destruct (dget segs k) eqn:E; eauto.
Qed.

Lemma segs_wf_dset segs k b : segs_wf segs -> zlen b = 4096 -> segs_wf (dset segs k b).
Proof.
  intros H Hb k' b'. rewrite dget_dset. destruct (k =? k').
  - intros E; inversion E; subst; auto.
  - apply H.
Qed.

Lemma segs_flat_nil x : segs_flat [] x = 0.
Proof. unfold segs_flat, sm_block. cbn [dget]. apply znth_zeros. Qed.

Lemma block_rd segs addr len :
  segs_wf segs -> 0 <= addr mod 4096 + len <= 4096 -> 0 <= len ->
  zslice (sm_block segs (addr - addr mod 4096)) (addr mod 4096) (addr mod 4096 + len)
  = rd (segs_flat segs) addr len.
Proof.
  intros Hwf Hr Hl. pose proof (sm_block_len segs (addr - addr mod 4096) Hwf) as Hb.
  apply (nth_ext_z 0).
  - rewrite zslice_length by lia. rewrite rd_length by lia. lia.
  - rewrite zslice_length by lia. intros i Hi.
    rewrite znth_zslice by lia. rewrite rd_nth by lia. unfold segs_flat.
    assert ((addr + i) mod 4096 = addr mod 4096 + i) as -> by lia.
    f_equal. f_equal. lia.
Qed.

Lemma sm_read_loop_spec fuel : forall segs addr len acc,
  segs_wf segs -> 0 <= len -> (len <= 0 \/ addr mod 4096 + len <= 4096 * Z.of_nat fuel) ->
  sm_read_loop fuel segs addr len acc = Ok (acc ++ rd (segs_flat segs) addr len).
Proof.
  induction fuel; intros segs addr len acc Hwf Hlen Hf; cbn [sm_read_loop].
  - replace (0 <? len) with false by lia. rewrite rd_neg by lia. now rewrite app_nil_r.
  - destruct (0 <? len) eqn:E.
    2:{ rewrite rd_neg by lia. now rewrite app_nil_r. }
    rewrite land_4095.
    set (bl := Z.min (4096 - addr mod 4096) len).
    assert (0 < bl <= len /\ addr mod 4096 + bl <= 4096) by lia.
    rewrite IHfuel; [|auto|lia|].
    + f_equal. rewrite <- app_assoc. f_equal.
      replace len with (bl + (len - bl)) at 2 by lia.
      rewrite rd_split by lia. f_equal. apply block_rd; auto; lia.
    + destruct (Z.leb_spec len (4096 - addr mod 4096)).
      * left. lia.
      * right. assert (bl = 4096 - addr mod 4096) by lia.
        assert ((addr + bl) mod 4096 = 0) by lia. lia.
Qed.

Lemma forallb_is_byteb d : forallb is_byteb d = true <-> are_bytes d.
Proof.
  rewrite forallb_forall. unfold are_bytes. rewrite Forall_forall.
  unfold is_byteb, is_byte. split; intros H x Hx; specialize (H x Hx); lia.
Qed.

Lemma good_prefix_bounds d : 0 <= good_prefix d <= zlen d.
Proof.
  induction d; cbn [good_prefix]; [change (zlen (@nil Z)) with 0; lia|].
  rewrite zlen_cons. destruct (is_byteb a); lia.
Qed.

Lemma good_prefix_full d : good_prefix d = zlen d <-> are_bytes d.
Proof.
  induction d; cbn [good_prefix].
  - split; [constructor|reflexivity].
  - rewrite zlen_cons. pose proof (good_prefix_bounds d).
    unfold are_bytes in *. rewrite Forall_cons_iff.
    unfold is_byteb, is_byte. destruct ((0 <=? a) && (a <? 256)) eqn:E.
    + split.
      * intros; split; [lia|]. apply IHd. lia.
      * intros [_ Hd]. apply IHd in Hd. lia.
    + split; [lia|]. intros [Hd _]. lia.
Qed.

(** chunk [0, n) is valid iff it ends before the first bad element *)
Lemma good_prefix_firstn n d :
  0 <= n <= zlen d -> (forallb is_byteb (firstn (Z.to_nat n) d) = true <-> n <= good_prefix d).
Proof.
  revert n; induction d; intros n Hn; cbn [good_prefix].
  - change (zlen (@nil Z)) with 0 in Hn. assert (n = 0) by lia. subst. cbn. lia.
  - rewrite zlen_cons in Hn. destruct (Z.eq_dec n 0).
    + subst. cbn [Z.to_nat firstn forallb]. pose proof (good_prefix_bounds d).
      destruct (is_byteb a); split; auto; lia.
    + replace (Z.to_nat n) with (S (Z.to_nat (n - 1))) by lia. cbn [firstn forallb].
      rewrite andb_true_iff, IHd by lia. destruct (is_byteb a); split; intros; try lia.
Qed.

Lemma good_prefix_skipn n d :
  0 <= n <= good_prefix d -> good_prefix (skipn (Z.to_nat n) d) = good_prefix d - n.
Proof.
  revert n; induction d; intros n Hn; cbn [good_prefix] in *.
  - assert (n = 0) by lia. subst. reflexivity.
  - destruct (Z.eq_dec n 0).
    + subst. cbn [Z.to_nat skipn good_prefix]. lia.
    + destruct (is_byteb a); [|lia].
      replace (Z.to_nat n) with (S (Z.to_nat (n - 1))) by lia. cbn [skipn].
      rewrite IHd by lia. lia.
Qed.

Lemma segs_flat_dset_same segs k :
  segs_flat (dset segs k (sm_block segs k)) =f segs_flat segs.
Proof.
  intros x. unfold segs_flat. f_equal. unfold sm_block. rewrite dget_dset.
  destruct (Z.eqb_spec k (x - x mod 4096)); subst; reflexivity.
Qed.

Lemma segs_flat_splice segs addr chunk len :
  segs_wf segs -> zlen chunk = len -> 0 < len -> addr mod 4096 + len <= 4096 ->
  segs_flat (dset segs (addr - addr mod 4096)
     (zsplice (sm_block segs (addr - addr mod 4096)) (addr mod 4096) (addr mod 4096 + len) chunk))
  =f wr (segs_flat segs) addr chunk.
Proof.
  intros Hwf Hc Hl Hb x. pose proof (sm_block_len segs (addr - addr mod 4096) Hwf) as Hbl.
  unfold segs_flat at 1. unfold sm_block at 1. rewrite dget_dset.
  destruct (Z.eqb_spec (addr - addr mod 4096) (x - x mod 4096)).
  - rewrite znth_zsplice by lia. unfold wr. rewrite Hc.
    destruct ((addr <=? x) && (x <? addr + len)) eqn:E.
    + replace ((addr mod 4096 <=? x mod 4096) && (x mod 4096 <? addr mod 4096 + len))
        with true by lia. f_equal. lia.
    + replace ((addr mod 4096 <=? x mod 4096) && (x mod 4096 <? addr mod 4096 + len))
        with false by lia. unfold segs_flat. now rewrite e.
  - fold (sm_block segs (x - x mod 4096)). fold (segs_flat segs x).
    rewrite wr_outside; auto. lia.
Qed.

Lemma sm_write_loop_spec fuel : forall segs addr data off len,
  segs_wf segs -> 0 <= off -> off + len = zlen data -> 0 <= len ->
  (len <= 0 \/ addr mod 4096 + len <= 4096 * Z.of_nat fuel) ->
  let rest := skipn (Z.to_nat off) data in
  let '(segs', r) := sm_write_loop fuel segs addr data off len in
  segs_wf segs' /\
  (if good_prefix rest =? zlen rest
   then r = Ok tt /\ segs_flat segs' =f wr (segs_flat segs) addr rest
   else r = Err ValueError /\
        segs_flat segs' =f
          wr (segs_flat segs) addr
             (firstn (Z.to_nat (Z.max 0 ((addr + good_prefix rest) / 4096 * 4096 - addr))) rest)).
Proof.
  induction fuel; intros segs addr data off len Hwf Hoff Hlen Hl0 Hf rest;
    cbn [sm_write_loop]; assert (Hr : zlen rest = len)
      by (unfold rest, zlen in *; rewrite skipn_length; lia).
  - replace (0 <? len) with false by lia.
    assert (rest = []) as -> by (apply zlen_0_nil; lia).
    cbn [good_prefix]. change (zlen (@nil Z)) with 0. cbn [Z.eqb].
    repeat split; auto. apply feq_sym, wr_nil.
  - destruct (0 <? len) eqn:E.
    2:{ assert (rest = []) as -> by (apply zlen_0_nil; lia).
        cbn [good_prefix]. change (zlen (@nil Z)) with 0. cbn [Z.eqb].
        repeat split; auto. apply feq_sym, wr_nil. }
    rewrite land_4095.
    set (bl := Z.min (4096 - addr mod 4096) len).
    assert (Hbl : 0 < bl <= len /\ addr mod 4096 + bl <= 4096) by lia.
    assert (Hchunk : zslice data off (off + bl) = firstn (Z.to_nat bl) rest).
    { unfold zslice, rest. f_equal. lia. }
    rewrite Hchunk.
    assert (Hcl : zlen (firstn (Z.to_nat bl) rest) = bl).
    { unfold zlen in *. rewrite firstn_length. lia. }
    pose proof (good_prefix_bounds rest) as Hgp.
    pose proof (good_prefix_firstn bl rest ltac:(lia)) as Hgf.
    set (b := sm_block segs (addr - addr mod 4096)).
    assert (Hb : zlen b = 4096) by (apply sm_block_len; auto).
    set (segs1 := dset segs (addr - addr mod 4096) b).
    assert (Hwf1 : segs_wf segs1) by (apply segs_wf_dset; auto).
    assert (Hfl1 : segs_flat segs1 =f segs_flat segs) by apply segs_flat_dset_same.
    destruct (forallb is_byteb (firstn (Z.to_nat bl) rest)) eqn:EB.
    + assert (Hge : bl <= good_prefix rest) by (apply Hgf; auto).
      set (segs2 := dset segs1 (addr - addr mod 4096)
         (zsplice b (addr mod 4096) (addr mod 4096 + bl) (firstn (Z.to_nat bl) rest))).
      assert (Hb1 : b = sm_block segs1 (addr - addr mod 4096)).
      { unfold segs1, b, sm_block. rewrite dget_dset, Z.eqb_refl. reflexivity. }
      assert (Hwf2 : segs_wf segs2).
      { apply segs_wf_dset; auto. rewrite zsplice_length by lia. auto. }
      assert (Hfl2 : segs_flat segs2 =f wr (segs_flat segs) addr (firstn (Z.to_nat bl) rest)).
      { unfold segs2. rewrite Hb1. eapply feq_trans.
        - apply segs_flat_splice; auto; lia.
        - apply wr_feq; auto. }
      specialize (IHfuel segs2 (addr + bl) data (off + bl) (len - bl) Hwf2
                    ltac:(lia) ltac:(lia) ltac:(lia)).
      assert (Hpre : len - bl <= 0 \/ (addr + bl) mod 4096 + (len - bl) <= 4096 * Z.of_nat fuel).
      { destruct (Z.leb_spec len (4096 - addr mod 4096)).
        - left; lia.
        - right. assert (bl = 4096 - addr mod 4096) by lia.
          assert ((addr + bl) mod 4096 = 0) by lia. lia. }
      specialize (IHfuel Hpre). cbv zeta in IHfuel.
      assert (Hrest' : skipn (Z.to_nat (off + bl)) data = skipn (Z.to_nat bl) rest).
      { unfold rest. rewrite skipn_skipn'. f_equal. lia. }
      rewrite Hrest' in IHfuel.
      assert (Hrl : zlen (skipn (Z.to_nat bl) rest) = len - bl).
      { unfold zlen in *. rewrite skipn_length. lia. }
      rewrite good_prefix_skipn, Hrl in IHfuel by lia.
      destruct (sm_write_loop fuel segs2 (addr + bl) data (off + bl) (len - bl)) as [segs' r].
      destruct IHfuel as [Hwf' IH]. split; auto.
      rewrite Hr.
      destruct (Z.eqb_spec (good_prefix rest) len).
      * replace (good_prefix rest - bl =? len - bl) with true in IH by lia.
        destruct IH as [-> IH]. split; auto.
        eapply feq_trans; [exact IH|]. eapply feq_trans; [apply wr_feq, Hfl2|].
        rewrite <- (firstn_skipn (Z.to_nat bl) rest) at 3.
        replace (addr + bl) with (addr + zlen (firstn (Z.to_nat bl) rest)) by lia.
        apply wr_app.
      * replace (good_prefix rest - bl =? len - bl) with false in IH by lia.
        destruct IH as [-> IH]. split; auto.
        eapply feq_trans; [exact IH|]. eapply feq_trans; [apply wr_feq, Hfl2|].
        replace (addr + bl + (good_prefix rest - bl)) with (addr + good_prefix rest) by lia.
        set (cut := (addr + good_prefix rest) / 4096 * 4096).
        (* bl ends at a block boundary here, since a bad element comes later *)
        assert (bl = 4096 - addr mod 4096) by lia.
        assert (Hcut : bl <= cut - addr) by (unfold cut; lia).
        replace (Z.max 0 (cut - addr)) with (bl + (cut - (addr + bl))) by lia.
        replace (Z.max 0 (cut - (addr + bl))) with (cut - (addr + bl)) by lia.
        rewrite (Z2Nat.inj_add bl) by lia.
        rewrite <- firstn_skipn_app.
        replace (addr + bl) with (addr + zlen (firstn (Z.to_nat bl) rest)) at 1 by lia.
        apply wr_app.
    + assert (Hlt : good_prefix rest < bl).
      { destruct (Z.ltb_spec (good_prefix rest) bl); auto.
        assert (false = true) by (apply Hgf; auto). discriminate. }
      split; auto.
      replace (good_prefix rest =? zlen rest) with false by lia.
      split; auto.
      replace (Z.max 0 ((addr + good_prefix rest) / 4096 * 4096 - addr)) with 0 by lia.
      cbn [Z.to_nat firstn].
      eapply feq_trans; [exact Hfl1|]. apply feq_sym, wr_nil.
Qed.

(** refinement relation between the sparse memory and the flat array *)
Definition sm_rel (m : sparse) (s : fstate) : Prop :=
  sm_size m = f_size s /\ segs_wf (sm_segs m) /\ segs_flat (sm_segs m) =f f_mem s.

Lemma sm_rel_init size : sm_rel (sm_init size) (f_init size).
Proof.
  repeat split; auto.
  - intros k b H. discriminate.
  - intros x. apply segs_flat_nil.
Qed.

Lemma sm_read_spec m s a n : sm_rel m s -> out_bytes (sm_read m a n) = f_read s a n.
Proof.
  intros (Hs & Hwf & Hf). unfold sm_read, f_read, in_range. rewrite Hs.
  destruct ((a <? 0) || (f_size s <=? a)) eqn:E1.
  { replace ((0 <=? a) && (a <? f_size s) && (0 <=? n) && (a + n <=? f_size s)) with false by lia.
    reflexivity. }
  destruct (n <? 0) eqn:E2.
  { replace ((0 <=? a) && (a <? f_size s) && (0 <=? n) && (a + n <=? f_size s)) with false by lia.
    reflexivity. }
  destruct (f_size s <? a + n) eqn:E3.
  { replace ((0 <=? a) && (a <? f_size s) && (0 <=? n) && (a + n <=? f_size s)) with false by lia.
    reflexivity. }
  replace ((0 <=? a) && (a <? f_size s) && (0 <=? n) && (a + n <=? f_size s)) with true by lia.
  rewrite sm_read_loop_spec; auto; [| lia |].
  - cbn [out_bytes app]. f_equal. apply rd_feq; auto.
  - right. unfold sm_fuel. lia.
Qed.

Lemma sm_write_spec m s a d : sm_rel m s ->
  let '(m', r) := sm_write m a d in
  let '(s', r') := f_write s a d in
  sm_rel m' s' /\ out_unit r = r'.
Proof.
  intros Hrel. pose proof Hrel as (Hs & Hwf & Hf). unfold sm_write, f_write, in_range. rewrite Hs.
  pose proof (zlen_nonneg d).
  destruct ((a <? 0) || (f_size s <=? a)) eqn:E1.
  { replace ((0 <=? a) && (a <? f_size s) && (0 <=? zlen d) && (a + zlen d <=? f_size s))
      with false by lia. auto. }
  destruct (f_size s <? a + zlen d) eqn:E3.
  { replace ((0 <=? a) && (a <? f_size s) && (0 <=? zlen d) && (a + zlen d <=? f_size s))
      with false by lia. auto. }
  replace ((0 <=? a) && (a <? f_size s) && (0 <=? zlen d) && (a + zlen d <=? f_size s))
    with true by lia.
  pose proof (sm_write_loop_spec (sm_fuel (zlen d)) (sm_segs m) a d 0 (zlen d) Hwf
     ltac:(lia) ltac:(lia) ltac:(lia) ltac:(right; unfold sm_fuel; lia)) as HL.
  cbv zeta in HL. cbn [Z.to_nat skipn] in HL.
  destruct (sm_write_loop (sm_fuel (zlen d)) (sm_segs m) a d 0 (zlen d)) as [segs' r].
  destruct HL as [Hwf' HL].
  destruct (good_prefix d =? zlen d) eqn:EG; destruct HL as [-> HL]; split; auto;
    repeat split; auto; cbn [sm_segs f_mem];
    (eapply feq_trans; [exact HL|]; apply wr_feq; auto).
Qed.

Lemma slice_indices_spec size a b st :
  match slice_indices size a b st with
  | Err e => step_err size st = Some e
  | Ok (x, y) => step_err size st = None /\ x = py_bound size 0 a /\ y = py_bound size size b
                 /\ 0 <= x <= size /\ 0 <= y <= size
  end.
Proof.
  unfold slice_indices, step_err. destruct (size <? 0) eqn:Es; [reflexivity|].
  assert (HB : forall d i, 0 <= d <= size ->
     match i with None => d | Some i => slice_clamp size i end = py_bound size d i
     /\ 0 <= py_bound size d i <= size).
  { intros d [i|]; unfold py_bound, slice_clamp; intros Hd.
    - destruct (i <? 0) eqn:E; lia.
    - lia. }
  pose proof (HB 0 a ltac:(lia)) as [HA1 HA2]. pose proof (HB size b ltac:(lia)) as [HB1 HB2].
  destruct st as [[|p|p]|].
  - reflexivity.
  - destruct p; cbn [Z.eqb Pos.eqb]; [reflexivity|reflexivity|]; rewrite HA1, HB1; auto.
  - reflexivity.
  - rewrite HA1, HB1; auto.
Qed.

Lemma sm_step_spec m s o : sm_rel m s ->
  let '(m', r) := sm_step m o in
  let '(s', r') := f_step s o in
  sm_rel m' s' /\ r = r'.
Proof.
  intros Hrel. pose proof Hrel as (Hs & Hwf & Hf).
  destruct o as [a n|a d| |[i|a b st]|i v|a b st v]; cbn [sm_step f_step].
  - split; auto. now apply sm_read_spec.
  - pose proof (sm_write_spec m s a d Hrel).
    destruct (sm_write m a d), (f_write s a d); auto.
  - split; auto. unfold sm_clear. repeat split; cbn [sm_size sm_segs f_size f_mem]; auto.
    + intros k b H; discriminate.
    + intros x. apply segs_flat_nil.
  - split; auto. cbn [sm_getitem]. rewrite <- (sm_read_spec m s i 1 Hrel).
    pose proof (sm_read_spec m s i 1 Hrel) as HR. unfold f_read in HR.
    destruct (sm_read m i 1) as [d|e]; cbn [bind out_bytes] in *; auto.
    f_equal. destruct (in_range (f_size s) i 1); [|discriminate].
    inversion HR. apply firstn_all2. pose proof (rd_length (f_mem s) i 1). unfold zlen in H. lia.
  - pose proof (slice_indices_spec (f_size s) a b st) as HSI.
    cbn [sm_getitem]. rewrite Hs.
    destruct (slice_indices (f_size s) a b st) as [[x y]|e]; cbn [bind].
    + destruct HSI as (-> & -> & -> & _). split; auto. now apply sm_read_spec.
    + rewrite HSI. auto.
  - cbn [sm_setitem]. pose proof (sm_write_spec m s i [v] Hrel) as HW.
    destruct (sm_write m i [v]) as [m' r]. unfold f_write in HW.
    change (zlen [v]) with 1 in HW. cbn [good_prefix] in HW.
    destruct (in_range (f_size s) i 1) eqn:ER; cbn [andb].
    2:{ destruct HW as [? ?]. split; auto. }
    destruct (is_byteb v) eqn:Ev; cbn [Z.eqb Z.add Pos.eqb] in HW.
    { destruct HW as [? ?]. split; auto. }
    destruct HW as [(H1 & H2 & H3) H4]. split; auto.
    cbn [f_size f_mem] in *. repeat split; auto.
    eapply feq_trans; [exact H3|].
    replace (Z.max 0 ((i + 0) / 4096 * 4096 - i)) with 0 by lia. cbn [Z.to_nat firstn].
    apply wr_nil.
  - pose proof (slice_indices_spec (f_size s) a b st) as HSI.
    cbn [sm_setitem]. rewrite Hs.
    destruct (slice_indices (f_size s) a b st) as [[x y]|e].
    2:{ rewrite HSI. auto. }
    destruct HSI as (-> & Hx & Hy & Hxb & Hyb). rewrite <- Hx, <- Hy.
    pose proof (good_prefix_full v) as HG. pose proof (forallb_is_byteb v) as HB.
    pose proof (zlen_nonneg v).
    destruct (forallb is_byteb v) eqn:EB; cbn [negb].
    2:{ replace (good_prefix v =? zlen v) with false; [cbn; auto|].
        symmetry. apply Z.eqb_neq. intros C. apply HG in C. apply HB in C. discriminate. }
    assert (HGv : good_prefix v = zlen v) by (apply HG, HB; auto).
    rewrite HGv, Z.eqb_refl. cbn [negb]. rewrite (Z.eqb_sym (zlen v)).
    destruct (Z.eqb_spec (y - x) (zlen v)); cbn [negb]; [|auto].
    pose proof (sm_write_spec m s x v Hrel) as HW.
    destruct (sm_write m x v) as [m' r]. unfold f_write in HW.
    rewrite HGv, Z.eqb_refl in HW. unfold in_range in HW.
    destruct (x <? f_size s) eqn:EX.
    + replace ((0 <=? x) && true && (0 <=? zlen v) && (x + zlen v <=? f_size s)) with true in HW by lia.
      auto.
    + replace ((0 <=? x) && false && (0 <=? zlen v) && (x + zlen v <=? f_size s)) with false in HW by lia.
      auto.
Qed.

Lemma sm_run_spec ops : forall m s, sm_rel m s ->
  let '(m', rs) := sm_run m ops in
  let '(s', rs') := f_run s ops in
  sm_rel m' s' /\ rs = rs'.
Proof.
  induction ops as [|o ops IH]; intros m s Hrel; cbn [sm_run f_run]; auto.
  pose proof (sm_step_spec m s o Hrel) as H1.
  destruct (sm_step m o) as [m1 r]. destruct (f_step s o) as [s1 r'].
  destruct H1 as [H1 ->]. specialize (IH m1 s1 H1).
  destruct (sm_run m1 ops), (f_run s1 ops). destruct IH as [H2 ->]. auto.
Qed.
