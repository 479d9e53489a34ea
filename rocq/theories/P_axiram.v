(** The AxiRam target, and lemmas about [put] through an address translation. *)
From Coq Require Import ZArith Lia List Bool.
From Coq Require Import ZifyBool ZifyNat.
From Verif Require Import Py S_flat M_sparse S_sparse P_sparse M_memory P_memory M_axi S_axi P_axi P_axislave.
Import ListNotations.
Open Scope Z_scope.

Lemma addressed_cons a b d : addressed a (b :: d) = (a, b) :: addressed (a + 1) d.
Proof.
  unfold addressed. rewrite zlen_cons. pose proof (zlen_nonneg d). rewrite zrange_cons by lia.
  cbn [combine]. do 3 f_equal. lia.
Qed.

Lemma put_shift phi d : forall f a b, (forall i, 0 <= i < zlen d -> phi (a + i) = b + i) ->
  put phi f (addressed a d) =f wr f b d.
Proof.
  induction d as [|x d IH]; intros f a b H.
  - rewrite addressed_nil. cbn [put]. apply feq_sym, wr_nil.
  - rewrite addressed_cons. cbn [put]. rewrite zlen_cons in H. pose proof (zlen_nonneg d).
    eapply feq_trans; [apply (IH _ _ (b + 1)); intros i Hi; specialize (H (1 + i) ltac:(lia));
                       replace (a + 1 + i) with (a + (1 + i)) by lia; lia|].
    eapply feq_trans; [|apply feq_sym, wr_cons]. apply wr_feq.
    specialize (H 0 ltac:(lia)). rewrite !Z.add_0_r in H. rewrite H.
    intros y. unfold upd, wr. change (zlen [x]) with 1.
    destruct (Z.eqb_spec y b) as [->|].
    + replace ((b <=? b) && (b <? b + 1)) with true by lia. now rewrite Z.sub_diag.
    + now replace ((b <=? y) && (y <? b + 1)) with false by lia.
Qed.

Lemma put_miss phi d : forall f a x, (forall i, 0 <= i < zlen d -> x <> phi (a + i)) ->
  put phi f (addressed a d) x = f x.
Proof.
  induction d as [|b d IH]; intros f a x H; [now rewrite addressed_nil|].
  rewrite addressed_cons. cbn [put]. rewrite zlen_cons in H. pose proof (zlen_nonneg d).
  rewrite IH.
  - unfold upd. specialize (H 0 ltac:(lia)). rewrite Z.add_0_r in H.
    now replace (x =? phi a) with false by lia.
  - intros i Hi. specialize (H (1 + i) ltac:(lia)). now replace (a + 1 + i) with (a + (1 + i)) by lia.
Qed.

Lemma put_hit phi d : forall f a i,
  (forall j k, 0 <= j < zlen d -> 0 <= k < zlen d -> phi (a + j) = phi (a + k) -> j = k) ->
  0 <= i < zlen d -> put phi f (addressed a d) (phi (a + i)) = znth 0 d i.
Proof.
  induction d as [|b d IH]; intros f a i Hinj Hi; [cbn in Hi; lia|].
  rewrite addressed_cons. cbn [put]. rewrite zlen_cons in Hinj, Hi. pose proof (zlen_nonneg d).
  destruct (Z.eq_dec i 0) as [->|Hne].
  - rewrite Z.add_0_r. rewrite put_miss.
    + unfold upd. now rewrite Z.eqb_refl, znth_cons0.
    + intros j Hj E. specialize (Hinj 0 (1 + j) ltac:(lia) ltac:(lia)). rewrite Z.add_0_r in Hinj.
      replace (a + (1 + j)) with (a + 1 + j) in Hinj by lia. specialize (Hinj E). lia.
  - replace (a + i) with (a + 1 + (i - 1)) by lia. rewrite IH.
    + rewrite znth_cons by lia. reflexivity.
    + intros j k Hj Hk E. specialize (Hinj (1 + j) (1 + k) ltac:(lia) ltac:(lia)).
      replace (a + (1 + j)) with (a + 1 + j) in Hinj by lia.
      replace (a + (1 + k)) with (a + 1 + k) in Hinj by lia. specialize (Hinj E). lia.
    + lia.
Qed.

Lemma put_last phi f a d i : 0 <= i < zlen d ->
  (forall j, i < j < zlen d -> phi (a + j) <> phi (a + i)) ->
  put phi f (addressed a d) (phi (a + i)) = znth 0 d i.
Proof.
  intros Hi Hj. rewrite <- (firstn_skipn (S (Z.to_nat i)) d).
  set (d1 := firstn _ d). set (d2 := skipn _ d).
  assert (H1 : zlen d1 = i + 1) by (unfold d1, zlen in *; rewrite firstn_length; lia).
  assert (H2 : zlen d2 = zlen d - (i + 1)) by (unfold d2, zlen in *; rewrite skipn_length; lia).
  rewrite addressed_app, put_app, put_miss.
  - rewrite znth_app1 by lia.
    assert (E : d1 = firstn (Z.to_nat i) d ++ [znth 0 d1 i]).
    { apply (nth_ext_z 0).
      - rewrite zlen_app, H1. unfold zlen. rewrite firstn_length. cbn [length]. unfold zlen in Hi. lia.
      - intros j Hj'. rewrite H1 in Hj'.
        assert (Hf : zlen (firstn (Z.to_nat i) d) = i) by (unfold zlen in *; rewrite firstn_length; lia).
        destruct (Z.eq_dec j i) as [->|Hne].
        + rewrite znth_app2 by lia. rewrite Hf, Z.sub_diag, znth_cons0. reflexivity.
        + rewrite znth_app1 by lia. unfold d1, znth. rewrite !nth_firstn by lia. reflexivity. }
    rewrite E at 1. rewrite addressed_app, put_app.
    assert (Hf : zlen (firstn (Z.to_nat i) d) = i) by (unfold zlen in *; rewrite firstn_length; lia).
    rewrite Hf, addressed_cons, addressed_nil. cbn [put]. unfold upd. now rewrite Z.eqb_refl.
  - intros j Hj' E. rewrite H2 in Hj'. rewrite H1 in E.
    apply (Hj (i + 1 + j) ltac:(lia)). rewrite E. f_equal. lia.
Qed.

(** ** the memory behind an AxiRam *)
Lemma peek_out size m x : sm_reachable size m -> ~ (0 <= x < size) -> peek m x = 0.
Proof.
  intros Hr Hx. destruct (sm_reachable_rel _ _ Hr) as (s & Hrel & Hsz). unfold peek.
  pose proof (sm_read_spec m s x 1 Hrel) as H. unfold f_read, S_sparse.in_range in H. rewrite Hsz in H.
  replace ((0 <=? x) && (x <? size) && (0 <=? 1) && (x + 1 <=? size)) with false in H by lia.
  destruct (sm_read m x 1); cbn [out_bytes] in H; congruence.
Qed.

Lemma f_step_bytes s o : (forall x, is_byte (f_mem s x)) -> forall x, is_byte (f_mem (fst (f_step s o)) x).
Proof.
  intros H. assert (H0 : is_byte 0) by (unfold is_byte; lia).
  destruct o as [a n|a d| |[i|a b st]|i v|a b st v]; cbn [f_step]; auto.
  - unfold f_write. destruct (S_sparse.in_range (f_size s) a (zlen d)); auto.
    destruct (Z.eqb_spec (good_prefix d) (zlen d)) as [E|E]; cbn [fst f_mem]; intros x.
    + apply wr_is_byte; auto. now apply good_prefix_full.
    + apply wr_is_byte; auto. pose proof (good_prefix_bounds d).
      apply forallb_is_byteb. apply good_prefix_firstn; [lia|].
      pose proof (Z.mod_pos_bound (a + good_prefix d) 4096 ltac:(lia)).
      pose proof (Z.div_mod (a + good_prefix d) 4096 ltac:(lia)). lia.
  - destruct (step_err (f_size s) st); auto.
  - destruct (S_sparse.in_range (f_size s) i 1); cbn [andb]; auto.
    destruct (is_byteb v) eqn:E; auto. cbn [fst f_mem]. intros x. apply wr_is_byte; auto.
    constructor; [|constructor]. unfold is_byteb in E. unfold is_byte. lia.
  - destruct (step_err (f_size s) st); auto.
    destruct (Z.eqb_spec (good_prefix v) (zlen v)) as [E|E]; cbn [negb]; auto.
    destruct (zlen v =? _); cbn [negb]; auto. destruct (_ <? f_size s); auto.
    cbn [fst f_mem]. intros x. apply wr_is_byte; auto. now apply good_prefix_full.
Qed.

Lemma f_run_bytes ops : forall s, (forall x, is_byte (f_mem s x)) ->
  forall x, is_byte (f_mem (fst (f_run s ops)) x).
Proof.
  induction ops as [|o ops IH]; intros s H; cbn [f_run]; auto.
  pose proof (f_step_bytes s o H) as H1. destruct (f_step s o) as [s1 r]. cbn [fst] in H1.
  specialize (IH s1 H1). destruct (f_run s1 ops). exact IH.
Qed.

Lemma peek_byte size m x : sm_reachable size m -> is_byte (peek m x).
Proof.
  intros Hr. assert (Hb : exists s, sm_rel m s /\ forall x, is_byte (f_mem s x)).
  { destruct Hr as [ops ->]. pose proof (sm_run_spec ops _ _ (sm_rel_init size)) as H.
    pose proof (f_run_bytes ops (f_init size)) as Hb.
    destruct (sm_run (sm_init size) ops) as [m rs]. destruct (f_run (f_init size) ops) as [s rs'].
    destruct H as [H _]. exists s. split; [exact H|]. apply Hb. intros y. cbn. unfold is_byte. lia. }
  destruct Hb as (s & Hrel & Hb).
  assert (Hsz : f_size s = size).
  { destruct (sm_reachable_rel _ _ Hr) as (s' & (H1 & _) & H2). destruct Hrel as (H3 & _). lia. }
  destruct (Z_lt_le_dec x 0); [rewrite (peek_out size) by (auto; lia); unfold is_byte; lia|].
  destruct (Z_lt_le_dec x size); [|rewrite (peek_out size) by (auto; lia); unfold is_byte; lia].
  rewrite (peek_rel m s) by (auto; lia). apply Hb.
Qed.

Lemma mem_write_peek size m a d : sm_reachable size m -> 0 <= a -> a < size -> a + zlen d <= size -> are_bytes d ->
  exists m', mem_write m a d = (m', Ok tt) /\ sm_reachable size m' /\ peek m' =f wr (peek m) a d.
Proof.
  intros Hr Ha Ha2 Hd Hb. destruct (sm_reachable_rel _ _ Hr) as (s & Hrel & Hsz).
  destruct (mem_write_rel m s a d Hrel ltac:(lia) ltac:(lia) Hb) as (m' & E & Hrel').
  exists m'. split; [exact E|].
  assert (Hr' : sm_reachable size m').
  { pose proof (sm_setitem_reachable size m (Some a) (Some (a + zlen d)) None d Hr) as H.
    unfold mem_write in E. rewrite E in H. exact H. }
  split; [exact Hr'|]. intros x.
  destruct (Z_lt_le_dec x 0) as [|H0].
  { rewrite (peek_out size m') by (auto; lia). rewrite wr_outside by lia.
    symmetry. apply (peek_out size); auto; lia. }
  destruct (Z_lt_le_dec x size).
  - rewrite (peek_rel m' _ x Hrel') by (cbn [f_size]; lia). cbn [f_mem].
    unfold wr. destruct ((a <=? x) && (x <? a + zlen d)); auto.
    symmetry. apply peek_rel; auto. lia.
  - rewrite (peek_out size m') by (auto; lia). rewrite wr_outside by lia.
    symmetry. apply (peek_out size); auto; lia.
Qed.

Lemma mod_word size L a x : 0 < L -> 0 < size -> size mod L = 0 -> down L a = down L x -> a <= x ->
  x mod size = a mod size + (x - a).
Proof.
  intros HL Hs Hm Hd Hax.
  pose proof (Z.div_mod size L ltac:(lia)) as Hq. rewrite Hm, Z.add_0_r in Hq.
  set (q := size / L) in *. assert (0 < q) by nia.
  set (w := a / L). assert (Ha : L * w <= a < L * w + L).
  { pose proof (Z.div_mod a L ltac:(lia)). pose proof (Z.mod_pos_bound a L HL). unfold w. lia. }
  assert (Hx : L * w <= x < L * w + L).
  { rewrite !down_eq in Hd by lia. fold w in Hd.
    pose proof (Z.div_mod x L ltac:(lia)). pose proof (Z.mod_pos_bound x L HL). lia. }
  rewrite Hq.
  destruct (mod_within L q w a HL ltac:(lia) Ha) as (-> & _).
  destruct (mod_within L q w x HL ltac:(lia) Hx) as (-> & _). lia.
Qed.

Lemma ram_flat L size lo hi : 0 < L -> 0 < size -> size mod L = 0 ->
  flat_target L lo hi (fun x => x mod size) (sm_reachable size) peek ram_write ram_read.
Proof.
  intros HL Hs Hm. split.
  - intros t a d Hr Hb Hd _ _ Hw. unfold ram_write.
    assert (sm_size t = size) as ->.
    { destruct (sm_reachable_rel _ _ Hr) as (s & (Hsz & _) & Hs'). lia. }
    assert (Hin : forall i, 0 <= i < zlen d -> (a + i) mod size = a mod size + i).
    { intros i Hi. rewrite (mod_word size L a (a + i)); auto; try lia.
      destruct (Z.eq_dec i (zlen d - 1)) as [->|].
      - rewrite Hw. f_equal. lia.
      - rewrite !down_eq in Hw |- * by lia. f_equal.
        assert (a / L <= (a + i) / L) by (apply Z.div_le_mono; lia).
        assert ((a + i) / L <= (a + zlen d - 1) / L) by (apply Z.div_le_mono; lia). nia. }
    pose proof (Z.mod_pos_bound a size Hs) as Hma.
    pose proof (Z.mod_pos_bound (a + (zlen d - 1)) size Hs) as Hmb.
    rewrite Hin in Hmb by lia.
    destruct (mem_write_peek size t (a mod size) d Hr ltac:(lia) ltac:(lia) ltac:(lia) Hb) as (m' & E & Hr' & Hp).
    exists m'. split; [exact E|]. split; [exact Hr'|].
    eapply feq_trans; [exact Hp|]. apply feq_sym, put_shift. exact Hin.
  - intros t a Hr _ _ Ha. exists t. unfold ram_read.
    assert (sm_size t = size) as ->.
    { destruct (sm_reachable_rel _ _ Hr) as (s & (Hsz & _) & Hs'). lia. }
    pose proof (Z.mod_pos_bound a size Hs) as Hma.
    assert (Hin : forall i, 0 <= i < L -> (a + i) mod size = a mod size + i).
    { intros i Hi. rewrite (mod_word size L a (a + i)); auto; try lia.
      pose proof (Z.div_mod a L ltac:(lia)) as Hd.
      rewrite !down_eq by lia. f_equal. apply (Z.div_unique _ L _ i); lia. }
    pose proof (Z.mod_pos_bound (a + (L - 1)) size Hs) as Hmb.
    rewrite Hin in Hmb by lia.
    rewrite (mem_read_api size) by (auto; lia). split; [|split; [exact Hr|apply feq_refl]].
    do 2 f_equal. replace (Z.min (a mod size + L) size) with (a mod size + L) by lia.
    apply (nth_ext_z 0); rewrite ?zlen_map, ?zlen_zrange; [lia|]. intros i Hi.
    rewrite !(znth_map _ 0) by (rewrite zlen_zrange; lia).
    unfold zrange. rewrite !znth_zseq by lia. rewrite Hin by lia. reflexivity.
  - intros t x Hr. now apply (peek_byte size).
Qed.
