From Coq Require Import ZArith Lia List Bool.
From Coq Require Import ZifyBool ZifyNat.
From Verif Require Import Py S_flat M_sparse S_sparse P_sparse M_memory P_memory M_hexdump S_hexdump.
Import ListNotations.
Open Scope Z_scope.
Ltac Zify.zify_post_hook ::= Z.div_mod_to_equations.

Lemma unhex_hexd d : 0 <= d < 16 -> unhex (hexd d) = d.
Proof.
  intros. unfold unhex, hexd. destruct (d <? 10) eqn:E.
  - replace (48 + d <=? 57) with true by lia. lia.
  - replace (87 + d <=? 57) with false by lia. lia.
Qed.

Lemma hexd_range d : 0 <= d < 16 -> 48 <= hexd d <= 57 \/ 97 <= hexd d <= 102.
Proof. intros. unfold hexd. destruct (d <? 10) eqn:E; lia. Qed.

Lemma hexw_length w : forall n, length (hexw w n) = w.
Proof. induction w; intros; cbn [hexw]; auto. rewrite app_length, IHw. cbn. lia. Qed.

Lemma from_hex_app l c : from_hex (l ++ [c]) = 16 * from_hex l + unhex c.
Proof. unfold from_hex. rewrite fold_left_app. reflexivity. Qed.

Lemma from_hexw w : forall n, 0 <= n < 16 ^ Z.of_nat w -> from_hex (hexw w n) = n.
Proof.
  induction w; intros n Hn; cbn [hexw].
  - change (16 ^ Z.of_nat 0) with 1 in Hn. cbn. lia.
  - rewrite from_hex_app. rewrite Nat2Z.inj_succ, Z.pow_succ_r in Hn by lia.
    rewrite IHw by lia. rewrite unhex_hexd by lia. lia.
Qed.

Lemma hexw_chars w : forall n, Forall (fun c => 48 <= c <= 57 \/ 97 <= c <= 102) (hexw w n).
Proof.
  induction w; intros n; cbn [hexw]; [constructor|].
  apply Forall_app. split; [apply IHw|]. constructor; [|constructor]. apply hexd_range. lia.
Qed.

Lemma hexpad_value w n : 0 <= n -> from_hex (hexpad w n) = n.
Proof.
  intros Hn. unfold hexpad. apply from_hexw. split; [lia|].
  set (m := if n =? 0 then 1 else Z.log2 n / 4 + 1).
  assert (Hm : 1 <= m).
  { unfold m. destruct (n =? 0); [lia|]. pose proof (Z.log2_nonneg n). lia. }
  rewrite Z2Nat.id by lia.
  apply Z.lt_le_trans with (16 ^ m).
  - unfold m. destruct (Z.eqb_spec n 0); [subst; reflexivity|].
    change 16 with (2 ^ 4). pose proof (Z.log2_nonneg n).
    rewrite <- Z.pow_mul_r by lia.
    pose proof (Z.log2_spec n ltac:(lia)). unfold Z.succ in *.
    apply Z.lt_le_trans with (2 ^ (Z.log2 n + 1)); [lia|].
    apply Z.pow_le_mono_r; lia.
  - apply Z.pow_le_mono_r; lia.
Qed.

Lemma hexpad2_byte b : is_byte b -> hexpad 2 b = [hexd (b / 16); hexd (b mod 16)].
Proof.
  intros Hb. unfold is_byte in Hb. unfold hexpad.
  assert (H : Z.max 2 (if b =? 0 then 1 else Z.log2 b / 4 + 1) = 2).
  { destruct (Z.eqb_spec b 0); [reflexivity|].
    assert (Z.log2 b < 8) by (apply Z.log2_lt_pow2; lia). pose proof (Z.log2_nonneg b). lia. }
  rewrite H. change (Z.to_nat 2) with 2%nat. cbn [hexw app].
  replace ((b / 16) mod 16) with (b / 16) by lia. reflexivity.
Qed.

Lemma split_colon_app a b : Forall (fun c => c <> 58) a -> split_colon (a ++ 58 :: b) = (a, b).
Proof.
  induction 1; cbn [app split_colon]; auto.
  replace (x =? 58) with false by lia. now rewrite IHForall.
Qed.

Lemma groups_length d : are_bytes d ->
  zlen (concat (map (fun ch => hexpad 2 ch ++ [32]) d)) = 3 * zlen d.
Proof.
  induction 1; cbn [map concat]; [reflexivity|].
  rewrite zlen_app, IHForall, zlen_cons, hexpad2_byte by auto. cbn [app]. unfold zlen at 1. cbn [length]. lia.
Qed.

Lemma read_groups_spec d : forall n rest, are_bytes d -> (length d <= n)%nat ->
  (length d = n \/ exists r, rest = 32 :: r) ->
  read_groups n (concat (map (fun ch => hexpad 2 ch ++ [32]) d) ++ rest) = d.
Proof.
  induction d as [|b d IH]; intros n rest Hb Hn Hr; cbn [map concat app].
  - destruct n; [now destruct rest|]. destruct Hr as [Hr|[r ->]]; [cbn in Hr; lia|].
    cbn [read_groups]. destruct r as [|? [|? ?]]; auto.
  - inversion Hb as [|? ? Hb1 Hb2]; subst. rewrite hexpad2_byte by auto.
    destruct n; cbn [length] in *; [lia|]. cbn [app read_groups].
    unfold is_byte in Hb1.
    pose proof (hexd_range (b / 16) ltac:(lia)).
    replace (hexd (b / 16) =? 32) with false by lia.
    rewrite !unhex_hexd by lia. rewrite IH; auto; try lia.
    + f_equal. lia.
    + destruct Hr as [Hr|Hr]; [left; lia|auto].
Qed.

Lemma printable_shown d : map printable d = map shown d.
Proof.
  apply map_ext. intros c. unfold printable, shown.
  destruct (Z.leb_spec c 32), (Z.leb_spec 127 c), (Z.ltb_spec 32 c), (Z.ltb_spec c 127); cbn; lia.
Qed.

Lemma hexdump_line_spec d off row :
  are_bytes d -> 0 <= off -> 0 < row -> zlen d <= row ->
  line_label (hexdump_line d off row) = off /\
  line_bytes row (hexdump_line d off row) = d /\
  line_text row (hexdump_line d off row) = map printable d.
Proof.
  intros Hd Hoff Hrow Hlen. unfold hexdump_line. rewrite zslice_all by auto. cbn [app].
  assert (Hc : Forall (fun c => c <> 58) (hexpad 8 off)).
  { eapply Forall_impl; [|apply hexw_chars]. cbn. intros; lia. }
  unfold line_label, line_bytes, line_text. rewrite split_colon_app by auto. cbn [fst snd].
  pose proof (groups_length d Hd) as HG. set (g := concat _) in *.
  split; [apply hexpad_value; auto|]. split.
  - cbn [skipn]. unfold pad_right. rewrite <- app_assoc. unfold g. apply read_groups_spec; auto.
    + unfold zlen in *. lia.
    + destruct (Z.eq_dec (zlen d) row); [left; unfold zlen in *; lia|right].
      rewrite groups_length by auto. replace (Z.to_nat (row * 3 - 3 * zlen d)) with
        (S (Z.to_nat (row * 3 - 3 * zlen d - 1))) by lia. cbn [repeat app]. eauto.
  - replace (Z.to_nat (2 + 3 * row)) with (S (Z.to_nat (1 + 3 * row))) by lia. cbn [skipn].
    change (32 :: map printable d) with ([32] ++ map printable d). rewrite app_assoc.
    rewrite skipn_app. rewrite skipn_all2.
    2:{ rewrite app_length. unfold pad_right. rewrite app_length, repeat_length. cbn [length].
        unfold zlen in *. lia. }
    cbn [app]. rewrite app_length. unfold pad_right. rewrite app_length, repeat_length. cbn [length].
    replace (Z.to_nat (1 + 3 * row) - _)%nat with O by (unfold zlen in *; lia). reflexivity.
Qed.

Lemma map_res_ok {A B} (f : A -> res B) (g : A -> B) l :
  (forall a, In a l -> f a = Ok (g a)) -> map_res f l = Ok (map g l).
Proof.
  induction l; intros H; cbn [map_res map]; auto.
  rewrite H by now left. cbn [bind]. rewrite IHl by (intros; apply H; now right). reflexivity.
Qed.

Lemma concat_rows (data : list Z) start n row : 0 <= start -> 0 <= n -> 0 < row ->
  forall m, Z.of_nat m * row < n + row ->
  concat (map (fun i => zslice data (start + i * row) (Z.min (start + i * row + row) (start + n)))
              (zseq 0 m))
  = zslice data start (Z.min (start + Z.of_nat m * row) (start + n)).
Proof.
  intros Hs Hn Hrow. induction m; intros Hm.
  - cbn [zseq map concat]. rewrite zslice_empty by lia. reflexivity.
  - replace (S m) with (m + 1)%nat by lia. rewrite zseq_app, map_app, concat_app.
    rewrite Nat2Z.inj_succ in *. unfold Z.succ in *. rewrite IHm by nia.
    cbn [zseq map concat]. rewrite app_nil_r. rewrite Z.add_0_l.
    set (k := Z.of_nat m) in *.
    assert (k * row <= n) by nia.
    replace (Z.min (start + k * row) (start + n)) with (start + k * row) by lia.
    replace (start + (k + 1) * row) with (start + k * row + row) by lia.
    assert (0 <= k * row) by nia.
    rewrite <- zslice_split by lia. f_equal. lia.
Qed.

(** number of bytes actually requested *)
Definition requested (len start : Z) (length : option Z) : Z :=
  match length with
  | None => Z.max 0 (len - start)
  | Some l => Z.max 0 (Z.min l (len - start))
  end.

Lemma hexdump_lines_spec slice (data : list Z) start length row prefix offset :
  are_bytes data -> 0 <= start -> 0 < row -> 0 <= offset -> length <> Some 0 ->
  (forall a b, start <= a < b -> b <= zlen data -> slice a b = Ok (zslice data a b)) ->
  let n := requested (zlen data) start length in
  exists lines,
    hexdump_lines slice (Ok (zlen data)) start length row prefix offset = Ok (map (app prefix) lines) /\
    zlen lines = (n + row - 1) / row /\
    concat (map (line_bytes row) lines) = zslice data start (start + n) /\
    concat (map (line_text row) lines) = map printable (zslice data start (start + n)) /\
    (forall i, 0 <= i < zlen lines -> line_label (znth [] lines i) = offset + start + i * row).
Proof.
  intros Hd Hs Hrow Hoff Hl0 Hsl n.
  assert (Hn : 0 <= n) by (unfold n, requested; destruct length; lia).
  set (stop := match length with None => zlen data
               | Some l => if l =? 0 then zlen data else Z.min (start + l) (zlen data) end).
  assert (Hstop : stop = start + n \/ (n = 0 /\ stop <= start)).
  { unfold stop, n, requested. destruct length as [l|].
    - destruct (Z.eqb_spec l 0); [congruence|]. lia.
    - lia. }
  set (m := Z.to_nat ((n + row - 1) / row)).
  assert (HM : range_step start stop row = map (fun i => start + i * row) (zseq 0 m)).
  { unfold range_step, zrange. rewrite Z.sub_0_r. f_equal. f_equal. unfold m.
    destruct Hstop as [->|[-> Hle]].
    - f_equal. f_equal. lia.
    - assert (H1 : (stop - start + row - 1) / row <= 0).
      { apply Z.lt_succ_r. apply Z.div_lt_upper_bound; lia. }
      assert (H2 : (0 + row - 1) / row = 0) by (apply Z.div_small; lia).
      rewrite H2. clear H2. revert H1. generalize ((stop - start + row - 1) / row). intros; lia. }
  assert (Hm : Z.of_nat m * row < n + row /\ n <= Z.of_nat m * row).
  { assert (0 <= (n + row - 1) / row) by (apply Z.div_pos; lia).
    unfold m. rewrite Z2Nat.id by lia. pose proof (Z.div_mod (n + row - 1) row ltac:(lia)).
    pose proof (Z.mod_pos_bound (n + row - 1) row ltac:(lia)). nia. }
  set (rowd := fun i => zslice data (start + i * row) (Z.min (start + i * row + row) (start + n))).
  set (lines := map (fun i => hexdump_line (rowd i) (start + i * row + offset) row) (zseq 0 m)).
  assert (Hle : n = 0 \/ start + n <= zlen data).
  { unfold n, requested. destruct length; lia. }
  assert (Hrow_i : forall i, In i (zseq 0 m) ->
     0 <= i /\ start + i * row < start + n /\ stop = start + n).
  { intros i Hi. apply in_zseq in Hi. rewrite Z.add_0_l in Hi.
    assert (i * row < n).
    { assert (i <= Z.of_nat m - 1) by lia. nia. }
    repeat split; try lia. }
  assert (Hlsp : forall i, In i (zseq 0 m) ->
     let L := hexdump_line (rowd i) (start + i * row + offset) row in
     line_label L = start + i * row + offset /\ line_bytes row L = rowd i /\
     line_text row L = map printable (rowd i)).
  { intros i Hi. destruct (Hrow_i i Hi) as (Hi0 & Hi1 & Hi2). assert (0 <= i * row) by nia.
    apply hexdump_line_spec; try lia.
    - unfold rowd. now apply are_bytes_zslice.
    - unfold rowd. rewrite zslice_length by lia. lia. }
  exists lines. repeat split.
  - unfold hexdump_lines. cbn [bind]. fold stop. replace (row =? 0) with false by lia.
    rewrite HM. unfold lines. rewrite map_map.
    rewrite (map_res_ok _ (fun k => prefix ++ hexdump_line (zslice data k (Z.min (k + row) (start + n))) (k + offset) row)).
    + rewrite map_map. reflexivity.
    + intros k Hk. apply in_map_iff in Hk. destruct Hk as (i & <- & Hi).
      destruct (Hrow_i i Hi) as (Hi0 & Hi1 & ->). assert (0 <= i * row) by nia.
      rewrite Hsl by lia. reflexivity.
  - unfold lines. rewrite zlen_map. unfold zlen. rewrite zseq_length. unfold m.
    assert (0 <= (n + row - 1) / row) by (apply Z.div_pos; lia). lia.
  - unfold lines. rewrite map_map.
    rewrite (map_ext_in _ rowd) by (intros i Hi; apply (Hlsp i Hi)).
    unfold rowd. rewrite concat_rows by lia. f_equal. lia.
  - unfold lines. rewrite map_map.
    rewrite (map_ext_in _ (fun i => map printable (rowd i))) by (intros i Hi; apply (Hlsp i Hi)).
    rewrite <- (map_map rowd (map printable)). rewrite <- concat_map.
    unfold rowd. rewrite concat_rows by lia. do 2 f_equal. lia.
  - intros i Hi. unfold lines in *. rewrite zlen_map in Hi. unfold zlen in Hi. rewrite zseq_length in Hi.
    rewrite (znth_map _ 0) by (unfold zlen; rewrite zseq_length; lia).
    rewrite znth_zseq by lia. rewrite Z.add_0_l.
    destruct (Hlsp i) as (-> & _); [apply in_zseq; lia|]. lia.
Qed.

(** ** callers *)
Lemma peek_byte size m x : sm_reachable size m -> is_byte (peek m x).
Proof.
  intros Hr. destruct Hr as [ops ->].
  pose proof (sm_run_spec ops _ _ (sm_rel_init size)) as H.
  assert (HB : forall ops s, (forall y, is_byte (f_mem s y)) -> forall y, is_byte (f_mem (fst (f_run s ops)) y)).
  { clear. induction ops as [|o ops IH]; intros s Hs y; cbn [f_run]; auto.
    assert (H1 : forall y, is_byte (f_mem (fst (f_step s o)) y)).
    { assert (GP : forall k d, k <= good_prefix d -> are_bytes (firstn (Z.to_nat k) d)).
      { intros k d Hk. apply forallb_is_byteb. pose proof (good_prefix_bounds d).
        destruct (Z_le_dec 0 k).
        - apply good_prefix_firstn; lia.
        - replace (Z.to_nat k) with O by lia. reflexivity. }
      assert (GF : forall d, good_prefix d = zlen d -> are_bytes d) by (intros; now apply good_prefix_full).
      intros z. destruct o as [a n|a d| |[i|a b st]|i v|a b st v]; cbn [f_step]; auto.
      - unfold f_write. destruct (in_range _ _ _); cbn [fst f_mem]; auto.
        destruct (Z.eqb_spec (good_prefix d) (zlen d)); cbn [fst f_mem]; apply wr_is_byte; auto.
        apply GP. pose proof (good_prefix_bounds d). lia.
      - cbn. unfold is_byte. lia.
      - destruct (step_err _ _); auto.
      - destruct (in_range _ _ _ && is_byteb v) eqn:E; cbn [fst f_mem]; auto.
        apply wr_is_byte; auto. constructor; [|constructor]. unfold is_byteb, is_byte in *. lia.
      - destruct (step_err _ _); auto.
        destruct (Z.eqb_spec (good_prefix v) (zlen v)); cbn [negb]; auto.
        destruct (_ =? _); cbn [negb]; auto. destruct (_ <? _); cbn [fst f_mem]; auto.
        apply wr_is_byte; auto. }
    destruct (f_step s o) as [s1 r]. cbn [fst] in H1. specialize (IH s1 H1 y).
    destruct (f_run s1 ops). exact IH. }
  specialize (HB ops (f_init size) ltac:(cbn; unfold is_byte; lia)).
  destruct (sm_run (sm_init size) ops) as [m rs]. destruct (f_run (f_init size) ops) as [s rs'].
  destruct H as [H _]. cbn [fst] in *.
  unfold peek. pose proof (sm_read_spec m s x 1 H) as HR. unfold f_read in HR.
  destruct (in_range (f_size s) x 1).
  - destruct (sm_read m x 1) as [l|e]; cbn [out_bytes] in HR; [|discriminate].
    inversion HR; subst. rewrite rd_cons by lia. apply HB.
  - destruct (sm_read m x 1) as [l|e]; cbn [out_bytes] in HR; [discriminate|]. unfold is_byte; lia.
Qed.

Lemma sm_read_peek size m a n : sm_reachable size m -> 0 <= a < size -> 0 <= n -> a + n <= size ->
  sm_read m a n = Ok (map (peek m) (zrange a (a + n))).
Proof.
  intros Hr Ha Hn Hs. destruct (sm_reachable_rel _ _ Hr) as (s & Hrel & Hsz).
  pose proof (sm_read_spec m s a n Hrel) as H. unfold f_read, in_range in H. rewrite Hsz in H.
  replace ((0 <=? a) && (a <? size) && (0 <=? n) && (a + n <=? size)) with true in H by lia.
  destruct (sm_read m a n) as [l|e]; cbn [out_bytes] in H; [|discriminate]. inversion H.
  f_equal. unfold rd. apply map_ext_in. intros x Hx. apply in_zrange in Hx. symmetry.
  apply peek_rel; auto. lia.
Qed.

Lemma are_bytes_peek size m l : sm_reachable size m -> are_bytes (map (peek m) l).
Proof.
  intros. apply Forall_forall. intros y Hy. apply in_map_iff in Hy. destruct Hy as (x & <- & _).
  eapply peek_byte; eauto.
Qed.

Lemma zlen_sm_size size m : sm_reachable size m -> sm_size m = size.
Proof.
  intros H. destruct (sm_reachable_rel _ _ H) as (s & (Hs & _) & Hz). congruence.
Qed.

Lemma zslice_map_peek m size a b : 0 <= a <= b -> b <= size ->
  zslice (map (peek m) (zrange 0 size)) a b = map (peek m) (zrange a b).
Proof.
  intros. apply (nth_ext_z 0).
  - rewrite zslice_length; rewrite ?zlen_map, ?zlen_zrange; lia.
  - rewrite zslice_length by (rewrite ?zlen_map, ?zlen_zrange; lia). intros i Hi.
    rewrite znth_zslice by lia.
    rewrite !(znth_map _ 0) by (rewrite zlen_zrange; lia).
    unfold zrange. rewrite !znth_zseq by lia. reflexivity.
Qed.

Lemma sm_hexdump_spec size m a n prefix :
  sm_reachable size m -> 0 <= a < size -> 0 <= n -> a + n <= size ->
  exists lines,
    sm_hexdump_lines m a n prefix = Ok (map (app prefix) lines) /\
    zlen lines = (n + 15) / 16 /\
    concat (map (line_bytes 16) lines) = map (peek m) (zrange a (a + n)) /\
    concat (map (line_text 16) lines) = map shown (map (peek m) (zrange a (a + n))) /\
    (forall i, 0 <= i < zlen lines -> line_label (znth [] lines i) = a + 16 * i).
Proof.
  intros Hr Ha Hn Hs. unfold sm_hexdump_lines. rewrite (sm_read_peek size) by auto. cbn [bind].
  set (d := map (peek m) (zrange a (a + n))).
  assert (Hd : zlen d = n) by (unfold d; rewrite zlen_map, zlen_zrange; lia).
  destruct (hexdump_lines_spec (fun x y => Ok (zslice d x y)) d 0 None 16 prefix a)
    as (lines & E & Hlen & Hb & Ht & Hlab); try lia.
  - unfold d. eapply are_bytes_peek; eauto.
  - discriminate.
  - auto.
  - unfold bytes_hexdump_lines. exists lines. unfold requested in *. rewrite Hd in *.
    rewrite E. replace (Z.max 0 (n - 0)) with n in * by lia.
    split; [reflexivity|]. split; [rewrite Hlen; f_equal; lia|]. split.
    + rewrite Hb. rewrite Z.add_0_l. rewrite zslice_all by lia. reflexivity.
    + split. { rewrite Ht, printable_shown. rewrite Z.add_0_l. rewrite zslice_all by lia. reflexivity. }
      intros i Hi. rewrite Hlab by auto. lia.
Qed.

Lemma mem_hexdump_spec size m a n prefix :
  sm_reachable size m -> size < 2 ^ 63 -> 0 <= a < size -> 0 < n ->
  let e := Z.min (a + n) size in
  exists lines,
    mem_hexdump_lines m a n prefix = Ok (map (app prefix) lines) /\
    zlen lines = (e - a + 15) / 16 /\
    concat (map (line_bytes 16) lines) = map (peek m) (zrange a e) /\
    concat (map (line_text 16) lines) = map shown (map (peek m) (zrange a e)) /\
    (forall i, 0 <= i < zlen lines -> line_label (znth [] lines i) = a + 16 * i).
Proof.
  intros Hr Hbig Ha Hn e. unfold mem_hexdump_lines, sm_len, py_len.
  rewrite (zlen_sm_size size) by auto.
  replace (size <? 0) with false by lia. replace (size <? 2 ^ 63) with true by lia.
  set (d := map (peek m) (zrange 0 size)).
  assert (Hd : zlen d = size) by (unfold d; rewrite zlen_map, zlen_zrange; lia).
  destruct (hexdump_lines_spec
     (fun x y => sm_getitem m (KSlice (Some x) (Some y) None)) d a (Some n) 16 prefix 0)
    as (lines & E & Hlen & Hb & Ht & Hlab); try lia.
  - unfold d. eapply are_bytes_peek; eauto.
  - intros C; inversion C; lia.
  - intros x y Hx Hy. rewrite (sm_getitem_slice m size) by (auto; lia).
    unfold py_bound. replace (x <? 0) with false by lia. replace (y <? 0) with false by lia.
    replace (Z.max 0 (Z.min size x)) with x by lia. replace (Z.max 0 (Z.min size y)) with y by lia.
    replace ((x <=? y) && (x <? size)) with true by lia. reflexivity.
  - rewrite Hd in *. exists lines. rewrite E. unfold requested in *.
    replace (Z.max 0 (Z.min n (size - a))) with (e - a) in * by lia.
    split; [reflexivity|]. split; [rewrite Hlen; f_equal; lia|]. split.
    + rewrite Hb. replace (a + (e - a)) with e by lia. unfold d. apply zslice_map_peek; lia.
    + split. { rewrite Ht, printable_shown. replace (a + (e - a)) with e by lia. f_equal. unfold d. apply zslice_map_peek; lia. }
      intros i Hi. rewrite Hlab by auto. lia.
Qed.

(** ** hexdump_str *)
Lemma split_join : forall ls, ls <> [] -> Forall (fun l => ~ In 10 l) ls -> split_nl (join_nl ls) = ls.
Proof.
  assert (H1 : forall l rest, ~ In 10 l -> split_nl (l ++ 10 :: rest) = l :: split_nl rest).
  { induction l as [|a l IH]; intros rest H; [reflexivity|]. cbn [app split_nl]. replace (a =? 10) with false by (cbn in H; destruct (a =? 10) eqn:E; [exfalso; apply H; left; lia|reflexivity]).
    rewrite IH by (cbn in H; tauto). reflexivity. }
  assert (H2 : forall l, ~ In 10 l -> split_nl l = [l]).
  { induction l as [|a l IH]; intros H; [reflexivity|]. cbn [split_nl]. replace (a =? 10) with false by (cbn in H; destruct (a =? 10) eqn:E; [exfalso; apply H; left; lia|reflexivity]).
    rewrite IH by (cbn in H; tauto). reflexivity. }
  intros ls Hn HF. induction HF as [|l ls H HF IH]; [congruence|]. destruct ls as [|l2 ls]; [now apply H2|].
  change (join_nl (l :: l2 :: ls)) with (l ++ 10 :: join_nl (l2 :: ls)). rewrite H1 by auto. f_equal. apply IH. discriminate.
Qed.
Lemma hexw_nonl w : forall n, ~ In 10 (hexw w n).
Proof.
  induction w as [|w IH]; intros n; cbn [hexw]; [auto|]. rewrite in_app_iff. intros [H|[H|[]]]; [now apply (IH (n / 16))|].
  pose proof (Z.mod_pos_bound n 16 ltac:(lia)) as B. unfold hexd in H. destruct (n mod 16 <? 10) eqn:E; lia.
Qed.
Lemma line_nonl d off row : ~ In 10 (hexdump_line d off row).
Proof.
  unfold hexdump_line, pad_right. rewrite !in_app_iff. intros [H|[H|[[H|H]|[H|H]]]].
  - now apply hexw_nonl in H.
  - cbn in H. lia.
  - apply in_concat in H. destruct H as (x & Hx & H). apply in_map_iff in Hx. destruct Hx as (ch & <- & _). rewrite in_app_iff in H. destruct H as [H|[H|[]]]; [now apply hexw_nonl in H|lia].
  - apply repeat_spec in H. lia.
  - cbn in H. lia.
  - apply in_map_iff in H. destruct H as (ch & H & _). unfold printable in H. destruct ((32 <? ch) && (ch <? 127)) eqn:E; lia.
Qed.
Lemma map_res_all {A B} (f : A -> res B) (P : B -> Prop) : (forall a b, f a = Ok b -> P b) -> forall l bs, map_res f l = Ok bs -> Forall P bs.
Proof.
  intros H. induction l as [|a l IH]; intros bs E; cbn [map_res] in E; [injection E as <-; constructor|].
  destruct (f a) as [b|] eqn:Ea; [|discriminate]. cbn [bind] in E. destruct (map_res f l) as [bs'|]; [|discriminate]. injection E as <-. constructor; eauto.
Qed.
Lemma hexdump_str_spec data start length row prefix offset ls : ~ In 10 prefix -> bytes_hexdump_lines data start length row prefix offset = Ok ls ->
  exists s, bytes_hexdump_str data start length row prefix offset = Ok s /\ if match ls with [] => true | _ => false end then s = [] else split_nl s = ls.
Proof.
  intros Hp E. unfold bytes_hexdump_str. rewrite E. cbn [bind]. eexists. split; [reflexivity|].
  assert (HF : Forall (fun l => ~ In 10 l) ls).
  { unfold bytes_hexdump_lines, hexdump_lines in E. cbn [bind] in E. destruct (row =? 0); [discriminate|]. revert E. apply map_res_all. intros k b E. cbn [bind] in E. injection E as <-. rewrite in_app_iff. intros [H|H]; [auto|now apply line_nonl in H]. }
  destruct ls as [|l ls]; [reflexivity|]. apply split_join; [discriminate|exact HF].
Qed.
