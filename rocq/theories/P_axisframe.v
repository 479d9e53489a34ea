(** Proofs about AXI stream frames: normalize, compact, comparison, beats. *)
From Coq Require Import ZArith Lia List Bool.
From Coq Require Import ZifyBool ZifyNat.
From Verif Require Import Py M_stream M_axisframe M_axis S_axis.
Import ListNotations.
Open Scope Z_scope.

Lemma znth_zrange0 d a b i : 0 <= i < b - a -> znth d (zrange a b) i = a + i.
Proof.
  intros H. unfold zrange, znth. assert (E : forall n a k, (k < n)%nat -> nth k (zseq a n) d = a + Z.of_nat k).
  { induction n as [|n IH]; intros a0 k Hk; [lia|]. destruct k; cbn [zseq nth]; [lia|]. rewrite IH by lia. lia. }
  rewrite E by lia. lia.
Qed.

(** ** normalize *)
Lemma last_znth l : l <> [] -> last l 0 = znth 0 l (zlen l - 1).
Proof.
  intros H. destruct (exists_last H) as (m & x & ->). rewrite last_last, zlen_app. change (zlen [x]) with 1.
  rewrite znth_app2 by lia. replace (zlen m + 1 - 1 - zlen m) with 0 by lia. reflexivity.
Qed.

Lemma znth_repeat (v d : Z) n i : 0 <= i < Z.of_nat n -> znth d (repeat v n) i = v.
Proof.
  intros H. unfold znth. rewrite (nth_indep _ d v) by (rewrite repeat_length; lia).
  apply nth_repeat.
Qed.

Lemma fit_spec n l : 0 <= n -> l <> [] ->
  exists m, fit n l = Ok m /\ zlen m = n /\ forall i, 0 <= i < n -> znth 0 m i = side 0 (SList l) i.
Proof.
  intros Hn Hl. unfold fit. destruct l as [|x l0] eqn:E; [congruence|]. rewrite <- E in *. clear E.
  eexists. split; [reflexivity|]. pose proof (zlen_nonneg l) as Hz. split.
  - rewrite zlen_app. unfold zlen in *. rewrite firstn_length, repeat_length. lia.
  - intros i Hi. cbn [side].
    assert (Hf : zlen (firstn (Z.to_nat n) l) = Z.min n (zlen l)) by (unfold zlen; rewrite firstn_length; lia).
    destruct (i <? zlen l) eqn:E.
    + rewrite znth_app1 by lia. unfold znth. rewrite nth_firstn by lia. reflexivity.
    + rewrite znth_app2 by lia. rewrite znth_repeat by lia. now apply last_znth.
Qed.

Lemma fit_sb_spec n s : 0 <= n -> s <> SList [] ->
  exists m, fit_sb n s = Ok m /\ zlen m = n /\ forall i, 0 <= i < n -> znth 0 m i = side 0 s i.
Proof.
  intros Hn Hs. destruct s as [|v|l].
  - exists (repeat 0 (Z.to_nat n)). split; [reflexivity|]. split; [unfold zlen; rewrite repeat_length; lia|].
    intros i Hi. apply znth_repeat. lia.
  - exists (repeat v (Z.to_nat n)). split; [reflexivity|]. split; [unfold zlen; rewrite repeat_length; lia|].
    intros i Hi. apply znth_repeat. lia.
  - apply fit_spec; auto. congruence.
Qed.

(** a normalized frame of n bytes *)
Definition normal (f g : frame) : Prop :=
  let n := zlen (f_data f) in
  f_ba g = f_ba f /\ f_data g = f_data f /\
  exists k i d u, f_keep g = Some k /\ f_id g = SList i /\ f_dest g = SList d /\ f_user g = SList u /\
    zlen k = n /\ zlen i = n /\ zlen d = n /\ zlen u = n /\
    (forall x, 0 <= x < n -> znth 0 k x = keep_at f x) /\
    (forall x, 0 <= x < n -> znth 0 i x = side 0 (f_id f) x) /\
    (forall x, 0 <= x < n -> znth 0 d x = side 0 (f_dest f) x) /\
    (forall x, 0 <= x < n -> znth 0 u x = side 0 (f_user f) x).

Lemma normalize_spec f : frame_ok f -> exists g, normalize f = Ok g /\ normal f g.
Proof.
  intros (H1 & H2 & H3 & H4). unfold normalize. set (n := zlen (f_data f)). pose proof (zlen_nonneg (f_data f)) as Hn. fold n in Hn.
  assert (HK : exists k, match f_keep f with Some l => fit n l | None => Ok (repeat 1 (Z.to_nat n)) end = Ok k /\ zlen k = n /\
                (forall x, 0 <= x < n -> znth 0 k x = keep_at f x)).
  { unfold keep_at. destruct (f_keep f) as [l|].
    - destruct (fit_spec n l Hn) as (m & E1 & E2 & E3); [congruence|]. exists m. auto.
    - exists (repeat 1 (Z.to_nat n)). split; [reflexivity|]. split; [unfold zlen; rewrite repeat_length; lia|].
      intros i Hi. apply znth_repeat. lia. }
  destruct HK as (k & -> & Hk1 & Hk2). cbn [bind].
  destruct (fit_sb_spec n (f_id f) Hn H2) as (i & -> & Hi1 & Hi2). cbn [bind].
  destruct (fit_sb_spec n (f_dest f) Hn H3) as (d & -> & Hd1 & Hd2). cbn [bind].
  destruct (fit_sb_spec n (f_user f) Hn H4) as (u & -> & Hu1 & Hu2). cbn [bind].
  eexists. split; [reflexivity|]. split; [reflexivity|]. split; [reflexivity|].
  exists k, i, d, u. cbn. fold n. repeat (split; [first [reflexivity|assumption]|]). assumption.
Qed.

Lemma fit_id l : l <> [] -> fit (zlen l) l = Ok l.
Proof.
  intros H. unfold fit. destruct l as [|x l0] eqn:E; [congruence|]. rewrite <- E in *. clear E.
  unfold zlen. rewrite Nat2Z.id, firstn_all. rewrite Z.sub_diag. cbn [Z.to_nat repeat]. now rewrite app_nil_r.
Qed.

Lemma normalize_idem f g : frame_ok f -> f_data f <> [] -> normalize f = Ok g -> normalize g = Ok g.
Proof.
  intros Hf Hd Hg. destruct (normalize_spec f Hf) as (g' & E & Hn). rewrite Hg in E. injection E as <-.
  destruct Hn as (E1 & E2 & k & i & d & u & Ek & Ei & Ed & Eu & Lk & Li & Ld & Lu & _).
  assert (Hz : 0 < zlen (f_data f)) by (destruct (f_data f); [congruence|rewrite zlen_cons; pose proof (zlen_nonneg l); lia]).
  unfold normalize. rewrite E2, Ek, Ei, Ed, Eu. cbn [fit_sb].
  assert (Hne : forall m, zlen m = zlen (f_data f) -> m <> ([] : list Z)) by (intros m Hm ->; change (zlen (@nil Z)) with 0 in Hm; lia).
  rewrite <- Lk at 1. rewrite fit_id by auto. cbn [bind].
  rewrite <- Li at 1. rewrite fit_id by auto. cbn [bind].
  rewrite <- Ld at 1. rewrite fit_id by auto. cbn [bind].
  rewrite <- Lu at 1. rewrite fit_id by auto. cbn [bind].
  destruct g. cbn in *. congruence.
Qed.

(** ** compact *)
Lemma kept_nil l : kept [] l = [].
Proof. reflexivity. Qed.

Lemma kept_nil_r k : kept k [] = [].
Proof. unfold kept. now rewrite combine_nil. Qed.

Lemma combine_app' {A B} (a b : list A) (x y : list B) : length a = length x -> combine (a ++ b) (x ++ y) = combine a x ++ combine b y.
Proof. revert x. induction a as [|p a IH]; intros [|q x] H; cbn in *; try discriminate; auto. f_equal. apply IH. lia. Qed.

Lemma kept_app a b x y : length a = length x -> kept (a ++ b) (x ++ y) = kept a x ++ kept b y.
Proof. intros H. unfold kept. rewrite combine_app' by auto. now rewrite filter_app, map_app. Qed.

(** one element more *)
Lemma kept_snoc n k l : (n < length k)%nat ->
  kept (firstn (S n) k) (firstn (S n) l) =
  kept (firstn n k) (firstn n l) ++ (if nth n k 0 =? 0 then [] else firstn 1 (skipn n l)).
Proof.
  revert k l. induction n as [|n IH]; intros k l H.
  - destruct k as [|x k]; [cbn in H; lia|]. destruct l as [|y l].
    + cbn. destruct (x =? 0); reflexivity.
    + cbn. unfold kept. cbn. destruct (x =? 0); reflexivity.
  - destruct k as [|x k]; [cbn in H; lia|]. destruct l as [|y l].
    + rewrite !firstn_nil, !kept_nil_r. destruct (nth (S n) (x :: k) 0 =? 0); reflexivity.
    + cbn [length] in H. specialize (IH k l ltac:(lia)).
      change (kept (x :: firstn (S n) k) (y :: firstn (S n) l) = kept (x :: firstn n k) (y :: firstn n l) ++ (if nth n k 0 =? 0 then [] else firstn 1 (skipn n l))).
      assert (E : forall a b, kept (x :: a) (y :: b) = (if x =? 0 then [] else [y]) ++ kept a b).
      { intros a b. unfold kept. cbn. destruct (x =? 0); reflexivity. }
      rewrite !E, IH. now rewrite app_assoc.
Qed.

Lemma del_at_firstn n l : firstn n (del_at (Z.of_nat n) l) = firstn n l.
Proof.
  unfold del_at. rewrite Nat2Z.id. destruct (Nat.le_gt_cases n (length l)) as [H|H].
  - rewrite firstn_app. rewrite firstn_firstn, firstn_length, Nat.min_id.
    replace (n - Nat.min n (length l))%nat with 0%nat by lia. cbn. apply app_nil_r.
  - rewrite (firstn_all2 (n := n) l) by lia. rewrite skipn_all2 by lia. rewrite app_nil_r. apply firstn_all2. lia.
Qed.

Lemma del_at_skipn n l : skipn n (del_at (Z.of_nat n) l) = skipn (S n) l.
Proof.
  unfold del_at. rewrite Nat2Z.id. replace (n + 1)%nat with (S n) by lia. destruct (Nat.le_gt_cases n (length l)) as [H|H].
  - rewrite skipn_app. rewrite firstn_length. replace (n - Nat.min n (length l))%nat with 0%nat by lia.
    rewrite skipn_firstn_comm. rewrite Nat.sub_diag. reflexivity.
  - rewrite !skipn_all2; auto; try lia. rewrite app_length, firstn_length, skipn_length. lia.
Qed.

Lemma del_at_length n l : (n < length l)%nat -> length (del_at (Z.of_nat n) l) = (length l - 1)%nat.
Proof. intros H. unfold del_at. rewrite Nat2Z.id, app_length, firstn_length, skipn_length. lia. Qed.

Lemma nth_skipn_0 (k : list Z) n d : nth n k d = nth 0 (skipn n k) d.
Proof. rewrite nth_skipn. now rewrite Nat.add_0_r. Qed.

(** the effect of the loop on each list *)
Definition squeeze (n : nat) (k l : list Z) : list Z := kept (firstn n k) (firstn n l) ++ skipn n l.

Lemma squeeze_del n k l : (n < length k)%nat -> nth n k 0 = 0 ->
  squeeze (S n) k l = squeeze n (del_at (Z.of_nat n) k) (del_at (Z.of_nat n) l).
Proof.
  intros Hk H0. unfold squeeze. rewrite kept_snoc by auto. rewrite H0. cbn [Z.eqb]. rewrite app_nil_r.
  rewrite !del_at_firstn, del_at_skipn. reflexivity.
Qed.

Lemma squeeze_keep n k l : (n < length k)%nat -> nth n k 0 <> 0 -> squeeze (S n) k l = squeeze n k l.
Proof.
  intros Hk H0. unfold squeeze. rewrite kept_snoc by auto. assert (E : (nth n k 0 =? 0) = false) by lia. rewrite E.
  rewrite <- app_assoc. f_equal. clear. revert l. induction n as [|n IH]; intros [|y l]; cbn; auto. apply IH.
Qed.

Lemma compact_loop_spec : forall n f, (n <= length (l_keep f))%nat ->
  compact_loop n f = Ok {| l_data := squeeze n (l_keep f) (l_data f); l_keep := squeeze n (l_keep f) (l_keep f);
                           l_id := squeeze n (l_keep f) (l_id f); l_dest := squeeze n (l_keep f) (l_dest f);
                           l_user := squeeze n (l_keep f) (l_user f) |}.
Proof.
  induction n as [|n IH]; intros f Hn; cbn [compact_loop].
  - destruct f as [a b c d e]. reflexivity.
  - assert (E : (zlen (l_keep f) <=? Z.of_nat n) = false) by (unfold zlen; lia). rewrite E.
    assert (Ez : znth 0 (l_keep f) (Z.of_nat n) = nth n (l_keep f) 0) by (unfold znth; now rewrite Nat2Z.id). rewrite Ez.
    destruct (nth n (l_keep f) 0 =? 0) eqn:E0.
    + rewrite IH; cbn [l_keep l_data l_id l_dest l_user].
      * rewrite !(squeeze_del n (l_keep f)) by lia. reflexivity.
      * rewrite del_at_length by lia. lia.
    + rewrite IH by lia. rewrite !(squeeze_keep n (l_keep f)) by lia. reflexivity.
Qed.

Lemma squeeze_all k l : (length l <= length k)%nat -> squeeze (length k) k l = kept k l.
Proof. intros H. unfold squeeze. rewrite !firstn_all2 by lia. rewrite skipn_all2 by lia. apply app_nil_r. Qed.

Lemma consolidate_spec l : represents (consolidate l) l.
Proof.
  destruct l as [|x l]; [reflexivity|]. unfold consolidate. destruct (forallb (Z.eqb x) (x :: l)) eqn:E; cbn [represents].
  - split; [discriminate|]. rewrite forallb_forall in E. apply Forall_forall. intros y Hy. specialize (E y Hy). lia.
  - split; [reflexivity|]. enough (H : exists y, In y (x :: l) /\ x <> y).
    { destruct H as (y & H1 & H2). exists x, y. split; [left; reflexivity|]. auto. }
    clear -E. revert E. generalize (x :: l). intros m E. induction m as [|y m IH]; [discriminate|]. cbn in E.
    destruct (x =? y) eqn:Exy; [|exists y; split; [now left|lia]]. cbn in E. destruct (IH E) as (z & H1 & H2). exists z. split; [now right|auto].
Qed.

Lemma represents_unique s t l : represents s l -> represents t l -> s = t.
Proof.
  assert (C : forall (v : Z) m, Forall (eq v) m -> forall x y, In x m -> In y m -> x = y).
  { intros v m H x y Hx Hy. rewrite Forall_forall in H. rewrite <- (H x Hx), <- (H y Hy). reflexivity. }
  destruct s, t; cbn; intros H1 H2.
  - reflexivity.
  - destruct H2. congruence.
  - destruct H2 as (-> & x & y & Hx & _). subst. destruct Hx.
  - destruct H1. congruence.
  - destruct H1 as [Ha Hb], H2 as [Hc Hd]. destruct l; [congruence|]. inversion Hb; inversion Hd; subst. reflexivity.
  - destruct H1 as [Ha Hb], H2 as (-> & x & y & Hx & Hy & Hn). exfalso. apply Hn. exact (C _ _ Hb x y Hx Hy).
  - destruct H1 as (-> & x & y & Hx & _). subst. destruct Hx.
  - destruct H2 as [Ha Hb], H1 as (-> & x & y & Hx & Hy & Hn). exfalso. apply Hn. exact (C _ _ Hb x y Hx Hy).
  - destruct H1 as [-> _], H2 as [-> _]. reflexivity.
Qed.

Lemma compact_spec f k i d u : f_keep f = Some k -> f_id f = SList i -> f_dest f = SList d -> f_user f = SList u ->
  (k = [] \/ zlen k = zlen (f_data f)) -> zlen i <= zlen (f_data f) -> zlen d <= zlen (f_data f) -> zlen u <= zlen (f_data f) ->
  exists g, compact f = Ok g /\ f_ba g = f_ba f /\ f_keep g = None /\
    f_data g = (match k with [] => f_data f | _ => kept k (f_data f) end) /\
    f_id g = consolidate (match k with [] => i | _ => kept k i end) /\
    f_dest g = consolidate (match k with [] => d | _ => kept k d end) /\
    f_user g = consolidate (match k with [] => u | _ => kept k u end).
Proof.
  intros Ek Ei Ed Eu Hk Hi Hd Hu. unfold compact. rewrite Ek, Ei, Ed, Eu.
  destruct k as [|x k0] eqn:E.
  - cbn [bind l_data l_id l_dest l_user]. eexists. split; [reflexivity|]. cbn. auto 8.
  - rewrite <- E in *. destruct Hk as [Hk|Hk]; [congruence|]. unfold zlen in *.
    assert (El : length (f_data f) = length k) by lia. rewrite El.
    rewrite compact_loop_spec by (cbn; lia). cbn [bind l_data l_keep l_id l_dest l_user].
    rewrite !squeeze_all by lia. eexists. split; [reflexivity|]. cbn. auto 8.
Qed.

(** ** comparison *)
Lemma leqb_spec l : forall m, leqb l m = true <-> l = m.
Proof.
  induction l as [|x l IH]; intros [|y m]; cbn; split; intros H; try discriminate; auto.
  - apply andb_true_iff in H. destruct H as [H1 H2]. apply IH in H2. f_equal; [lia|auto].
  - injection H as -> ->. rewrite Z.eqb_refl. now apply IH.
Qed.

Lemma forallb_eq v l : forallb (fun k => v =? k) l = true <-> Forall (eq v) l.
Proof.
  rewrite forallb_forall, Forall_forall. split; intros H x Hx; specialize (H x Hx); lia.
Qed.

Lemma sb_eqb_spec a b : sb_eqb a b = true <-> sb_same a b.
Proof.
  destruct a, b; cbn; try (split; auto; fail).
  - lia.
  - apply forallb_eq.
  - apply forallb_eq.
  - apply leqb_spec.
Qed.

Lemma frame_eqb_spec f g : frame_eqb f g = true <-> frame_same f g.
Proof.
  unfold frame_eqb, frame_same. rewrite !andb_true_iff, Bool.eqb_true_iff, leqb_spec, !sb_eqb_spec.
  assert (H : match f_keep f, f_keep g with Some k, Some m => leqb k m | _, _ => true end = true <->
              match f_keep f, f_keep g with Some k, Some m => k = m | _, _ => True end).
  { destruct (f_keep f), (f_keep g); try (split; auto; fail). apply leqb_spec. }
  rewrite H. tauto.
Qed.

(** ** beats *)
Section Beats.
Variable c : scfg.
Hypothesis Hc : cfg_ok c.

(** byte j of a word of bytes of [w] bits *)
Definition fld (w d j : Z) : Z := Z.land (Z.shiftr d (j * w)) (2 ^ w - 1).

Lemma mask_ones w : 0 <= w -> 2 ^ w - 1 = Z.ones w.
Proof. intros H. rewrite Z.ones_equiv. lia. Qed.

Lemma fld_bit w d j i : 0 < w -> 0 <= j -> 0 <= i -> Z.testbit (fld w d j) i = (i <? w) && Z.testbit d (j * w + i).
Proof.
  intros Hw Hj Hi. unfold fld. rewrite mask_ones by lia. rewrite Z.land_spec, Z.shiftr_spec by lia.
  rewrite Z.testbit_ones_nonneg by lia. rewrite andb_comm. f_equal. f_equal. lia.
Qed.

Lemma fld_lor w d x o j : 0 < w -> 0 <= o -> 0 <= j ->
  fld w (Z.lor d (Z.shiftl (Z.land x (2 ^ w - 1)) (o * w))) j = if j =? o then Z.lor (fld w d j) (Z.land x (2 ^ w - 1)) else fld w d j.
Proof.
  intros Hw Ho Hj. apply Z.bits_inj'. intros i Hi. rewrite fld_bit by lia. rewrite Z.lor_spec.
  assert (E : Z.testbit (Z.shiftl (Z.land x (2 ^ w - 1)) (o * w)) (j * w + i) =
              Z.testbit x (j * w + i - o * w) && (0 <=? j * w + i - o * w) && (j * w + i - o * w <? w)).
  { destruct (Z.le_gt_cases 0 (j * w + i - o * w)) as [H|H].
    - rewrite Z.shiftl_spec by nia. rewrite Z.land_spec, mask_ones by lia. rewrite Z.testbit_ones_nonneg by lia.
      assert (E1 : (0 <=? j * w + i - o * w) = true) by lia. rewrite E1, andb_true_r. reflexivity.
    - assert (E1 : (0 <=? j * w + i - o * w) = false) by lia. rewrite E1, andb_false_r. cbn.
      rewrite Z.shiftl_spec by nia. apply Z.testbit_neg_r. lia. }
  rewrite E. destruct (j =? o) eqn:Ejo.
  - assert (j = o) by lia. subst j. rewrite Z.lor_spec, fld_bit, Z.land_spec, mask_ones, Z.testbit_ones_nonneg by lia.
    replace (o * w + i - o * w) with i by lia. assert (E2 : (0 <=? i) = true) by lia. rewrite E2, andb_true_r.
    destruct (i <? w), (Z.testbit d (o * w + i)), (Z.testbit x i); reflexivity.
  - rewrite fld_bit by lia. destruct (i <? w) eqn:Ei; [|reflexivity]. cbn [andb].
    assert (E3 : (0 <=? j * w + i - o * w) && (j * w + i - o * w <? w) = false).
    { destruct (Z.lt_trichotomy j o) as [H|[H|H]]; [|lia|].
      - assert ((j + 1) * w <= o * w) by nia. lia.
      - assert ((o + 1) * w <= j * w) by nia. lia. }
    rewrite <- andb_assoc, E3, andb_false_r, orb_false_r. reflexivity.
Qed.

(** what the lane loop produces: fields from the frame, zero beyond its end *)
Definition dval (g : frame) (x : Z) : Z := if x <? zlen (f_data g) then Z.land (znth 0 (f_data g) x) (byte_mask c) else 0.
Definition kval (g : frame) (x : Z) : Z := if x <? zlen (f_data g) then Z.land (znth 0 (keepl g) x) 1 else 0.

Lemma land1 x : Z.land x 1 = Z.land x (2 ^ 1 - 1).
Proof. reflexivity. Qed.

Lemma drive_spec g : forall n offset fo b,
  0 <= offset -> fo < zlen (f_data g) -> (0 < n)%nat ->
  (forall j, offset <= j -> fld (x_bsize c) (b_data b) j = 0 /\ fld 1 (b_keep b) j = 0) ->
  let N := offset + Z.of_nat n in
  let '(b', fo', fin) := drive c g n offset fo b in
  fo' = Z.min (fo + Z.of_nat n) (zlen (f_data g)) /\ fin = (zlen (f_data g) <=? fo') /\ b_last b' = fin /\
  (forall j, 0 <= j < offset -> fld (x_bsize c) (b_data b') j = fld (x_bsize c) (b_data b) j /\ fld 1 (b_keep b') j = fld 1 (b_keep b) j) /\
  (forall j, offset <= j < N -> fld (x_bsize c) (b_data b') j = dval g (fo + j - offset) /\ fld 1 (b_keep b') j = kval g (fo + j - offset)) /\
  b_id b' = znth 0 (sbl (f_id g)) (fo' - 1) /\ b_dest b' = znth 0 (sbl (f_dest g)) (fo' - 1) /\ b_user b' = znth 0 (sbl (f_user g)) (fo' - 1).
Proof.
  destruct Hc as [HL HW].
  induction n as [|n IH]; intros offset fo b Ho Hfo Hn Hz; [lia|]. cbv zeta. cbn [drive].
  set (b1 := {| b_data := _; b_keep := _; b_id := _; b_dest := _; b_user := _; b_last := _ |}).
  assert (Hd : forall j, 0 <= j -> fld (x_bsize c) (b_data b1) j = (if j =? offset then dval g fo else fld (x_bsize c) (b_data b) j)).
  { intros j Hj. unfold b1. cbn [b_data]. unfold byte_mask at 1. rewrite fld_lor by lia. destruct (j =? offset) eqn:E; [|reflexivity].
    destruct (Hz j ltac:(lia)) as [-> _]. unfold dval. assert (E2 : (fo <? zlen (f_data g)) = true) by lia. rewrite E2. apply Z.lor_0_l. }
  assert (Hk : forall j, 0 <= j -> fld 1 (b_keep b1) j = (if j =? offset then kval g fo else fld 1 (b_keep b) j)).
  { intros j Hj. unfold b1. cbn [b_keep]. rewrite land1. rewrite <- (Z.mul_1_r offset) at 1. rewrite fld_lor by lia.
    destruct (j =? offset) eqn:E; [|reflexivity].
    destruct (Hz j ltac:(lia)) as [_ ->]. unfold kval. assert (E2 : (fo <? zlen (f_data g)) = true) by lia. rewrite E2. apply Z.lor_0_l. }
  destruct (zlen (f_data g) <=? fo + 1) eqn:Ef.
  - split; [lia|]. split; [lia|]. split; [reflexivity|]. split.
    { intros j Hj. rewrite Hd, Hk by lia. assert (E : (j =? offset) = false) by lia. rewrite E. auto. }
    split.
    { intros j Hj. rewrite Hd, Hk by lia. destruct (j =? offset) eqn:E.
      - replace (fo + j - offset) with fo by lia. auto.
      - destruct (Hz j ltac:(lia)) as [-> ->]. unfold dval, kval.
        assert (E2 : (fo + j - offset <? zlen (f_data g)) = false) by lia. rewrite E2. auto. }
    unfold b1. cbn. replace (fo + 1 - 1) with fo by lia. auto.
  - destruct n as [|n'].
    + cbn [drive]. split; [lia|]. split; [lia|]. split; [unfold b1; cbn; lia|]. split.
      { intros j Hj. rewrite Hd, Hk by lia. assert (E : (j =? offset) = false) by lia. rewrite E. auto. }
      split.
      { intros j Hj. assert (j = offset) by lia. subst j. rewrite Hd, Hk by lia. rewrite Z.eqb_refl. replace (fo + offset - offset) with fo by lia. auto. }
      unfold b1. cbn. replace (fo + 1 - 1) with fo by lia. auto.
    + specialize (IH (offset + 1) (fo + 1) b1 ltac:(lia) ltac:(lia) ltac:(lia)).
      assert (Hz1 : forall j, offset + 1 <= j -> fld (x_bsize c) (b_data b1) j = 0 /\ fld 1 (b_keep b1) j = 0).
      { intros j Hj. rewrite Hd, Hk by lia. assert (E : (j =? offset) = false) by lia. rewrite E. apply Hz. lia. }
      specialize (IH Hz1). cbv zeta in IH. destruct (drive c g (S n') (offset + 1) (fo + 1) b1) as [[b' fo'] fin].
      destruct IH as (I1 & I2 & I3 & I4 & I5 & I6 & I7 & I8).
      split; [lia|]. split; [exact I2|]. split; [exact I3|]. split.
      { intros j Hj. destruct (I4 j ltac:(lia)) as [-> ->]. rewrite Hd, Hk by lia. assert (E : (j =? offset) = false) by lia. rewrite E. auto. }
      split; [|auto].
      intros j Hj. destruct (Z.eq_dec j offset) as [->|Hne].
      * destruct (I4 offset ltac:(lia)) as [-> ->]. rewrite Hd, Hk by lia. rewrite Z.eqb_refl. replace (fo + offset - offset) with fo by lia. auto.
      * destruct (I5 j ltac:(lia)) as [-> ->]. replace (fo + 1 + j - (offset + 1)) with (fo + j - offset) by lia. auto.
Qed.

Lemma drive_beat_spec g fo : 0 <= fo < zlen (f_data g) ->
  let '(b, fo', fin) := drive_beat c g fo in
  fo' = Z.min (fo + x_lanes c) (zlen (f_data g)) /\ fin = (zlen (f_data g) <=? fo') /\ b_last b = fin /\
  (forall j, 0 <= j < x_lanes c -> fld (x_bsize c) (b_data b) j = dval g (fo + j) /\ fld 1 (b_keep b) j = kval g (fo + j)) /\
  b_id b = znth 0 (sbl (f_id g)) (fo' - 1) /\ b_dest b = znth 0 (sbl (f_dest g)) (fo' - 1) /\ b_user b = znth 0 (sbl (f_user g)) (fo' - 1).
Proof.
  intros Hfo. destruct Hc as [HL HW]. unfold drive_beat.
  pose proof (drive_spec g (Z.to_nat (x_lanes c)) 0 fo zero_beat ltac:(lia) ltac:(lia) ltac:(lia)) as H.
  assert (Hz : forall j, 0 <= j -> fld (x_bsize c) (b_data zero_beat) j = 0 /\ fld 1 (b_keep zero_beat) j = 0).
  { intros j Hj. unfold fld. cbn. rewrite !Z.shiftr_0_l. auto. }
  specialize (H Hz). cbv zeta in H. destruct (drive c g (Z.to_nat (x_lanes c)) 0 fo zero_beat) as [[b fo'] fin].
  destruct H as (H1 & H2 & H3 & _ & H5 & H6).
  split; [lia|]. split; [exact H2|]. split; [exact H3|]. split; [|exact H6].
  intros j Hj. destruct (H5 j ltac:(lia)) as [-> ->]. replace (fo + j - 0) with (fo + j) by lia. auto.
Qed.

(** the lists a receiver appends for one beat *)
Lemma rx_lanes_spec b : forall n offset f, 0 <= offset ->
  rx_lanes c b n offset f =
  {| f_ba := f_ba f;
     f_data := f_data f ++ map (fun j => fld (x_bsize c) (b_data b) j) (zseq offset n);
     f_keep := match n with O => f_keep f | _ => Some (keepl f ++ (if x_keep c then map (fun j => fld 1 (b_keep b) j) (zseq offset n) else [])) end;
     f_id := match n with O => f_id f | _ => SList (sbl (f_id f) ++ (if x_id c then repeat (b_id b) n else [])) end;
     f_dest := match n with O => f_dest f | _ => SList (sbl (f_dest f) ++ (if x_dest c then repeat (b_dest b) n else [])) end;
     f_user := match n with O => f_user f | _ => SList (sbl (f_user f) ++ (if x_user c then repeat (b_user b) n else [])) end |}.
Proof.
  induction n as [|n IH]; intros offset f Ho; cbn [rx_lanes].
  - cbn [zseq map]. rewrite app_nil_r. destruct f; reflexivity.
  - rewrite IH by lia. cbn [f_ba f_data f_keep f_id f_dest f_user keepl sbl zseq map].
    assert (E0 : Z.land (Z.shiftr (b_data b) (offset * x_bsize c)) (byte_mask c) = fld (x_bsize c) (b_data b) offset) by reflexivity.
    assert (E1 : Z.land (Z.shiftr (b_keep b) offset) 1 = fld 1 (b_keep b) offset) by (unfold fld; rewrite Z.mul_1_r; reflexivity).
    rewrite E0, E1. f_equal.
    + now rewrite <- app_assoc.
    + destruct n; destruct (x_keep c); rewrite <- ?app_assoc, ?app_nil_r; reflexivity.
    + destruct n; destruct (x_id c); rewrite <- ?app_assoc, ?app_nil_r; reflexivity.
    + destruct n; destruct (x_dest c); rewrite <- ?app_assoc, ?app_nil_r; reflexivity.
    + destruct n; destruct (x_user c); rewrite <- ?app_assoc, ?app_nil_r; reflexivity.
Qed.

(** the received frame (before compact) up to byte [hi] *)
Definition rxf (g : frame) (hi : Z) : frame :=
  let L := x_lanes c in let n := zlen (f_data g) in
  let side l := map (fun i => znth 0 l (beat_last L n i)) (zrange 0 hi) in
  {| f_ba := x_bsize c =? 8;
     f_data := map (dval g) (zrange 0 hi);
     f_keep := Some (if x_keep c then map (kval g) (zrange 0 hi) else []);
     f_id := SList (if x_id c then side (sbl (f_id g)) else []);
     f_dest := SList (if x_dest c then side (sbl (f_dest g)) else []);
     f_user := SList (if x_user c then side (sbl (f_user g)) else []) |}.

Lemma map_const_repeat {B} (F : Z -> B) v a n : (forall x, a <= x < a + Z.of_nat n -> F x = v) -> map F (zseq a n) = repeat v n.
Proof.
  revert a. induction n as [|n IH]; intros a H; cbn [zseq map repeat]; [reflexivity|]. f_equal; [apply H; lia|apply IH]. intros x Hx. apply H. lia.
Qed.

Lemma side_step (on : bool) l n m v : 0 <= m -> let L := x_lanes c in m * L < n ->
  v = znth 0 l (Z.min (m * L + L) n - 1) ->
  (if on then map (fun i => znth 0 l (beat_last L n i)) (zrange 0 (m * L)) else []) ++ (if on then repeat v (Z.to_nat L) else []) =
  if on then map (fun i => znth 0 l (beat_last L n i)) (zrange 0 (m * L + L)) else [].
Proof.
  destruct Hc as [HL HW]. cbv zeta. intros Hm Hn ->. destruct on; [|reflexivity].
  rewrite (zrange_split 0 (m * x_lanes c) (m * x_lanes c + x_lanes c)) by nia. rewrite map_app. f_equal.
  unfold zrange. replace (m * x_lanes c + x_lanes c - m * x_lanes c) with (x_lanes c) by lia.
  symmetry. apply map_const_repeat. intros x Hx. f_equal. unfold beat_last.
  replace (x / x_lanes c) with m; [lia|]. apply Z.div_unique with (x - m * x_lanes c); lia.
Qed.

Lemma rx_step g m : 0 <= m -> m * x_lanes c < zlen (f_data g) ->
  let '(b, fo', fin) := drive_beat c g (m * x_lanes c) in
  rx_lanes c b (Z.to_nat (x_lanes c)) 0 (if m =? 0 then rx_new c else rxf g (m * x_lanes c)) = rxf g ((m + 1) * x_lanes c) /\
  fo' = Z.min ((m + 1) * x_lanes c) (zlen (f_data g)) /\ fin = (zlen (f_data g) <=? (m + 1) * x_lanes c) /\ b_last b = fin.
Proof.
  intros Hm Hlt. pose proof Hc as [HL HW]. pose proof (drive_beat_spec g (m * x_lanes c) ltac:(nia)) as H.
  destruct (drive_beat c g (m * x_lanes c)) as [[b fo'] fin]. destruct H as (H1 & H2 & H3 & H4 & H5 & H6 & H7).
  assert (Efo : fo' = Z.min ((m + 1) * x_lanes c) (zlen (f_data g))) by (rewrite H1; f_equal; lia).
  split; [|split; [exact Efo|split; [lia|exact H3]]].
  assert (Ef : (if m =? 0 then rx_new c else rxf g (m * x_lanes c)) = rxf g (m * x_lanes c)).
  { destruct (m =? 0) eqn:E; [|reflexivity]. assert (m = 0) by lia. subst m. unfold rxf, rx_new. cbn [Z.mul]. rewrite zrange_empty by lia. cbn [map].
    destruct (x_keep c), (x_id c), (x_dest c), (x_user c); reflexivity. }
  rewrite Ef, rx_lanes_spec by lia. destruct (Z.to_nat (x_lanes c)) as [|k] eqn:Ek; [lia|]. rewrite <- Ek.
  unfold rxf. cbn [f_ba f_data f_keep f_id f_dest f_user keepl sbl].
  replace ((m + 1) * x_lanes c) with (m * x_lanes c + x_lanes c) by lia.
  assert (Hsp : forall F : Z -> Z, map F (zrange 0 (m * x_lanes c + x_lanes c)) =
            map F (zrange 0 (m * x_lanes c)) ++ map (fun j => F (m * x_lanes c + j)) (zseq 0 (Z.to_nat (x_lanes c)))).
  { intros F. rewrite (zrange_split 0 (m * x_lanes c) (m * x_lanes c + x_lanes c)) by nia. rewrite map_app. f_equal.
    unfold zrange. replace (m * x_lanes c + x_lanes c - m * x_lanes c) with (x_lanes c) by lia.
    rewrite <- (map_map (Z.add (m * x_lanes c)) F). rewrite zseq_shift. now rewrite Z.add_0_r. }
  f_equal.
  - rewrite Hsp. f_equal. apply map_ext_in. intros j Hj. apply in_zseq in Hj. apply H4. lia.
  - f_equal. destruct (x_keep c); [|reflexivity]. rewrite Hsp. f_equal. apply map_ext_in. intros j Hj. apply in_zseq in Hj. apply H4. lia.
  - f_equal. apply side_step; auto. rewrite H5, H1. reflexivity.
  - f_equal. apply side_step; auto. rewrite H6, H1. reflexivity.
  - f_equal. apply side_step; auto. rewrite H7, H1. reflexivity.
Qed.

(** number of beats *)
Definition nbeats (n : Z) : Z := (n + x_lanes c - 1) / x_lanes c.

Lemma beats_reassemble g : x_last c = true -> forall fuel m, 0 <= m -> m * x_lanes c < zlen (f_data g) ->
  zlen (f_data g) - m * x_lanes c <= Z.of_nat fuel ->
  reassemble c (if m =? 0 then None else Some (rxf g (m * x_lanes c))) (beats_from c g fuel (m * x_lanes c)) =
  (None, [rxf g (nbeats (zlen (f_data g)) * x_lanes c)]).
Proof.
  intros Hlast. pose proof Hc as [HL HW]. induction fuel as [|fuel IH]; intros m Hm Hlt Hf; [lia|].
  cbn [beats_from]. pose proof (rx_step g m Hm Hlt) as H. destruct (drive_beat c g (m * x_lanes c)) as [[b fo'] fin].
  destruct H as (H1 & H2 & H3 & H4). cbn [reassemble]. unfold rx_beat.
  assert (E0 : (match (if m =? 0 then None else Some (rxf g (m * x_lanes c))) with
                | Some f => if 0 <? zlen (f_data f) then f else rx_new c | None => rx_new c end) =
               (if m =? 0 then rx_new c else rxf g (m * x_lanes c))).
  { destruct (m =? 0) eqn:E; [reflexivity|].
    assert (E1 : (0 <? zlen (f_data (rxf g (m * x_lanes c)))) = true).
    { cbn [rxf f_data]. rewrite zlen_map, zlen_zrange. nia. }
    now rewrite E1. }
  rewrite E0, H1, Hlast, H4. cbn [negb orb]. rewrite H3.
  destruct (zlen (f_data g) <=? (m + 1) * x_lanes c) eqn:E.
  - cbn [reassemble app]. replace (nbeats (zlen (f_data g))) with (m + 1); [reflexivity|].
    unfold nbeats. apply Z.div_unique with (zlen (f_data g) + x_lanes c - 1 - (m + 1) * x_lanes c); nia.
  - rewrite H2. rewrite Z.min_l by lia. specialize (IH (m + 1) ltac:(lia) ltac:(lia) ltac:(nia)).
    assert (E1 : (m + 1 =? 0) = false) by lia. rewrite E1 in IH. rewrite IH. reflexivity.
Qed.

Lemma nbeats_ge n : 0 <= n -> n <= nbeats n * x_lanes c /\ (0 < n -> 0 < nbeats n) /\ nbeats n * x_lanes c < n + x_lanes c.
Proof.
  intros Hn. pose proof Hc as [HL HW]. unfold nbeats.
  pose proof (Z.div_mod (n + x_lanes c - 1) (x_lanes c) ltac:(lia)) as H1.
  pose proof (Z.mod_pos_bound (n + x_lanes c - 1) (x_lanes c) HL) as H2. nia.
Qed.

Lemma frame_beats_reassemble g : x_last c = true -> f_data g <> [] ->
  reassemble c None (frame_beats c g) = (None, [rxf g (nbeats (zlen (f_data g)) * x_lanes c)]).
Proof.
  intros Hl Hd. assert (Hz : 0 < zlen (f_data g)) by (destruct (f_data g); [congruence|rewrite zlen_cons; pose proof (zlen_nonneg l); lia]).
  exact (beats_reassemble g Hl (length (f_data g)) 0 ltac:(lia) ltac:(lia) ltac:(unfold zlen; lia)).
Qed.

(** compact of the received frame *)
Lemma kept_map (k d : Z -> Z) r : kept (map k r) (map d r) = map d (filter (fun i => negb (k i =? 0)) r).
Proof.
  induction r as [|x r IH]; [reflexivity|]. unfold kept in *. cbn. destruct (k x =? 0); cbn; [apply IH|f_equal; apply IH].
Qed.

Definition keeps_byte (g : frame) (i : Z) : bool := negb (Z.land (znth 0 (keepl g) i) 1 =? 0).

Lemma filter_kval g hi : zlen (f_data g) <= hi ->
  filter (fun i => negb (kval g i =? 0)) (zrange 0 hi) = filter (keeps_byte g) (zrange 0 (zlen (f_data g))).
Proof.
  intros H. pose proof (zlen_nonneg (f_data g)) as Hz. rewrite (zrange_split 0 (zlen (f_data g)) hi) by lia. rewrite filter_app.
  assert (E2 : filter (fun i => negb (kval g i =? 0)) (zrange (zlen (f_data g)) hi) = []).
  { assert (Hg : forall l, (forall x, In x l -> kval g x = 0) -> filter (fun i => negb (kval g i =? 0)) l = []).
    { induction l as [|x l IH]; intros Hl; cbn; [reflexivity|]. rewrite (Hl x) by now left. cbn. apply IH. intros y Hy. apply Hl. now right. }
    apply Hg. intros x Hx. apply in_zrange in Hx. unfold kval. assert (E : (x <? zlen (f_data g)) = false) by lia. now rewrite E. }
  rewrite E2, app_nil_r. apply filter_ext_in. intros x Hx. apply in_zrange in Hx. unfold kval, keeps_byte.
  assert (E : (x <? zlen (f_data g)) = true) by lia. now rewrite E.
Qed.

Lemma rx_compact g : x_keep c = true -> f_data g <> [] ->
  let n := zlen (f_data g) in let L := x_lanes c in
  let idx := filter (keeps_byte g) (zrange 0 n) in
  let sideband (on : bool) l := consolidate (if on then map (fun i => znth 0 l (beat_last L n i)) idx else []) in
  exists h, compact (rxf g (nbeats n * L)) = Ok h /\ f_ba h = (x_bsize c =? 8) /\ f_keep h = None /\
    f_data h = map (fun i => Z.land (znth 0 (f_data g) i) (byte_mask c)) idx /\
    f_id h = sideband (x_id c) (sbl (f_id g)) /\ f_dest h = sideband (x_dest c) (sbl (f_dest g)) /\
    f_user h = sideband (x_user c) (sbl (f_user g)).
Proof.
  intros Hk Hd. cbv zeta. pose proof Hc as [HL HW].
  assert (Hz : 0 < zlen (f_data g)) by (destruct (f_data g); [congruence|rewrite zlen_cons; pose proof (zlen_nonneg l); lia]).
  destruct (nbeats_ge (zlen (f_data g)) ltac:(lia)) as (Hb1 & Hb2 & Hb3). set (hi := nbeats (zlen (f_data g)) * x_lanes c) in *.
  assert (Hr : zrange 0 hi <> []) by (intros E; apply (f_equal zlen) in E; rewrite zlen_zrange in E; change (zlen (@nil Z)) with 0 in E; lia).
  destruct (compact_spec (rxf g hi) _ _ _ _ eq_refl eq_refl eq_refl eq_refl) as (h & E & Eb & Ek & Ed & Ei & Ede & Eu).
  - right. cbn [rxf f_data]. rewrite Hk, !zlen_map. reflexivity.
  - cbn [rxf f_data]. destruct (x_id c); rewrite ?zlen_map; [lia|change (zlen (@nil Z)) with 0; apply zlen_nonneg].
  - cbn [rxf f_data]. destruct (x_dest c); rewrite ?zlen_map; [lia|change (zlen (@nil Z)) with 0; apply zlen_nonneg].
  - cbn [rxf f_data]. destruct (x_user c); rewrite ?zlen_map; [lia|change (zlen (@nil Z)) with 0; apply zlen_nonneg].
  - exists h. rewrite Hk in Ed, Ei, Ede, Eu.
    assert (Em : forall (X Y : list Z), match map (kval g) (zrange 0 hi) with [] => X | _ => Y end = Y).
    { intros X Y. destruct (zrange 0 hi); [congruence|reflexivity]. }
    rewrite Em in Ed, Ei, Ede, Eu.
    assert (Es : forall (on : bool) l, kept (map (kval g) (zrange 0 hi)) (if on then map (fun i => znth 0 l (beat_last (x_lanes c) (zlen (f_data g)) i)) (zrange 0 hi) else []) =
                 if on then map (fun i => znth 0 l (beat_last (x_lanes c) (zlen (f_data g)) i)) (filter (keeps_byte g) (zrange 0 (zlen (f_data g)))) else []).
    { intros [|] l; [|apply kept_nil_r]. rewrite kept_map, filter_kval by lia. reflexivity. }
    rewrite Es in Ei, Ede, Eu. split; [exact E|]. split; [exact Eb|]. split; [exact Ek|]. split; [|auto].
    rewrite Ed. cbn [rxf f_data]. rewrite kept_map, filter_kval by lia. apply map_ext_in. intros x Hx. apply filter_In in Hx. destruct Hx as [Hx _].
    apply in_zrange in Hx. unfold dval. assert (E2 : (x <? zlen (f_data g)) = true) by lia. now rewrite E2.
Qed.
End Beats.
