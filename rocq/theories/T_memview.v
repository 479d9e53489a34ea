(** C83: regions, memories and RAMs that share a memory object (mem=...). *)
From Coq Require Import ZArith List Bool Lia.
From Verif Require Import Py S_flat M_sparse S_sparse P_sparse M_memory P_memory M_aspace P_aspace M_memview S_memview P_memview.
Import ListNotations.
Open Scope Z_scope.

(** a state some history of calls leads to *)
Definition g_reached (st : gst) : Prop := exists ops, st = fst (g_run g_init ops).
(** what a view is of: its memory *)
Definition serves (v : view) (m : mobj) : Prop := v_size v <= mlen m /\ match v_kind v, m with VSparse, MSparse _ => True | VSparse, _ => False | _, _ => True end.
Definition is_region (v : view) : Prop := v_kind v <> VMemory.

Lemma reached_inv st : g_reached st -> ginv st.
Proof. intros [ops ->]. apply ginv_reached. Qed.
Lemma put_id {A} (l : list A) n x : nth_error l n = Some x -> put l n x = l.
Proof. revert n. induction l; destruct n; cbn; intros H; try discriminate; [congruence|]. now rewrite IHl. Qed.
Lemma get_int_ok m x : wfm m -> 0 <= x < mlen m -> get_int m x = Ok [mbyte m x].
Proof.
  intros W Hx. destruct m as [l|l|s]; cbn [get_int mlen mbyte] in *.
  1,2: replace (x <? 0) with false by lia; now replace ((x <? 0) || (zlen l <=? x)) with false by lia.
  destruct (sparse_op s (SGet (KInt x)) W) as (f & R & Ef & _ & O & _). cbn [sm_step f_step snd] in O. unfold f_read, in_range in O. rewrite Ef in O.
  replace ((0 <=? x) && (x <? sm_size s) && (0 <=? 1) && (x + 1 <=? sm_size s)) with true in O by lia. destruct (sm_getitem s (KInt x)) as [l|e]; cbn [out_bytes] in O; inversion O. 
  f_equal. replace (rd (f_mem f) x 1) with [f_mem f x] by (apply (nth_ext_z 0); [now rewrite rd_length|]; intros j Hj; change (zlen [f_mem f x]) with 1 in Hj; rewrite rd_nth by lia; replace j with 0 by lia; now rewrite Z.add_0_r). f_equal. symmetry. apply peek_rel; auto. lia.
Qed.

(** a read through any region or memory returns the bytes of the shared memory object, whoever stored them; a region refuses what is outside its own size *)
Theorem C83_read st k v m : g_reached st -> nth_error (g_views st) k = Some v -> nth_error (g_mems st) (v_mem v) = Some m -> serves v m ->
  (forall a n, 0 <= a < v_size v -> 0 <= n -> a + n <= v_size v -> g_step st (GRead k a n) = (st, GB (rd (mbyte m) a n))) /\
  (is_region v -> forall a n, ~ (0 <= a < v_size v /\ 0 <= n /\ a + n <= v_size v) -> g_step st (GRead k a n) = (st, GE ValueError)) /\
  (v_kind v = VMemory -> forall a n, 0 <= a < mlen m -> 0 <= n -> g_step st (GRead k a n) = (st, GB (rd (mbyte m) a (Z.min (a + n) (mlen m) - a)))) /\
  (v_kind v = VMemory -> forall a n, 0 < v_size v -> 0 <= n -> a mod v_size v + n <= mlen m -> g_step st (GRamRead k a n) = (st, GB (rd (mbyte m) (a mod v_size v) n))).
Proof.
  intros H E1 E2 [S1 S2]. apply reached_inv in H. pose proof (ginv_nth _ _ _ H E2) as W. pose proof (proj2 (g_at_spec st k v m) (conj E1 E2)) as E. cbn [g_step]. rewrite E.
  split; [|split; [|split]].
  - intros a n Ha Hn Hl. rewrite v_read_ok; auto.
  - intros Hk a n Hr. rewrite v_read_range; auto.
  - intros Hk a n Ha Hn. unfold v_read. rewrite Hk, get_slice_trunc; auto.
  - intros Hk a n Hs Hn Hl. replace (v_size v =? 0) with false by lia. pose proof (Z.mod_pos_bound a (v_size v) Hs). unfold v_read. rewrite Hk, get_slice_ok; auto. lia.
Qed.
Print Assumptions C83_read.

(** so do mem[x] and mem[a:a+n] of the object itself *)
Theorem C83_read_object st i m : g_reached st -> nth_error (g_mems st) i = Some m ->
  (forall x, 0 <= x < mlen m -> g_step st (GGet i x) = (st, GB [mbyte m x])) /\
  (forall a n, 0 <= a < mlen m -> 0 <= n -> a + n <= mlen m -> g_step st (GGetS i a (a + n)) = (st, GB (rd (mbyte m) a n))).
Proof.
  intros H E. apply reached_inv in H. pose proof (ginv_nth _ _ _ H E) as W. cbn [g_step]. rewrite E. split.
  - intros x Hx. now rewrite get_int_ok.
  - intros a n Ha Hn Hl. rewrite get_slice_ok; auto.
Qed.
Print Assumptions C83_read_object.

(** a write through a region or a memory stores its bytes there and nothing else, in that object and in no other, and keeps the lengths *)
Definition only (st st' : gst) (i : nat) (a : Z) (d : list Z) : Prop :=
  g_views st' = g_views st /\ length (g_mems st') = length (g_mems st) /\ (forall j, j <> i -> nth_error (g_mems st') j = nth_error (g_mems st) j) /\
  forall m, nth_error (g_mems st) i = Some m -> exists m', nth_error (g_mems st') i = Some m' /\ mlen m' = mlen m /\
    (forall x, a <= x < a + zlen d -> mbyte m' x = znth 0 d (x - a)) /\
    (forall x, 0 <= x < mlen m -> ~ (a <= x < a + zlen d) -> mbyte m' x = mbyte m x).
Lemma with_only st i m a d x : nth_error (g_mems st) i = Some m -> 0 <= a -> a + zlen d <= mlen m -> stored m a d x -> snd x = Ok tt -> only st (fst (g_with st i x)) i a d /\ snd (g_with st i x) = GU.
Proof.
  intros E Ha Hl (_ & L & B) Ho. rewrite Ho in B. split; [|cbn; now rewrite Ho]. split; auto. split; [apply put_length|]. split; [intros; now apply put_other|].
  intros m' E'. assert (m' = m) as -> by congruence. exists (fst x). split; [exact (put_same _ _ _ _ E)|]. split; auto. split.
  - intros y Hy. rewrite B by lia. unfold wr. now replace ((a <=? y) && (y <? a + zlen d)) with true by lia.
  - intros y Hy Hn. rewrite B by lia. unfold wr. now replace ((a <=? y) && (y <? a + zlen d)) with false by lia.
Qed.
Definition takes (v : view) (m : mobj) (d : pydata) : Prop := match v_kind v, m, d with VRegion, MMap _, PList _ | VMemory, MMap _, PList _ => False | _, _, _ => True end.
Theorem C83_write st k v m : g_reached st -> nth_error (g_views st) k = Some v -> nth_error (g_mems st) (v_mem v) = Some m -> serves v m ->
  (forall a d, are_bytes (pd_list d) -> takes v m d -> 0 <= a < v_size v -> a + zlen (pd_list d) <= v_size v ->
     snd (g_step st (GWrite k a d)) = GU /\ only st (fst (g_step st (GWrite k a d))) (v_mem v) a (pd_list d)) /\
  (is_region v -> forall a d, ~ (0 <= a < v_size v /\ a + zlen (pd_list d) <= v_size v) -> g_step st (GWrite k a d) = (st, GE ValueError)) /\
  (v_kind v = VMemory -> forall a d, are_bytes (pd_list d) -> takes v m d -> 0 < v_size v -> a mod v_size v + zlen (pd_list d) <= v_size v ->
     snd (g_step st (GRamWrite k a d)) = GU /\ only st (fst (g_step st (GRamWrite k a d))) (v_mem v) (a mod v_size v) (pd_list d)).
Proof.
  intros H E1 E2 [S1 S2]. apply reached_inv in H. pose proof (ginv_nth _ _ _ H E2) as W. pose proof (proj2 (g_at_spec st k v m) (conj E1 E2)) as E. cbn [g_step]. rewrite E.
  assert (Q : forall a d, are_bytes (pd_list d) -> takes v m d -> 0 <= a < v_size v -> a + zlen (pd_list d) <= v_size v -> stored m a (pd_list d) (v_write v m a d) /\ snd (v_write v m a d) = Ok tt).
  { intros a d Hb Ht Ha Hl. split; [apply v_write_stored; auto; destruct (v_kind v); lia|]. apply v_write_ok; auto. unfold takes in Ht. destruct (v_kind v), m, d; tauto. }
  split; [|split].
  - intros a d Hb Ht Ha Hl. destruct (Q a d Hb Ht Ha Hl) as [Q1 Q2]. apply and_comm. apply (with_only st (v_mem v) m); auto; lia.
  - intros Hk a d Hr. rewrite v_write_range by auto. unfold g_with. cbn [fst snd gu]. rewrite put_id by auto. now destruct st.
  - intros Hk a d Hb Ht Hs Hl. replace (v_size v =? 0) with false by lia. pose proof (Z.mod_pos_bound a (v_size v) Hs). destruct (Q (a mod v_size v) d Hb Ht ltac:(lia) Hl) as [Q1 Q2]. apply and_comm. apply (with_only st (v_mem v) m); auto; lia.
Qed.
Print Assumptions C83_write.

(** so do mem[x] = b and mem[a:a+n] = d of the object itself *)
Theorem C83_write_object st i m : g_reached st -> nth_error (g_mems st) i = Some m ->
  (forall x b, 0 <= x < mlen m -> is_byte b -> snd (g_step st (GSet i x b)) = GU /\ only st (fst (g_step st (GSet i x b))) i x [b]) /\
  (forall a d, 0 <= a < mlen m -> a + zlen d <= mlen m -> are_bytes d -> snd (g_step st (GSetS i a (a + zlen d) (PBytes d))) = GU /\ only st (fst (g_step st (GSetS i a (a + zlen d) (PBytes d)))) i a d).
Proof.
  intros H E. apply reached_inv in H. pose proof (ginv_nth _ _ _ H E) as W. cbn [g_step]. rewrite E. split.
  - intros x b Hx Hb. destruct (set_int_stored m x b W ltac:(lia)) as [Q1 Q2]. apply and_comm. apply (with_only st i m); auto; [lia|change (zlen [b]) with 1; lia|apply Q2; auto; lia].
  - intros a d Ha Hl Hb. pose proof (zlen_nonneg d). destruct (set_slice_stored m a (a + zlen d) (PBytes d) W Hb ltac:(lia) Hl ltac:(cbn; lia)) as [Q1 Q2]. apply and_comm. apply (with_only st i m); auto; [lia|]. apply Q2; [lia|]. now destruct m.
Qed.
Print Assumptions C83_write_object.

(** the objects as they are made: an anonymous mmap and a SparseMemory of n zero bytes, a bytearray of the given bytes; making an object, a region or a memory changes no byte of an existing object *)
Theorem C83_made st o : g_reached st ->
  match o with
  | GMmap _ | GBArr _ | GSparse _ =>
      forall st', g_step st o = (st', GU) -> exists m, g_mems st' = g_mems st ++ [m] /\ g_views st' = g_views st /\
        mlen m = match o with GMmap n | GSparse n => n | GBArr l => zlen l | _ => 0 end /\
        forall x, 0 <= x < mlen m -> mbyte m x = match o with GBArr l => znth 0 l x | _ => 0 end
  | GRegion k size i => forall st', g_step st o = (st', GU) -> g_mems st' = g_mems st /\ g_views st' = g_views st ++ [View k size i]
  | GMemory i => forall st', g_step st o = (st', GU) -> exists m, nth_error (g_mems st) i = Some m /\ g_mems st' = g_mems st /\ g_views st' = g_views st ++ [View VMemory (mlen m) i]
  | GRead _ _ _ | GRamRead _ _ _ | GGet _ _ | GGetS _ _ _ => fst (g_step st o) = st
  | _ => True
  end.
Proof.
  intros _. destruct o as [n|l|n|k size i|i|k a n|k a d|k a n|k a d|i x|i x b|i a b|i a b d]; auto; cbn [g_step].
  - intros st' E. destruct (0 <? n) eqn:En; inversion E. exists (MMap (zeros n)). repeat split; [cbn [mlen]; apply zeros_length; lia|]. intros x _. cbn [mbyte]. apply znth_zeros.
  - intros st' E. inversion E. exists (BArr l). repeat split.
  - intros st' E. inversion E. exists (MSparse (sm_init n)). repeat split. intros x Hx. cbn [mbyte]. rewrite (peek_rel _ _ x (sm_rel_init n)) by exact Hx. reflexivity.
  - intros st' E. destruct k; try discriminate; (destruct (nth_error _ _); inversion E; auto).
  - intros st' E. destruct (nth_error _ _) as [m|]; [|discriminate]. exists m. split; auto. unfold py_len in E. repeat match type of E with context [if ?c then _ else _] => destruct c end; inversion E; auto.
  - destruct (g_at st k) as [[v m]|]; auto.
  - destruct (g_at st k) as [[v m]|]; auto. destruct (_ =? _); auto.
  - destruct (nth_error _ _); auto.
  - destruct (nth_error _ _); auto.
Qed.
Print Assumptions C83_made.

(** after any history of such calls through any mixture of views every byte is the one last stored there by a call that succeeded, else the one it was *)
Theorem C83_history st ops i m : g_reached st -> tame_run st ops -> nth_error (g_mems st) i = Some m ->
  let st' := fst (g_run st ops) in
  exists m', nth_error (g_mems st') i = Some m' /\ mlen m' = mlen m /\ forall x, 0 <= x < mlen m ->
    mbyte m' x = match last_store (g_views st') (combine ops (snd (g_run st ops))) i x with Some b => b | None => mbyte m x end.
Proof. intros H T E. destruct (history ops st i m (reached_inv _ H) T E) as [_ Q]. exact Q. Qed.
Print Assumptions C83_history.

(** a bytearray shorter than the region it is given to: a write inside the region lands elsewhere, the object grows and the read-back differs *)
Theorem C83_short_refuted : exists ops k a d, snd (g_run g_init (ops ++ [GWrite k a (PBytes d); GRead k a (zlen d)])) <> snd (g_run g_init ops) ++ [GU; GB d] /\
  match nth_error (g_views (fst (g_run g_init ops))) k with Some v => is_region v /\ 0 <= a /\ a + zlen d <= v_size v | None => False end /\
  option_map mlen (nth_error (g_mems (fst (g_run g_init ops))) 0) = Some 4 /\ option_map mlen (nth_error (g_mems (fst (g_run g_init (ops ++ [GWrite k a (PBytes d)])))) 0) = Some 6.
Proof.
  exists [GBArr [0; 0; 0; 0]; GRegion VRegion 16 0], 0%nat, 8, [1; 2]. split; [vm_compute; discriminate|]. split; [vm_compute; repeat split; discriminate|]. split; vm_compute; reflexivity.
Qed.
Print Assumptions C83_short_refuted.

(** Memory and the RAMs do not check the range: over a bytearray a write across the end makes the object longer than the memory's size *)
Theorem C83_grow_refuted : exists ops k a d,
  match nth_error (g_views (fst (g_run g_init ops))) k with Some v => v_kind v = VMemory /\ 0 <= a < v_size v /\ option_map mlen (nth_error (g_mems (fst (g_run g_init ops))) (v_mem v)) = Some (v_size v) | None => False end /\
  snd (g_step (fst (g_run g_init ops)) (GRamWrite k a (PBytes d))) = GU /\ option_map mlen (nth_error (g_mems (fst (g_step (fst (g_run g_init ops)) (GRamWrite k a (PBytes d))))) 0) = Some 5.
Proof.
  exists [GBArr [0; 0; 0; 0]; GMemory 0], 0%nat, 3, [1; 2]. split; [vm_compute; repeat split; discriminate|]. split; vm_compute; reflexivity.
Qed.
Print Assumptions C83_grow_refuted.

(** two regions, a RAM and the object itself *)
Definition ex_mv : list gop :=
  [GSparse 8192; GBArr [9; 9]; GRegion VRegion 64 0; GRegion VSparse 8192 0; GMemory 0;
   GWrite 0 10 (PBytes [1; 2; 3]); GRamWrite 2 (8192 + 11) (PList [7]); GSet 0 12 8; GWrite 0 63 (PBytes [1; 1]); GSetS 0 4095 4097 (PBytes [5; 6])].
Example C83_nontrivial :
  let st := fst (g_run g_init ex_mv) in
  g_reached st /\ tame_run g_init ex_mv /\
  snd (g_run st [GRead 0 10 3; GRead 1 10 3; GRamRead 2 10 3; GGet 0 11; GRead 1 4094 4; GRead 0 63 2; GGetS 1 0 2]) =
    [GB [1; 7; 8]; GB [1; 7; 8]; GB [1; 7; 8]; GB [7]; GB [0; 5; 6; 0]; GE ValueError; GB [9; 9]] /\
  last_store (g_views st) (combine ex_mv (snd (g_run g_init ex_mv))) 0 11 = Some 7 /\
  last_store (g_views st) (combine ex_mv (snd (g_run g_init ex_mv))) 0 63 = None.
Proof.
  split; [now exists ex_mv|]. split; [|vm_compute; repeat split].
  assert (Q : forall d, forallb is_byteb d = true -> are_bytes d) by (intros d; apply forallb_is_byteb).
  unfold ex_mv. cbn [tame_run tame]. repeat match goal with |- _ /\ _ => split end; try exact I; try lia; try (apply Q; reflexivity);
    try (intros v m E; vm_compute in E; inversion E; subst; cbn; repeat split; lia); intros m E; vm_compute in E; inversion E; subst; cbn; repeat split; lia.
Qed.
