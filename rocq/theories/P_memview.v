(** Lemmas about shared memory objects (C83). *)
From Coq Require Import ZArith List Bool Lia.
From Verif Require Import Py S_flat M_sparse S_sparse P_sparse M_memory P_memory M_aspace P_aspace M_memview S_memview.
Import ListNotations.
Open Scope Z_scope.

Definition wfm (m : mobj) : Prop := match m with MSparse s => sm_reachable (sm_size s) s | _ => True end.

Lemma clamp_in n i : 0 <= i <= n -> slice_clamp n i = i.
Proof. intros H. unfold slice_clamp. destruct (i <? 0) eqn:E; lia. Qed.
Lemma clamp_over n i : 0 <= n <= i -> slice_clamp n i = n.
Proof. intros H. unfold slice_clamp. destruct (i <? 0) eqn:E; lia. Qed.
Lemma bound_clamp n dflt i : 0 <= n -> py_bound n dflt (Some i) = slice_clamp n i.
Proof. intros H. unfold py_bound, slice_clamp. destruct (i <? 0) eqn:E; lia. Qed.

Lemma slice_rd (l : list Z) a n : 0 <= a -> 0 <= n -> a + n <= zlen l -> zslice l a (a + n) = rd (fun x => znth 0 l x) a n.
Proof.
  intros. apply (nth_ext_z 0); [rewrite zslice_length, rd_length by lia; lia|]. intros i Hi. rewrite zslice_length in Hi by lia. rewrite znth_zslice, rd_nth by lia. reflexivity.
Qed.
Lemma sm_size_rel s f : sm_rel s f -> sm_size s = f_size f.
Proof. intros (H & _). auto. Qed.

Lemma sparse_op s o : sm_reachable (sm_size s) s -> exists f, sm_rel s f /\ f_size f = sm_size s /\
  sm_rel (fst (sm_step s o)) (fst (f_step f o)) /\ snd (sm_step s o) = snd (f_step f o) /\ sm_reachable (sm_size s) (fst (sm_step s o)).
Proof.
  intros H. destruct (sm_reachable_rel _ _ H) as (f & R & E). exists f. split; auto. split; auto. pose proof (sm_step_spec s f o R) as P. pose proof (sm_step_reachable _ _ o H) as Q.
  destruct (sm_step s o), (f_step f o). cbn [fst snd] in *. destruct P. auto.
Qed.

Lemma get_slice_trunc m a n : wfm m -> 0 <= a < mlen m -> 0 <= n -> get_slice m a (a + n) = Ok (rd (mbyte m) a (Z.min (a + n) (mlen m) - a)).
Proof.
  intros W Ha Hn. assert (Hl : forall l, 0 <= a < zlen l -> zslice l (slice_clamp (zlen l) a) (slice_clamp (zlen l) (a + n)) = rd (fun x => znth 0 l x) a (Z.min (a + n) (zlen l) - a)).
  { intros l Hl. rewrite (clamp_in _ a) by lia. replace (slice_clamp (zlen l) (a + n)) with (a + (Z.min (a + n) (zlen l) - a)); [apply slice_rd; lia|].
    destruct (Z_le_gt_dec (a + n) (zlen l)); [rewrite clamp_in by lia; lia|rewrite clamp_over by lia; lia]. }
  destruct m as [l|l|s]; cbn [get_slice mlen mbyte] in *; try (now rewrite Hl).
  destruct (sparse_op s (SGet (KSlice (Some a) (Some (a + n)) None)) W) as (f & R & E & _ & O & _). cbn [sm_step f_step snd] in O. unfold step_err in O. rewrite E in O. replace (sm_size s <? 0) with false in O by lia.
  cbn [snd] in O. rewrite !bound_clamp in O by lia. rewrite (clamp_in _ a) in O by lia.
  replace (slice_clamp (sm_size s) (a + n)) with (Z.min (a + n) (sm_size s)) in O by (unfold slice_clamp; destruct (a + n <? 0) eqn:Eq; lia).
  unfold f_read, in_range in O. rewrite E in O. replace ((0 <=? a) && (a <? sm_size s) && (0 <=? Z.min (a + n) (sm_size s) - a) && (a + (Z.min (a + n) (sm_size s) - a) <=? sm_size s)) with true in O by lia.
  destruct (sm_getitem s (KSlice (Some a) (Some (a + n)) None)) as [l|e]; cbn [out_bytes] in O; inversion O. f_equal. unfold rd. apply map_ext_in. intros x Hx. apply in_zrange in Hx. symmetry. apply peek_rel; auto. lia.
Qed.
Lemma get_slice_ok m a n : wfm m -> 0 <= a < mlen m -> 0 <= n -> a + n <= mlen m -> get_slice m a (a + n) = Ok (rd (mbyte m) a n).
Proof. intros. rewrite get_slice_trunc by auto. now replace (Z.min (a + n) (mlen m) - a) with n by lia. Qed.

(** an access that stores [d] from [a] on, or nothing *)
Definition stored (m : mobj) (a : Z) (d : list Z) (x : mobj * res unit) : Prop :=
  wfm (fst x) /\ mlen (fst x) = mlen m /\
  match snd x with
  | Ok _ => forall y, 0 <= y < mlen m -> mbyte (fst x) y = wr (mbyte m) a d y
  | Err _ => forall y, 0 <= y < mlen m -> mbyte (fst x) y = mbyte m y
  end.
Lemma stored_err m a d e : wfm m -> stored m a d (m, Err e).
Proof. intros H. repeat split; auto. Qed.
Lemma list_stored l a d : 0 <= a -> a + zlen d <= zlen l -> zlen (zsplice l a (Z.max a (a + zlen d)) d) = zlen l /\
  forall y, 0 <= y < zlen l -> znth 0 (zsplice l a (Z.max a (a + zlen d)) d) y = wr (fun x => znth 0 l x) a d y.
Proof.
  intros Ha Hl. pose proof (zlen_nonneg d). replace (Z.max a (a + zlen d)) with (a + zlen d) by lia. split; [apply zsplice_length; lia|].
  intros y Hy. rewrite znth_zsplice by lia. reflexivity.
Qed.
Lemma set_slice_stored m a b d : wfm m -> are_bytes (pd_list d) -> 0 <= a <= b -> b <= mlen m -> zlen (pd_list d) = b - a -> stored m a (pd_list d) (set_slice m a b d) /\
  (a < mlen m -> match m, d with MMap _, PList _ => False | _, _ => True end -> snd (set_slice m a b d) = Ok tt).
Proof.
  intros W Hb Hab Hlen Hd. replace b with (a + zlen (pd_list d)) in * by lia. clear b Hd. destruct m as [l|l|s]; cbn [set_slice mlen] in *.
  - destruct d as [x|x]; [|split; [now apply stored_err|tauto]]. cbn [pd_list] in *. rewrite !clamp_in by lia. replace (zlen x =? Z.max 0 (a + zlen x - a)) with true by lia.
    destruct (list_stored l a x ltac:(lia) Hlen) as [S1 S2]. split; auto. split; [exact I|]. split; [exact S1|]. exact S2.
  - rewrite !clamp_in by lia. rewrite (proj2 (forallb_is_byteb _) Hb). destruct (list_stored l a (pd_list d) ltac:(lia) Hlen) as [S1 S2]. split; auto. split; [exact I|]. split; [exact S1|]. exact S2.
  - destruct (sparse_op s (SSetSlice (Some a) (Some (a + zlen (pd_list d))) None (pd_list d)) W) as (f & R & E & R' & O & W'). cbn [sm_step f_step] in R', O, W'. unfold step_err in R', O. rewrite E in *.
    replace (sm_size s <? 0) with false in * by lia. rewrite !bound_clamp in * by lia. rewrite !clamp_in in * by lia. rewrite (proj2 (good_prefix_full _) Hb), Z.eqb_refl in *. cbn [negb] in *.
    replace (zlen (pd_list d) =? a + zlen (pd_list d) - a) with true in * by lia. cbn [negb] in *.
    destruct (sm_setitem s (KSlice (Some a) (Some (a + zlen (pd_list d))) None) (pd_list d)) as [s' r] eqn:Es. cbn [fst snd] in *. destruct (a <? sm_size s) eqn:Ea; cbn [fst snd] in *.
    + destruct r as [[]|e]; cbn [out_unit] in O; [|discriminate]. pose proof (sm_size_rel _ _ R') as Hs'. cbn [f_size] in Hs'. split; [|reflexivity]. split; [cbn [wfm fst]; now rewrite Hs'|]. split; [cbn [mlen fst]; lia|].
      cbn [snd fst mlen]. intros y Hy. cbn [mbyte]. rewrite (peek_rel s' _ y R') by (cbn [f_size]; lia). cbn [f_mem]. unfold wr, mbyte. rewrite <- (peek_rel s f y R) by lia. reflexivity.
    + split; [|intros; lia]. destruct r as [[]|e]; cbn [out_unit] in O; [discriminate|]. cbn [sm_setitem] in Es. unfold slice_indices in Es. replace (sm_size s <? 0) with false in Es by lia.
      rewrite !clamp_in in Es by lia. rewrite (proj2 (forallb_is_byteb _) Hb) in Es. cbn [negb] in Es. replace (a + zlen (pd_list d) - a =? zlen (pd_list d)) with true in Es by lia. cbn [negb] in Es.
      unfold sm_write in Es. replace ((a <? 0) || (sm_size s <=? a)) with true in Es by lia. inversion Es; subst. now apply stored_err.
Qed.
Lemma sm_write_stored s a d : sm_reachable (sm_size s) s -> are_bytes d -> stored (MSparse s) a d (let '(s', r) := sm_write s a d in (MSparse s', r)) /\
  (0 <= a < sm_size s -> a + zlen d <= sm_size s -> snd (sm_write s a d) = Ok tt).
Proof.
  intros W Hb. destruct (sparse_op s (SWrite a d) W) as (f & R & E & R' & O & W'). cbn [sm_step f_step] in R', O, W'. unfold f_write in R', O. rewrite (proj2 (good_prefix_full _) Hb), Z.eqb_refl in *.
  destruct (sm_write s a d) as [s' r] eqn:Es. cbn [fst snd] in *. rewrite E in *. unfold in_range in *. pose proof (zlen_nonneg d).
  destruct ((0 <=? a) && (a <? sm_size s) && (0 <=? zlen d) && (a + zlen d <=? sm_size s)) eqn:Er; cbn [fst snd] in *.
  - destruct r as [[]|e]; cbn [out_unit] in O; [|discriminate]. pose proof (sm_size_rel _ _ R') as Hs'. cbn [f_size] in Hs'. split; [|reflexivity]. split; [cbn [wfm fst]; now rewrite Hs'|]. split; [cbn [mlen fst]; lia|].
    cbn [snd fst mlen]. intros y Hy. cbn [mbyte]. rewrite (peek_rel s' _ y R') by (cbn [f_size]; lia). cbn [f_mem]. unfold wr, mbyte. rewrite <- (peek_rel s f y R) by lia. reflexivity.
  - split; [|intros; lia]. destruct r as [[]|e]; cbn [out_unit] in O; [discriminate|]. destruct (sm_write_atomic s a d s' e Hb (ex_intro _ f R) Es) as [-> _]. now apply stored_err.
Qed.
Lemma set_int_stored m i b : wfm m -> 0 <= i -> stored m i [b] (set_int m i b) /\ (i < mlen m -> is_byte b -> snd (set_int m i b) = Ok tt).
Proof.
  intros W Hi. assert (HL : forall l f, m = f l -> mlen m = zlen l -> (forall l', wfm (f l')) -> (forall l', mlen (f l') = zlen l') -> (forall l' y, mbyte (f l') y = znth 0 l' y) ->
    let x := let i' := if i <? 0 then i + zlen l else i in if (i' <? 0) || (zlen l <=? i') then (m, Err IndexError) else if is_byteb b then (f (zsplice l i' (i' + 1) [b]), Ok tt) else (m, Err ValueError) in
    stored m i [b] x /\ (i < mlen m -> is_byte b -> snd x = Ok tt)).
  { intros l f Em El Hw Hl Hm. cbv zeta. replace (i <? 0) with false by lia. destruct ((i <? 0) || (zlen l <=? i)) eqn:Ei; [split; [now apply stored_err|intros; lia]|].
    destruct (is_byteb b) eqn:Eb; [|split; [now apply stored_err|intros _ Hb; unfold is_byteb, is_byte in *; lia]]. split; auto.
    destruct (list_stored l i [b] Hi ltac:(change (zlen [b]) with 1; lia)) as [S1 S2]. change (zlen [b]) with 1 in *. replace (Z.max i (i + 1)) with (i + 1) in * by lia.
    split; [apply Hw|]. cbn [fst snd]. rewrite Hl, El. split; auto. intros y Hy. rewrite Hm, S2 by auto. subst m. unfold wr. now rewrite Hm. }
  destruct m as [l|l|s]; [apply (HL l MMap); auto|apply (HL l BArr); auto|].
  cbn [set_int sm_setitem]. destruct (is_byteb b) eqn:Eb.
  - assert (Hb : are_bytes [b]) by (constructor; [unfold is_byteb, is_byte in *; lia|constructor]). destruct (sm_write_stored s i [b] W Hb) as [S1 S2]. split; [exact S1|]. cbn [mlen]. intros H1 _. change (zlen [b]) with 1 in S2.
    specialize (S2 ltac:(lia) ltac:(lia)). destruct (sm_write s i [b]). exact S2.
  - split; [|intros _ Hb; unfold is_byteb, is_byte in *; lia]. destruct (sparse_op s (SSetInt i b) W) as (f & R & E & R' & O & W'). cbn [sm_step f_step] in R', O, W'. rewrite Eb, andb_false_r in *. cbn [fst snd sm_setitem] in *.
    destruct (sm_write s i [b]) as [s' r] eqn:Es. cbn [fst snd] in *. destruct r as [[]|e]; cbn [out_unit] in O; [discriminate|].
    pose proof (sm_size_rel _ _ R') as Hs'. rewrite E in Hs'. split; [cbn [wfm fst]; now rewrite Hs'|]. split; [exact Hs'|]. cbn [snd fst mlen mbyte]. intros y Hy. rewrite (peek_rel s' f y R'), (peek_rel s f y R) by lia. reflexivity.
Qed.

(** every memory object stays well formed, whatever is done *)
Lemma size_step s o : sm_reachable (sm_size s) s -> sm_size (fst (sm_step s o)) = sm_size s.
Proof.
  intros H. destruct (sparse_op s o H) as (f & R & E & R' & _ & W). apply sm_reachable_rel in W as (f' & R2 & E2). now rewrite (sm_size_rel _ _ R2).
Qed.
Lemma wfm_step s o : sm_reachable (sm_size s) s -> wfm (MSparse (fst (sm_step s o))).
Proof. intros H. cbn [wfm]. rewrite size_step by auto. now apply sm_step_reachable. Qed.
Lemma wfm_set_slice m a b d : wfm m -> wfm (fst (set_slice m a b d)).
Proof.
  intros W. destruct m as [l|l|s]; cbn [set_slice].
  - destruct d; [|exact I]. destruct (_ =? _); exact I.
  - destruct (forallb _ _); exact I.
  - pose proof (wfm_step s (SSetSlice (Some a) (Some b) None (pd_list d)) W) as H. cbn [sm_step] in H. destruct (sm_setitem _ _ _). exact H.
Qed.
Lemma wfm_set_int m i b : wfm m -> wfm (fst (set_int m i b)).
Proof.
  intros W. destruct m as [l|l|s]; cbn [set_int].
  1,2: destruct (_ || _); [exact I|destruct (is_byteb b); exact I].
  pose proof (wfm_step s (SSetInt i b) W) as H. cbn [sm_step] in H. destruct (sm_setitem _ _ _). exact H.
Qed.
Lemma wfm_write v m a d : wfm m -> wfm (fst (v_write v m a d)).
Proof.
  intros W. unfold v_write. destruct (v_kind v); [destruct (range_ok _ _ _); auto; now apply wfm_set_slice| |now apply wfm_set_slice].
  destruct (range_ok _ _ _); auto. destruct m as [l|l|s]; auto. pose proof (wfm_step s (SWrite a (pd_list d)) W) as H. cbn [sm_step] in H. destruct (sm_write _ _ _). exact H.
Qed.

Lemma put_length {A} (l : list A) n x : length (put l n x) = length l.
Proof. revert n. induction l; destruct n; cbn; auto. Qed.
Lemma put_same {A} (l : list A) n x y : nth_error l n = Some y -> nth_error (put l n x) n = Some x.
Proof. revert n. induction l; destruct n; cbn; auto; discriminate. Qed.
Lemma put_other {A} (l : list A) n k x : k <> n -> nth_error (put l n x) k = nth_error l k.
Proof. revert n k. induction l; destruct n, k; cbn; auto; intros; try lia; auto. Qed.
Lemma put_Forall {A} (P : A -> Prop) l n x : Forall P l -> P x -> Forall P (put l n x).
Proof. revert n. induction l; destruct n; cbn; intros H Hx; auto; inversion H; subst; constructor; auto. Qed.

Definition ginv (st : gst) : Prop := Forall wfm (g_mems st).
Lemma ginv_nth st i m : ginv st -> nth_error (g_mems st) i = Some m -> wfm m.
Proof. intros H E. exact (proj1 (Forall_forall _ _) H _ (nth_error_In _ _ E)). Qed.
Lemma g_at_spec st k v m : g_at st k = Some (v, m) <-> nth_error (g_views st) k = Some v /\ nth_error (g_mems st) (v_mem v) = Some m.
Proof.
  unfold g_at. destruct (nth_error (g_views st) k) as [v'|]; [|split; [discriminate|intros []; discriminate]]. destruct (nth_error (g_mems st) (v_mem v')) as [m'|] eqn:E.
  - split; [intros H; inversion H; subst; auto|intros [H1 H2]; inversion H1; subst; congruence].
  - split; [discriminate|intros [H1 H2]; inversion H1; subst; congruence].
Qed.
Lemma ginv_with st i x : ginv st -> wfm (fst x) -> ginv (fst (g_with st i x)).
Proof. intros H Hx. now apply put_Forall. Qed.
Lemma ginv_new st m : ginv st -> wfm m -> ginv (fst (g_new st m)).
Proof. intros H Hx. apply Forall_app. split; auto. Qed.
Lemma ginv_step st o : ginv st -> ginv (fst (g_step st o)).
Proof.
  intros H. destruct o as [n|l|n|k size i|i|k a n|k a d|k a n|k a d|i x|i x b|i a b|i a b d]; cbn [g_step].
  - destruct (0 <? n); auto. now apply ginv_new.
  - now apply ginv_new.
  - apply ginv_new; auto. cbn [wfm]. exists []. reflexivity.
  - destruct k; auto; destruct (nth_error _ _); auto.
  - destruct (nth_error _ _); auto. destruct (py_len _); auto.
  - destruct (g_at st k) as [[v m]|]; auto.
  - destruct (g_at st k) as [[v m]|] eqn:E; auto. apply g_at_spec in E as [_ E]. apply ginv_with; auto. apply wfm_write. now apply (ginv_nth st (v_mem v)).
  - destruct (g_at st k) as [[v m]|]; auto. destruct (_ =? _); auto.
  - destruct (g_at st k) as [[v m]|] eqn:E; auto. destruct (_ =? _); auto. apply g_at_spec in E as [_ E]. apply ginv_with; auto. apply wfm_write. now apply (ginv_nth st (v_mem v)).
  - destruct (nth_error _ _); auto.
  - destruct (nth_error _ _) eqn:E; auto. apply ginv_with; auto. apply wfm_set_int. now apply (ginv_nth st i).
  - destruct (nth_error _ _); auto.
  - destruct (nth_error _ _) eqn:E; auto. apply ginv_with; auto. apply wfm_set_slice. now apply (ginv_nth st i).
Qed.
Lemma g_run_cons st o ops : g_run st (o :: ops) = let '(st1, r) := g_step st o in let '(st2, rs) := g_run st1 ops in (st2, r :: rs).
Proof. reflexivity. Qed.
Lemma ginv_run ops st : ginv st -> ginv (fst (g_run st ops)).
Proof.
  revert st. induction ops as [|o ops IH]; intros st H; auto. rewrite g_run_cons. pose proof (ginv_step st o H) as H1. destruct (g_step st o) as [st1 r]. specialize (IH st1 H1). destruct (g_run st1 ops). exact IH.
Qed.
Lemma ginv_reached ops : ginv (fst (g_run g_init ops)).
Proof. apply ginv_run. constructor. Qed.

(** reads *)
Lemma v_read_range v m a n : v_kind v <> VMemory -> ~ (0 <= a < v_size v /\ 0 <= n /\ a + n <= v_size v) -> v_read v m a n = Err ValueError.
Proof.
  intros Hk H. unfold v_read. destruct (range_ok (v_size v) a n) eqn:E; [exfalso; apply H; now apply range_ok_spec|]. destruct (v_kind v); auto. congruence.
Qed.
Lemma v_read_ok v m a n : wfm m -> v_size v <= mlen m -> match v_kind v, m with VSparse, MSparse _ => True | VSparse, _ => False | _, _ => True end ->
  0 <= a < v_size v -> 0 <= n -> a + n <= v_size v -> v_read v m a n = Ok (rd (mbyte m) a n).
Proof.
  intros W Hs Hk Ha Hn Hl. unfold v_read. assert (E : range_ok (v_size v) a n = true) by (apply range_ok_spec; auto). rewrite E. destruct (v_kind v).
  - apply get_slice_ok; auto; lia.
  - destruct m as [l|l|s]; try tauto. cbn [mlen] in Hs. destruct (sparse_op s (SRead a n) W) as (f & R & Ef & _ & O & _). cbn [sm_step f_step snd] in O. unfold f_read, in_range in O. rewrite Ef in O.
    replace ((0 <=? a) && (a <? sm_size s) && (0 <=? n) && (a + n <=? sm_size s)) with true in O by lia.
    destruct (sm_read s a n) as [l|e]; cbn [out_bytes] in O; inversion O. f_equal. unfold rd. apply map_ext_in. intros x Hx. apply in_zrange in Hx. symmetry. cbn [mbyte]. apply peek_rel; auto. lia.
  - apply get_slice_ok; auto; lia.
Qed.
(** writes *)
Lemma v_write_range v m a d : v_kind v <> VMemory -> ~ (0 <= a < v_size v /\ a + zlen (pd_list d) <= v_size v) -> v_write v m a d = (m, Err ValueError).
Proof.
  intros Hk H. unfold v_write. destruct (range_ok (v_size v) a _) eqn:E; [exfalso; apply H; apply range_ok_spec in E; tauto|]. destruct (v_kind v); auto. congruence.
Qed.
Lemma v_write_stored v m a d : wfm m -> are_bytes (pd_list d) ->
  match v_kind v with VMemory => 0 <= a < mlen m /\ a + zlen (pd_list d) <= mlen m | _ => v_size v <= mlen m end -> stored m a (pd_list d) (v_write v m a d).
Proof.
  intros W Hb Hk. pose proof (zlen_nonneg (pd_list d)). unfold v_write. destruct (v_kind v).
  - destruct (range_ok _ _ _) eqn:E; [|now apply stored_err]. apply range_ok_spec in E. apply set_slice_stored; auto; lia.
  - destruct (range_ok _ _ _) eqn:E; [|now apply stored_err]. destruct m as [l|l|s]; try now apply stored_err. now apply sm_write_stored.
  - apply set_slice_stored; auto; lia.
Qed.
Lemma v_write_ok v m a d : wfm m -> are_bytes (pd_list d) -> v_size v <= mlen m ->
  match v_kind v, m, d with VSparse, MSparse _, _ => True | VSparse, _, _ => False | _, MMap _, PList _ => False | _, _, _ => True end ->
  0 <= a < v_size v -> a + zlen (pd_list d) <= v_size v -> snd (v_write v m a d) = Ok tt.
Proof.
  intros W Hb Hs Hk Ha Hl. pose proof (zlen_nonneg (pd_list d)). unfold v_write. assert (E : range_ok (v_size v) a (zlen (pd_list d)) = true) by (apply range_ok_spec; auto). rewrite E. destruct (v_kind v).
  - apply set_slice_stored; auto; try lia; destruct m, d; auto.
  - destruct m as [l|l|s]; try tauto. cbn [mlen] in Hs. destruct (sm_write_stored s a (pd_list d) W Hb) as [_ Q]. specialize (Q ltac:(lia) ltac:(lia)). destruct (sm_write s a (pd_list d)). exact Q.
  - apply set_slice_stored; auto; try lia; destruct m, d; auto.
Qed.

(** one step of a history *)
Definition upd (r : gout) (o : option Z) : option Z := match r with GE _ => None | _ => o end.
Definition or_else (o : option Z) (b : Z) : Z := match o with Some x => x | None => b end.
Definition kept (st st' : gst) (s : nat -> Z -> option Z) : Prop :=
  (exists vs, g_views st' = g_views st ++ vs) /\
  forall i m, nth_error (g_mems st) i = Some m -> exists m', nth_error (g_mems st') i = Some m' /\ mlen m' = mlen m /\ forall x, 0 <= x < mlen m -> mbyte m' x = or_else (s i x) (mbyte m x).
Lemma kept_none st s : (forall i x, s i x = None) -> kept st st s.
Proof. intros H. split; [exists []; now rewrite app_nil_r|]. intros i m E. exists m. split; auto. split; auto. intros. now rewrite H. Qed.
Lemma kept_new st m s : (forall i x, s i x = None) -> kept st (fst (g_new st m)) s.
Proof.
  intros H. split; [exists []; cbn; now rewrite app_nil_r|]. intros i m' E. exists m'. split; [cbn; rewrite nth_error_app1; auto; apply nth_error_Some; congruence|]. split; auto. intros. now rewrite H.
Qed.
Lemma kept_view st v s : (forall i x, s i x = None) -> kept st (fst (g_view st v)) s.
Proof. intros H. split; [now exists [v]|]. intros i m' E. exists m'. split; auto. split; auto. intros. now rewrite H. Qed.
Lemma within_wr f a d x : or_else (within a d x) (f x) = wr f a d x.
Proof. unfold within, wr. destruct ((a <=? x) && (x <? a + zlen d)); reflexivity. Qed.
Lemma kept_with st i m a d x : nth_error (g_mems st) i = Some m -> stored m a d x ->
  kept st (fst (g_with st i x)) (fun j y => upd (snd (g_with st i x)) (if Nat.eqb i j then within a d y else None)).
Proof.
  intros E (W & L & S). split; [exists []; cbn; now rewrite app_nil_r|]. intros j m' Ej. cbn [g_with fst g_mems snd]. destruct (Nat.eqb_spec i j) as [<-|Hn].
  - exists (fst x). split; [exact (put_same _ _ _ _ Ej)|]. assert (m' = m) as -> by congruence. split; auto. intros y Hy. destruct (snd x) as [[]|e]; cbn [gu upd]; rewrite S by auto; auto. now rewrite <- within_wr.
  - exists m'. split; [rewrite put_other by auto; exact Ej|]. split; auto. intros y Hy. now destruct (gu (snd x)).
Qed.
Lemma kept_ext st st' s s' : (forall i x, s i x = s' i x) -> kept st st' s -> kept st st' s'.
Proof. intros H [V K]. split; auto. intros i m E. destruct (K i m E) as (m' & E' & L & B). exists m'. split; auto. split; auto. intros. rewrite <- H. auto. Qed.
Lemma g_with_snd st i x : snd (g_with st i x) = gu (snd x).
Proof. reflexivity. Qed.
Lemma step_kept st o : ginv st -> tame st o -> kept st (fst (g_step st o)) (fun i x => upd (snd (g_step st o)) (store_of (g_views st) o i x)).
Proof.
  intros H T. assert (Q : forall r, upd r None = None) by (now destruct r).
  destruct o as [n|l|n|k size i|i|k a n|k a d|k a n|k a d|i x|i x b|i a b|i a b d]; cbn [g_step store_of tame] in *.
  - destruct (0 <? n); [now apply kept_new|now apply kept_none].
  - now apply kept_new.
  - now apply kept_new.
  - destruct k; try (now apply kept_none); (destruct (nth_error _ _); [now apply kept_view|now apply kept_none]).
  - destruct (nth_error _ _); [|now apply kept_none]. destruct (py_len _); [now apply kept_view|now apply kept_none].
  - destruct (g_at st k) as [[v m]|]; now apply kept_none.
  - destruct (g_at st k) as [[v m]|] eqn:E; [|now apply kept_none]. pose proof (proj1 (g_at_spec _ _ _ _) E) as [E1 E2]. rewrite E1. destruct T as [Hb T]. specialize (T v m eq_refl).
    apply (kept_with st (v_mem v) m a (pd_list d)); auto. apply v_write_stored; auto. now apply (ginv_nth st (v_mem v)).
  - destruct (g_at st k) as [[v m]|]; [|now apply kept_none]. destruct (_ =? _); now apply kept_none.
  - destruct (g_at st k) as [[v m]|] eqn:E; [|now apply kept_none]. pose proof (proj1 (g_at_spec _ _ _ _) E) as [E1 E2]. rewrite E1. destruct T as [Hb T]. specialize (T v m eq_refl).
    destruct (v_size v =? 0) eqn:Ez; [now apply kept_none|]. apply (kept_with st (v_mem v) m (a mod v_size v) (pd_list d)); auto. apply v_write_stored; auto; [now apply (ginv_nth st (v_mem v))|].
    destruct (v_kind v); auto. destruct T as [T1 T2]. split; auto. pose proof (Z.mod_pos_bound a (v_size v) ltac:(lia)). lia.
  - destruct (nth_error _ _); now apply kept_none.
  - destruct (nth_error _ _) as [m|] eqn:E; [|now apply kept_none].
    eapply kept_ext; [|apply (kept_with st i m x [b]); auto; apply set_int_stored; auto; now apply (ginv_nth st i)].
    intros j y. cbn beta. f_equal. unfold within. change (zlen [b]) with 1. destruct (Nat.eqb i j); auto. cbn [andb]. destruct (Z.eqb_spec x y) as [->|Hn].
    + replace ((y <=? y) && (y <? y + 1)) with true by lia. now rewrite Z.sub_diag.
    + now replace ((x <=? y) && (y <? x + 1)) with false by lia.
  - destruct (nth_error _ _); now apply kept_none.
  - destruct (nth_error _ _) as [m|] eqn:E; [|now apply kept_none]. destruct T as [Hb T]. destruct (T m eq_refl) as (T1 & T2 & T3). apply (kept_with st i m a (pd_list d)); auto. apply set_slice_stored; auto. now apply (ginv_nth st i).
Qed.
(** the views made later do not matter to an earlier step *)
Lemma store_of_app vs vs2 st o i x : g_views st = vs -> upd (snd (g_step st o)) (store_of (vs ++ vs2) o i x) = upd (snd (g_step st o)) (store_of vs o i x).
Proof.
  intros <-. destruct o as [n|l|n|k size j|j|k a n|k a d|k a n|k a d|j y|j y b|j a b|j a b d]; auto; cbn [g_step store_of]; unfold g_at;
  (destruct (nth_error (g_views st) k) as [v|] eqn:E; [rewrite nth_error_app1 by (apply nth_error_Some; congruence); now rewrite E|reflexivity]).
Qed.
Lemma history ops : forall st i m, ginv st -> tame_run st ops -> nth_error (g_mems st) i = Some m ->
  (exists vs, g_views (fst (g_run st ops)) = g_views st ++ vs) /\
  exists m', nth_error (g_mems (fst (g_run st ops))) i = Some m' /\ mlen m' = mlen m /\ forall x, 0 <= x < mlen m ->
    mbyte m' x = or_else (last_store (g_views (fst (g_run st ops))) (combine ops (snd (g_run st ops))) i x) (mbyte m x).
Proof.
  induction ops as [|o ops IH]; intros st i m H T E.
  - split; [exists []; cbn; now rewrite app_nil_r|]. exists m. auto.
  - destruct T as [T1 T2]. rewrite g_run_cons. pose proof (step_kept st o H T1) as [[vs V] K]. pose proof (ginv_step st o H) as H1. pose proof (fun i x vs2 => store_of_app (g_views st) vs2 st o i x eq_refl) as SA.
    destruct (g_step st o) as [st1 r]. cbn [fst snd] in *. destruct (K i m E) as (m1 & E1 & L1 & B1). specialize (IH st1 i m1 H1 T2 E1). destruct (g_run st1 ops) as [st2 rs]. cbn [fst snd] in *. destruct IH as ([vs2 V2] & m2 & E2 & L2 & B2).
    split; [exists (vs ++ vs2); now rewrite V2, V, app_assoc|]. exists m2. split; auto. split; [congruence|]. intros x Hx. rewrite B2 by lia. rewrite B1 by lia. cbn [combine last_store].
    destruct (last_store _ _ _ _); [reflexivity|]. cbn [or_else]. rewrite V2, V, <- app_assoc. specialize (SA i x (vs ++ vs2)). unfold upd in *. destruct r; auto; now rewrite SA.
Qed.
