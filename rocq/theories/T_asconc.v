(** Concurrent reads and writes through address spaces, windows and regions (C82). *)
From Coq Require Import ZArith List Bool Lia.
From Verif Require Import Py M_sparse M_memory M_buddy M_aspace S_aspace P_aspace P_aspaceh M_asconc S_asconc P_asconc T_aspace.
Import ListNotations.
Open Scope Z_scope.

(** C82: a call that is not interrupted is the read or write of C11 and C12: from some number of steps of its task on, the heap and the answer are those
    of [rd_obj] and [wr_obj]. *)
Theorem C82_alone : forall lim h, a_reach h ->
  (forall i a n, exists k, forall k', (k <= k')%nat ->
     fst (crun lim (c_init h) (CCall (RCall i a n) :: repeat (CRun 0) k')) = {| c_h := fst (rd_obj lim h i a n); c_ts := [PRet (snd (rd_obj lim h i a n))] |}) /\
  (forall i a d, exists k, forall k', (k <= k')%nat ->
     fst (crun lim (c_init h) (CCall (WCall i a d) :: repeat (CRun 0) k')) =
       {| c_h := fst (wr_obj lim h i a d); c_ts := [PRet (match snd (wr_obj lim h i a d) with Ok _ => Ok [] | Err e => Err e end)] |}).
Proof.
  intros lim h HR. pose proof (a_reach_hok _ HR) as Hok.
  assert (HF : forall p h0, exists k, forall k', (k <= k')%nat -> fst (crun lim {| c_h := h0; c_ts := [p] |} (repeat (CRun 0) k')) = {| c_h := fst (finish h0 p); c_ts := [PRet (snd (finish h0 p))] |}).
  { induction p as [r|c k IH]; intros h0.
    - exists O. intros k' _. cbn [finish fst snd]. induction k' as [|k' IHk]; [reflexivity|]. cbn [repeat crun cstep nth_error c_ts].
      destruct (crun lim {| c_h := h0; c_ts := [PRet r] |} (repeat (CRun 0) k')). exact IHk.
    - cbn [finish]. destruct (exec h0 c) as [h1 r] eqn:E. destruct (IH r h1) as (n & Hn). exists (S n). intros [|k'] Hk; [lia|]. cbn [repeat crun cstep nth_error c_ts c_h]. rewrite E. cbn [set_nth].
      specialize (Hn k' ltac:(lia)). destruct (crun lim {| c_h := h1; c_ts := [k r] |} (repeat (CRun 0) k')). exact Hn. }
  assert (HC : forall c k', fst (crun lim (c_init h) (CCall c :: repeat (CRun 0) k')) = fst (crun lim {| c_h := h; c_ts := [call_prog lim h c] |} (repeat (CRun 0) k'))).
  { intros c k'. cbn [crun cstep c_init c_h c_ts app]. now destruct (crun lim {| c_h := h; c_ts := [call_prog lim h c] |} (repeat (CRun 0) k')). }
  split.
  - intros i a n. destruct (HF (rd_prog lim h i a n) h) as (k & Hk). exists k. intros k' Hk'. rewrite HC. cbn [call_prog]. rewrite Hk, rd_alone by auto. reflexivity.
  - intros i a d. destruct (HF (wr_prog lim h i a d) h) as (k & Hk). exists k. intros k' Hk'. rewrite HC. cbn [call_prog]. rewrite Hk, wr_alone by auto. reflexivity.
Qed.
Print Assumptions C82_alone.

(** C82: whatever the tasks do, the accesses to memories and peripherals happen one after the other; each belongs to a call.  A call has, so far, accessed the bytes
    of the addresses of a beginning of its range, each once, in order; a write with the data given for them.  A call that has ended with success has accessed its whole
    range; all its accesses succeeded, and a read returns the bytes answered, in order. *)
Theorem C82_calls : forall lim h0 hist y log, a_reach h0 -> crun lim (c_init h0) hist = (y, log) ->
  seqrun h0 (map ev_acc log) = (c_h y, map ev_ans log) /\
  Forall (fun e => (ev_call e < length (calls hist))%nat) log /\
  length (c_ts y) = length (calls hist) /\
  (forall t i a n, nth_error (calls hist) t = Some (RCall i a n) -> exists p, nth_error (c_ts y) t = Some p /\
     Forall (fun e => is_rd (ev_acc e)) (mine t log) /\
     exists m, 0 <= m <= Z.max n 0 /\ decoded h0 i a m (locs_of (mine t log)) /\
       forall data, p = PRet (Ok data) -> 0 <= n /\ m = n /\ exists ds, map ev_ans (mine t log) = map (@Ok (list Z)) ds /\ data = concat ds) /\
  (forall t i a d, nth_error (calls hist) t = Some (WCall i a d) -> exists p, nth_error (c_ts y) t = Some p /\
     Forall (fun e => is_wr (ev_acc e)) (mine t log) /\
     exists m, 0 <= m <= zlen (pd_list d) /\ decoded h0 i a m (locs_of (mine t log)) /\ data_of (mine t log) = firstn (Z.to_nat m) (pd_list d) /\
       forall r, p = PRet (Ok r) -> m = zlen (pd_list d) /\ exists us, map ev_ans (mine t log) = map (@Ok (list Z)) us).
Proof.
  intros lim h0 hist y log HR E. pose proof (a_reach_hok _ HR) as Hok. pose proof (cinv_all lim h0 hist y log Hok E) as V.
  split; [exact (crun_seq lim hist _ _ _ E)|]. split; [apply V|]. split; [apply V|]. split.
  - intros t i a n Ht. exact (call_done lim h0 _ y log t _ Hok V Ht).
  - intros t i a d Ht. destruct (call_done lim h0 _ y log t _ Hok V Ht) as (p & Hp & W1 & m & Hm & W2 & W3 & W4). exists p. split; auto. split; auto. exists m. split; auto. split; auto. split; auto.
    rewrite W3. unfold zslice. cbn [Z.to_nat skipn]. f_equal. lia.
Qed.
Print Assumptions C82_calls.

(** C82: every byte a read returns is what its location held at some moment between the call and its end; in particular what it held at the call if no
    task stored anything there since. *)
Theorem C82_read_bytes : forall lim h0 hist1 i a n hist2 y1 log1 y2 log2 data,
  a_reach h0 -> lawful h0 -> byte_calls (calls (hist1 ++ CCall (RCall i a n) :: hist2)) ->
  crun lim (c_init h0) hist1 = (y1, log1) -> crun lim y1 (CCall (RCall i a n) :: hist2) = (y2, log2) ->
  nth_error (c_ts y2) (length (calls hist1)) = Some (PRet (Ok data)) ->
  0 <= n /\ zlen data = n /\
  forall j, 0 <= j < n -> exists d l x, decodes h0 d i (a + j) l x /\
    (exists k, (k <= length log2)%nat /\ forall b, content (fst (seqrun (c_h y1) (map ev_acc (firstn k log2)))) l x = Some b -> znth 0 data j = b) /\
    ((forall e, In e log2 -> ~ writes_to e l x) -> forall b, content (c_h y1) l x = Some b -> znth 0 data j = b).
Proof.
  intros lim h0 hist1 i a n hist2 y1 log1 y2 log2 data HR HL HB E1 E2 Ep. pose proof (a_reach_hok _ HR) as Hok.
  set (hist := hist1 ++ CCall (RCall i a n) :: hist2) in *.
  assert (E : crun lim (c_init h0) hist = (y2, log1 ++ log2)) by (unfold hist; now rewrite crun_app, E1, E2).
  pose proof (cinv_all lim h0 hist1 y1 log1 Hok E1) as V1. pose proof (cinv_all lim h0 hist y2 _ Hok E) as V.
  assert (Hcs : calls hist = calls hist1 ++ RCall i a n :: calls hist2) by (unfold hist, calls; now rewrite flat_map_app).
  set (t := length (calls hist1)) in *.
  assert (Ht : nth_error (calls hist) t = Some (RCall i a n)) by (rewrite Hcs, nth_error_app2, Nat.sub_diag by lia; reflexivity).
  destruct (call_done lim h0 _ y2 _ t _ Hok V Ht) as (p & Hp & W1 & m & Hm & W2 & W3). rewrite Ep in Hp. inversion Hp; subst p. destruct (W3 data eq_refl) as (Hn & -> & ds & W4 & W5). clear W3 Hp.
  rewrite mine_app, (mine_none t log1 t) in W1, W2, W4 by (try apply (v_ids _ _ _ _ _ V1); lia). cbn [app] in W1, W2, W4.
  pose proof (crun_seq lim _ _ _ _ E2) as Sq. pose proof (v_ok _ _ _ _ _ V1) as Hok1. pose proof (v_sk _ _ _ _ _ V1) as Hs1.
  pose proof (log_bytes lim h0 _ y2 _ Hok V HB) as Hby. apply Forall_app in Hby as [_ Hby].
  assert (HA : forall la e lb l x k d, log2 = la ++ e :: lb -> ev_acc e = RdA l x k -> ev_ans e = Ok d ->
    0 <= k /\ zlen d = k /\ forall j b, 0 <= j < k -> content (fst (seqrun (c_h y1) (map ev_acc la))) l (x + j) = Some b -> znth 0 d j = b).
  { intros la e lb l x k d El Ea Er. destruct (log_at log2 _ _ la e lb Sq El) as (h1 & h2 & A1 & A2 & A3). rewrite Ea in A2. destruct (seqrun_shape (map ev_acc la) (c_h y1) Hok1) as [B1 B2]. rewrite A1 in *. cbn [fst] in *.
    apply exec_rd in A2 as [_ A2]; auto. apply A2; auto. eapply lawful_skel; [|exact HL]. congruence. }
  destruct (rd_index (mine t log2) ds W1 W4) as [I1 I2].
  { intros e l x k d He Ea Er. apply in_mine in He as [He _]. apply in_split in He as (la & lb & He). destruct (HA la e lb l x k d He Ea Er) as (? & ? & _). auto. }
  destruct W2 as [D1 D2]. split; auto. split; [subst data; lia|]. intros j Hj. destruct (D2 j Hj) as (dd & D). destruct (I2 j ltac:(lia)) as (e & l & x & k & d & q & B1 & B2 & B3 & B4 & B5 & B6).
  rewrite B5 in D. cbn [fst snd] in D. exists dd, l, (x + q). split; auto. apply in_mine in B1 as [B1 _]. apply in_split in B1 as (la & lb & B1).
  destruct (HA la e lb l x k d B1 B2 B3) as (_ & _ & HC). rewrite W5, B6. split.
  - exists (length la). rewrite B1, app_length. split; [lia|]. rewrite firstn_app, Nat.sub_diag, firstn_all. cbn [firstn]. rewrite app_nil_r. intros b Hb. exact (HC q b B4 Hb).
  - intros Hno b Hb. apply HC; auto. rewrite <- Hb. destruct (log_at log2 _ _ la e lb Sq B1) as (h1 & h2 & A1 & _). rewrite A1. cbn [fst]. eapply seq_keep; eauto.
    + rewrite B1 in Hby. apply Forall_app in Hby. tauto.
    + intros e' He'. apply Hno. rewrite B1. apply in_or_app. now left.
Qed.
Print Assumptions C82_read_bytes.

(** C82: every byte of a write that has ended is stored by one access of that call; if no access stored anything at its location later (and the location
    is a memory), the byte is there. *)
Theorem C82_write_bytes : forall lim h0 hist1 i a D hist2 y1 log1 y2 log2 r,
  a_reach h0 -> byte_calls (calls (hist1 ++ CCall (WCall i a D) :: hist2)) ->
  crun lim (c_init h0) hist1 = (y1, log1) -> crun lim y1 (CCall (WCall i a D) :: hist2) = (y2, log2) ->
  nth_error (c_ts y2) (length (calls hist1)) = Some (PRet (Ok r)) ->
  forall j, 0 <= j < zlen (pd_list D) -> exists d l x la e lb, decodes h0 d i (a + j) l x /\
    log2 = la ++ e :: lb /\ ev_call e = length (calls hist1) /\ writes_to e l x /\
    ((forall e', In e' lb -> ~ writes_to e' l x) -> content h0 l x <> None -> content (c_h y2) l x = Some (znth 0 (pd_list D) j)).
Proof.
  intros lim h0 hist1 i a D hist2 y1 log1 y2 log2 r HR HB E1 E2 Ep j Hj. pose proof (a_reach_hok _ HR) as Hok.
  set (hist := hist1 ++ CCall (WCall i a D) :: hist2) in *.
  assert (E : crun lim (c_init h0) hist = (y2, log1 ++ log2)) by (unfold hist; now rewrite crun_app, E1, E2).
  pose proof (cinv_all lim h0 hist1 y1 log1 Hok E1) as V1. pose proof (cinv_all lim h0 hist y2 _ Hok E) as V.
  assert (Hcs : calls hist = calls hist1 ++ WCall i a D :: calls hist2) by (unfold hist, calls; now rewrite flat_map_app).
  set (t := length (calls hist1)) in *.
  assert (Ht : nth_error (calls hist) t = Some (WCall i a D)) by (rewrite Hcs, nth_error_app2, Nat.sub_diag by lia; reflexivity).
  destruct (call_done lim h0 _ y2 _ t _ Hok V Ht) as (p & Hp & W1 & m & Hm & W2 & W3 & W4). rewrite Ep in Hp. inversion Hp; subst p. destruct (W4 r eq_refl) as (-> & us & W5). clear W4 Hp.
  rewrite mine_app, (mine_none t log1 t) in W1, W2, W3, W5 by (try apply (v_ids _ _ _ _ _ V1); lia). cbn [app] in W1, W2, W3, W5. rewrite zslice_all in W3 by lia.
  pose proof (crun_seq lim _ _ _ _ E2) as Sq. pose proof (crun_seq lim _ _ _ _ E1) as Sq1. pose proof (v_ok _ _ _ _ _ V1) as Hok1.
  pose proof (log_bytes lim h0 _ y2 _ Hok V HB) as Hby. apply Forall_app in Hby as [Hby1 Hby].
  destruct W2 as [D1 D2]. destruct (D2 j Hj) as (dd & DD). destruct (wr_index (mine t log2) W1 j ltac:(lia)) as (e & l & x & d & q & B1 & B2 & B3 & B4 & B5).
  rewrite B4 in DD. cbn [fst snd] in DD. assert (Ha : exists u, ev_ans e = Ok u).
  { assert (In (ev_ans e) (map ev_ans (mine t log2))) as H by now apply in_map. rewrite W5 in H. apply in_map_iff in H as (u & H & _). eauto. }
  destruct Ha as (u & Ha). apply in_mine in B1 as [B1 Bt]. apply in_split in B1 as (la & lb & B1). exists dd, l, (x + q), la, e, lb. split; auto. split; auto. split; auto. split.
  - split; rewrite B2; [exact I|]. apply in_zlocs. split; auto. lia.
  - intros Hno Hc. destruct (log_at log2 _ _ la e lb Sq B1) as (h1 & h2 & A1 & A2 & A3). destruct (seqrun_shape (map ev_acc la) (c_h y1) Hok1) as [_ S2]. rewrite A1 in S2. cbn [fst] in S2.
    rewrite B1 in Hby. apply Forall_app in Hby as [Hya Hy]. inversion Hy as [|? ? Hye Hyb]; subst.
    destruct (exec_shape h1 (ev_acc e) S2) as [_ S3]. rewrite A2 in S3. cbn [fst] in S3. rewrite (seq_keep lb h2 (c_h y2) l (x + q) S3 A3 Hyb Hno).
    rewrite B2 in A2. unfold bytes_acc in Hye. rewrite B2 in Hye. destruct (exec_wr h1 l x d h2 _ S2 Hye A2) as (_ & X & _). rewrite (X u Ha q B3); [congruence|].
    assert (N1 : content (c_h y1) l (x + q) <> None).
    { pose proof (seq_some (map ev_acc log1) h0 l (x + q) Hok) as N. cbn [c_init c_h] in Sq1. rewrite Sq1 in N. apply N; auto. now apply Forall_map. }
    pose proof (seq_some (map ev_acc la) (c_h y1) l (x + q) Hok1) as N. rewrite A1 in N. apply N; auto. now apply Forall_map.
Qed.
Print Assumptions C82_write_bytes.

(** C82: a byte into which no access stored anything is what it was. *)
Theorem C82_others_unchanged : forall lim h0 hist y log l x,
  a_reach h0 -> byte_calls (calls hist) -> crun lim (c_init h0) hist = (y, log) ->
  (forall e, In e log -> ~ writes_to e l x) -> content (c_h y) l x = content h0 l x.
Proof.
  intros lim h0 hist y log l x HR HB E Hno. pose proof (a_reach_hok _ HR) as Hok. pose proof (cinv_all lim h0 hist y log Hok E) as V.
  pose proof (crun_seq lim _ _ _ _ E) as Sq. eapply seq_keep; eauto. eapply log_bytes; eauto.
Qed.
Print Assumptions C82_others_unchanged.

(** a read across two regions begins; a write to the same range is made between its two accesses *)
Definition torn_hist : list cop := [CCall (RCall 0 6 4); CRun 0; CCall (WCall 0 6 (PBytes [1; 2; 3; 4])); CRun 1; CRun 1; CRun 0].
Example C82_nontrivial :
  c_ts (fst (crun 20 (c_init ex_heap) torn_hist)) = [PRet (Ok [0; 0; 3; 4]); PRet (Ok [])] /\
  map (fun e => (ev_call e, locs_of [e])) (snd (crun 20 (c_init ex_heap) torn_hist)) =
    [(0%nat, [(1%nat, 6); (1%nat, 7)]); (1%nat, [(1%nat, 6); (1%nat, 7)]); (1%nat, [(2%nat, 4); (2%nat, 5)]); (0%nat, [(2%nat, 4); (2%nat, 5)])] /\
  byte_calls (calls torn_hist) /\ lawful ex_heap.
Proof.
  split; [vm_compute; reflexivity|]. split; [vm_compute; reflexivity|]. split.
  - intros i a d [H|[H|[]]]; inversion H; subst. repeat constructor; unfold is_byte; lia.
  - intros i o p log a n d Hi Hk. do 5 (destruct i as [|i]; [vm_compute in Hi; inversion Hi; subst; discriminate Hk|]). destruct i; discriminate Hi.
Qed.

(** C82 does not hold for whole reads: a read across two regions may return a mixture that was never there. *)
Theorem C82_torn_refuted :
  ~ (forall lim h0 hist y log t i a n data, a_reach h0 -> crun lim (c_init h0) hist = (y, log) ->
       nth_error (calls hist) t = Some (RCall i a n) -> nth_error (c_ts y) t = Some (PRet (Ok data)) ->
       exists k, snd (rd_obj lim (fst (seqrun h0 (map ev_acc (firstn k log)))) i a n) = Ok data).
Proof.
  intros H. destruct (H 20%nat ex_heap torn_hist _ _ 0%nat 0%nat 6 4 [0; 0; 3; 4] ex_reach (surjective_pairing _) eq_refl eq_refl) as (k & Hk).
  do 5 (destruct k as [|k]; [vm_compute in Hk; discriminate Hk|]). vm_compute in Hk. discriminate Hk.
Qed.
Print Assumptions C82_torn_refuted.
