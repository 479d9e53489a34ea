(** Proofs about address spaces: ordering of regions, soundness of writes, completeness. *)
From Coq Require Import ZArith Lia List Bool.
From Coq Require Import ZifyBool ZifyNat.
From Verif Require Import Py S_flat M_sparse S_sparse P_sparse M_memory P_memory M_buddy M_aspace S_aspace P_aspace.
Import ListNotations.
Open Scope Z_scope.

(** ** find_regions returns the regions in address order *)

Definition before (e e' : entry) : Prop := e_base e + e_size e <= e_base e'.
Definition le_e (e e' : entry) : Prop :=
  e_base e < e_base e' \/ e_base e = e_base e' /\ e_size e <= e_size e'.

Lemma Forall_insert (P : entry -> Prop) x l : P x -> Forall P l -> Forall P (insert x l).
Proof. intros Hx H. apply Forall_forall. intros y Hy. apply insert_In in Hy.
  destruct Hy as [->|Hy]; auto. eapply Forall_forall in H; eauto. Qed.

Lemma le_e_trans x y z : le_e x y -> le_e y z -> le_e x z.
Proof. unfold le_e. lia. Qed.

Lemma insert_sorted x l : ForallOrdPairs le_e l -> ForallOrdPairs le_e (insert x l).
Proof.
  induction 1 as [|y l Hy Hl IH]; cbn [insert]; [repeat constructor|].
  destruct (entry_ltb y x) eqn:E.
  - constructor; auto. apply Forall_insert; auto. unfold entry_ltb, le_e in *.
    destruct (e_base y =? e_base x) eqn:E1; [|lia]. destruct (e_size y =? e_size x) eqn:E2; lia.
  - assert (H : le_e x y).
    { unfold entry_ltb, le_e in *.
      destruct (e_base y =? e_base x) eqn:E1; [|lia]. destruct (e_size y =? e_size x) eqn:E2; lia. }
    constructor; [|constructor; auto]. constructor; auto.
    eapply Forall_impl; [|exact Hy]. intros z Hz. eapply le_e_trans; eauto.
Qed.

Lemma insert_sep x l : Forall (sepe x) l -> ForallOrdPairs sepe l -> ForallOrdPairs sepe (insert x l).
Proof.
  intros Hx H. induction H as [|y l Hy Hl IH]; cbn [insert]; [repeat constructor|].
  inversion Hx as [|? ? Hxy Hx']; subst. destruct (entry_ltb y x).
  - constructor; [|auto]. apply Forall_insert; auto. unfold sepe in *. lia.
  - constructor; [auto|constructor; auto].
Qed.

Lemma FOP_filter {A} (R : A -> A -> Prop) f l : ForallOrdPairs R l -> ForallOrdPairs R (filter f l).
Proof.
  induction 1 as [|x l Hx Hl IH]; cbn [filter]; [constructor|]. destruct (f x); auto.
  constructor; auto. apply Forall_forall. intros y Hy. apply filter_In in Hy.
  eapply Forall_forall in Hx; eauto. tauto.
Qed.

Lemma FOP_and {A} (R S T : A -> A -> Prop) (P : A -> Prop) l :
  (forall x y, P x -> P y -> R x y -> S x y -> T x y) -> Forall P l ->
  ForallOrdPairs R l -> ForallOrdPairs S l -> ForallOrdPairs T l.
Proof.
  intros HI HP HR. revert HP. induction HR as [|x l Hx Hl IH]; intros HP HS; [constructor|].
  inversion HP as [|? ? Px HP']; subst. inversion HS as [|? ? Sx HS']; subst.
  constructor; auto. apply Forall_forall. intros y Hy.
  rewrite Forall_forall in Hx, Sx, HP'. apply HI; auto.
Qed.

Lemma FOP_in {A} (R : A -> A -> Prop) l x y : ForallOrdPairs R l -> In x l -> In y l ->
  x = y \/ R x y \/ R y x.
Proof.
  induction 1 as [|z l Hz Hl IH]; intros Hx Hy; [destruct Hx|].
  rewrite Forall_forall in Hz. destruct Hx as [->|Hx], Hy as [->|Hy]; auto.
Qed.

Lemma sort_before l l' : Forall (fun e => 0 <= e_base e /\ 0 <= e_size e) l ->
  ForallOrdPairs sepe l -> sort_entries l = Ok l' -> ForallOrdPairs before l'.
Proof.
  intros HP HS E. unfold sort_entries in E. destruct (any_tie_bad l); [discriminate|].
  inversion E; subst. clear E.
  assert (H : ForallOrdPairs le_e (fold_right insert [] l) /\ ForallOrdPairs sepe (fold_right insert [] l)
     /\ forall e, In e (fold_right insert [] l) <-> In e l).
  { induction HS as [|x l Hx Hl IH]; cbn [fold_right]; [repeat split; try constructor; tauto|].
    inversion HP as [|? ? Px HP']; subst. destruct IH as (H1 & H2 & H3'); auto. split; [now apply insert_sorted|].
    split.
    - apply insert_sep; auto. apply Forall_forall. intros y Hy. apply H3' in Hy.
      rewrite Forall_forall in Hx; auto.
    - intros e. rewrite insert_In, H3'. cbn [In]. intuition. }
  destruct H as (H1 & H2 & H3).
  eapply (FOP_and le_e sepe before (fun e => 0 <= e_base e /\ 0 <= e_size e)); eauto.
  - unfold le_e, sepe, before. intros; lia.
  - apply Forall_forall. intros e He. apply H3 in He. rewrite Forall_forall in HP. auto.
Qed.

Lemma find_before size regs a n segs : regs_ok regs -> find_regions size regs a n = Ok segs ->
  ForallOrdPairs before segs.
Proof.
  intros [HP HS] E. unfold find_regions in E. destruct ((a <? 0) || (size <=? a)); [discriminate|].
  destruct (n <? 0); [discriminate|]. eapply sort_before; [| |exact E].
  - apply Forall_forall. intros e He. apply filter_In in He. rewrite Forall_forall in HP. apply HP; tauto.
  - now apply FOP_filter.
Qed.

(** ** stores *)

Definition ceq (c c' : nat -> Z -> option Z) : Prop := forall l x, c l x = c' l x.

Lemma store_ext c c' l x b : ceq c c' -> ceq (store c l x b) (store c' l x b).
Proof. intros H l' x'. unfold store. rewrite !H. reflexivity. Qed.

Lemma stores_ext locs : forall c c' data, ceq c c' -> ceq (stores c locs data) (stores c' locs data).
Proof.
  induction locs as [|[l x] locs IH]; intros c c' [|b data] H; cbn [stores]; auto.
  apply IH. now apply store_ext.
Qed.

Lemma stores_app l1 : forall c d1 l2 d2, length l1 = length d1 ->
  stores c (l1 ++ l2) (d1 ++ d2) = stores (stores c l1 d1) l2 d2.
Proof.
  induction l1 as [|[l x] l1 IH]; intros c [|b d1] l2 d2 H; cbn in H; try discriminate; auto.
  cbn [app stores]. apply IH. lia.
Qed.

Lemma stores_firstn locs : forall c data d2, (length locs <= length data)%nat ->
  stores c locs (data ++ d2) = stores c locs data.
Proof.
  induction locs as [|[l x] locs IH]; intros c [|b data] d2 H; cbn in H; auto; try lia.
  cbn [app stores]. apply IH. lia.
Qed.

Lemma stores_nil c data : stores c [] data = c.
Proof. reflexivity. Qed.

(** consecutive bytes of one memory *)
Definition run_locs (i : nat) (a : Z) (n : nat) : list (nat * Z) := map (fun x => (i, x)) (zseq a n).

Lemma stores_run i : forall data c a, (forall x, a <= x < a + zlen data -> c i x <> None) ->
  forall l x, stores c (run_locs i a (length data)) data l x =
    if Nat.eqb i l && (a <=? x) && (x <? a + zlen data) then Some (znth 0 data (x - a)) else c l x.
Proof.
  induction data as [|b data IH]; intros c a Hc l x.
  - cbn [stores run_locs length zseq map]. change (zlen (@nil Z)) with 0.
    replace (Nat.eqb i l && (a <=? x) && (x <? a + 0)) with false by lia. reflexivity.
  - unfold run_locs. cbn [length zseq map stores]. fold (run_locs i (a + 1) (length data)).
    rewrite zlen_cons in *. pose proof (zlen_nonneg data).
    rewrite IH.
    + unfold store. destruct (Nat.eqb_spec i l) as [->|Hn]; cbn [andb]; [|reflexivity].
      destruct (Z.eq_dec a x) as [->|Hx].
      * replace ((x + 1 <=? x) && (x <? x + 1 + zlen data)) with false by lia.
        replace ((x <=? x) && (x <? x + (1 + zlen data))) with true by lia.
        rewrite Z.eqb_refl. replace (x - x) with 0 by lia. rewrite znth_cons0.
        destruct (c l x) eqn:E; auto. exfalso. apply (Hc x); auto. lia.
      * replace (a =? x) with false by lia.
        destruct ((a + 1 <=? x) && (x <? a + 1 + zlen data)) eqn:E.
        -- replace ((a <=? x) && (x <? a + (1 + zlen data))) with true by lia.
           rewrite znth_cons by lia. f_equal. f_equal. lia.
        -- replace ((a <=? x) && (x <? a + (1 + zlen data))) with false by lia. reflexivity.
    + intros y Hy. unfold store. destruct (Nat.eqb i i && (a =? y)) eqn:E; [lia|].
      apply Hc. lia.
Qed.

(** locations that are not memories stay as they are *)
Lemma stores_none locs : forall c data, (forall j, In j locs -> c (fst j) (snd j) = None) ->
  ceq (stores c locs data) c.
Proof.
  induction locs as [|[l x] locs IH]; intros c [|b data] H l' x'; cbn [stores]; auto.
  assert (Hs : ceq (store c l x b) c).
  { intros l1 x1. unfold store. destruct (Nat.eqb_spec l l1); cbn [andb]; auto. subst.
    destruct (Z.eqb_spec x x1); auto. subst. specialize (H (l1, x1) (or_introl eq_refl)).
    cbn [fst snd] in H. now rewrite H. }
  rewrite (stores_ext locs _ _ data Hs). apply IH. intros j Hj. apply H. now right.
Qed.

(** ** writes *)

Definition dloc : nat * Z := (O, 0).

(** outcome of storing a prefix of [data] through the decoding of [i] from address [a] *)
Definition wrote (lim : nat) (h : heap) (i : nat) (a : Z) (data : list Z) (h' : heap) (full : Prop) : Prop :=
  hskel h' = hskel h /\ hok h' /\
  exists locs, (length locs <= length data)%nat /\ (full -> length locs = length data) /\
    (forall j, 0 <= j < zlen locs -> exists d, (d <= lim)%nat /\
        decodes h d i (a + j) (fst (znth dloc locs j)) (snd (znth dloc locs j))) /\
    ceq (content h') (stores (content h) locs data).

Lemma wrote_nothing lim h i a data (full : Prop) : hok h -> ~ full -> wrote lim h i a data h full.
Proof.
  intros Hok Hf. split; auto. split; auto. exists []. cbn [length]. split; [lia|].
  split; [tauto|]. split; [change (zlen (@nil (nat * Z))) with 0; intros; lia|].
  intros l x. reflexivity.
Qed.

Lemma wrote_mono lim h i a data h' (full full' : Prop) : (full' -> full) ->
  wrote lim h i a data h' full -> wrote lim h i a data h' full'.
Proof.
  intros HI (H1 & H2 & locs & H3 & H4 & H5). split; auto. split; auto. exists locs. tauto.
Qed.

Definition wr_sound_at (lim : nat) (wrf : heap -> nat -> Z -> pydata -> heap * res unit) : Prop :=
  forall h i a data h' r, hok h -> are_bytes (pd_list data) -> wrf h i a data = (h', r) ->
    wrote lim h i a (pd_list data) h' (r = Ok tt).

Lemma pd_list_slice d a b : pd_list (pd_slice d a b) = zslice (pd_list d) a b.
Proof. destruct d; reflexivity. Qed.

Lemma sp_write_loop_sound lim wrf i regs al : wr_sound_at lim wrf ->
  forall segs h o a start n data h' r, hok h -> hget h i = Some o -> o_kind o = KSpace regs al ->
    incl segs regs -> ForallOrdPairs before segs ->
    (forall e, In e segs -> a <= e_base e + e_size e) -> Forall (fun e => 0 <= e_size e) segs ->
    0 <= start -> 0 <= n -> start + n = zlen (pd_list data) -> are_bytes (pd_list data) ->
    sp_write_loop wrf h segs a start n data = (h', r) ->
    wrote (S lim) h i a (zslice (pd_list data) start (start + n)) h' (r = Ok tt).
Proof.
  intros HW segs. induction segs as [|e segs IH];
    intros h o a start n data h' r Hok Hi Hk Hincl Hord Hge Hpos Hst Hn Hlen Hb HS;
    cbn [sp_write_loop] in HS.
  - inversion HS; subst. destruct (0 <? n) eqn:En; [apply wrote_nothing; [auto|discriminate]|].
    replace n with 0 by lia. rewrite zslice_empty by lia.
    split; auto. split; auto. exists []. cbn [length]. split; [lia|]. split; [auto|].
    split; [change (zlen (@nil (nat * Z))) with 0; intros; lia|]. intros l x; reflexivity.
  - destruct (a <? e_base e) eqn:Eb.
    { inversion HS; subst. apply wrote_nothing; [auto|discriminate]. }
    set (sl := Z.min (e_size e - (a - e_base e)) n) in *.
    change (match e_off e with None => a | Some off => a - e_base e + off end)
      with (translated e a) in HS.
    assert (Hsl : 0 <= sl) by (pose proof (Hge e (or_introl eq_refl)); lia).
    destruct (wrf h (e_reg e) (translated e a) (pd_slice data start (start + sl))) as [h1 r1] eqn:E1.
    assert (Hb1 : are_bytes (pd_list (pd_slice data start (start + sl)))).
    { rewrite pd_list_slice. now apply are_bytes_zslice. }
    pose proof (HW _ _ _ _ _ _ Hok Hb1 E1) as H1. rewrite pd_list_slice in H1.
    assert (Hin : In e regs) by (apply Hincl; now left).
    (* the decoding of the region is a decoding of the space *)
    assert (H1' : wrote (S lim) h i a (zslice (pd_list data) start (start + sl)) h1 (r1 = Ok tt)).
    { destruct H1 as (A1 & A2 & locs & A3 & A4 & A5 & A6). split; auto. split; auto. exists locs.
      split; auto. split; auto. split; auto. intros j Hj. destruct (A5 j Hj) as (d & Hd & D).
      exists (S d). split; [lia|]. eapply dec_space; eauto.
      - assert (zlen locs <= sl).
        { assert (Hz : zlen (zslice (pd_list data) start (start + sl)) = sl)
            by (rewrite zslice_length by lia; lia).
          clear -A3 Hz. unfold zlen in *. lia. }
        unfold covers. lia.
      - replace (translated e (a + j)) with (translated e a + j); auto.
        unfold translated. destruct (e_off e); lia. }
    clear H1. destruct H1' as (A1 & A2 & locs & A3 & A4 & A5 & A6).
    assert (Hsplit : zslice (pd_list data) start (start + n) =
              zslice (pd_list data) start (start + sl) ++ zslice (pd_list data) (start + sl) (start + n)).
    { symmetry. rewrite <- zslice_split with (b := start + sl); auto; lia. }
    assert (Hl1 : zlen (zslice (pd_list data) start (start + sl)) = sl) by (rewrite zslice_length by lia; lia).
    destruct r1 as [[]|x1].
    + destruct (skel_get _ _ _ _ (eq_sym A1) Hi) as (o1 & Hi1 & _ & _ & _ & K).
      rewrite Hk in K. cbn [skel] in K. apply (proj1 (skel_space _ _ _)) in K.
      inversion Hord as [|? ? Hbe Hord']; subst. inversion Hpos as [|? ? Hpe Hpos']; subst.
      rewrite Forall_forall in Hbe, Hpos'.
      assert (H2 : wrote (S lim) h1 i (a + sl) (zslice (pd_list data) (start + sl) (start + sl + (n - sl))) h'
                     (r = Ok tt)).
      { eapply IH; eauto; try lia.
        - intros y Hy. apply Hincl. now right.
        - intros y Hy. specialize (Hbe y Hy). specialize (Hpos' y Hy). unfold before in Hbe. cbn beta in Hpos'. lia.
        - now apply Forall_forall. }
      replace (start + sl + (n - sl)) with (start + n) in H2 by lia.
      destruct H2 as (B1 & B2 & locs2 & B3 & B4 & B5 & B6).
      specialize (A4 eq_refl).
      split; [congruence|]. split; auto. exists (locs ++ locs2). rewrite Hsplit, !app_length.
      split; [lia|]. split; [intros Hr; rewrite (B4 Hr); lia|]. split.
      * intros j Hj. rewrite zlen_app in Hj. assert (Hll : zlen locs = sl) by (unfold zlen in *; lia).
        destruct (Z_lt_ge_dec j (zlen locs)).
        -- rewrite znth_app1 by lia. apply A5. lia.
        -- rewrite znth_app2 by lia. destruct (B5 (j - zlen locs) ltac:(lia)) as (d & Hd & D).
           exists d. split; auto. rewrite Hll in *.
           replace (a + sl + (j - sl)) with (a + j) in D by lia.
           eapply decodes_skel; eauto.
      * intros l x. rewrite stores_app by auto. rewrite B6. now apply stores_ext.
    + inversion HS; subst. split; auto. split; auto. exists locs. rewrite Hsplit, app_length.
      split; [lia|]. split; [discriminate|]. split; auto.
      intros l x. rewrite stores_firstn by auto. apply A6.
Qed.

Lemma content_other h i o' l x : l <> i -> hget h i <> None ->
  content (hset h i o') l x = content h l x.
Proof.
  intros Hl Hi. unfold content. rewrite hget_hset by auto.
  destruct (Nat.eqb_spec i l); [congruence|reflexivity].
Qed.

Lemma wrote_leaf h i o a data h' :
  hok h' -> hget h i = Some o -> is_leaf (o_kind o) -> 0 <= a -> a + zlen data <= o_size o -> hskel h' = hskel h ->
  (forall x, 0 <= x < o_size o -> content h i x <> None) ->
  (forall l x, content h' l x =
     if Nat.eqb i l && (a <=? x) && (x <? a + zlen data) then Some (znth 0 data (x - a)) else content h l x) ->
  forall lim full, wrote (S lim) h i a data h' full.
Proof.
  intros Hok' Hi Hlf Ha Hfit Hsk Hmem Hc lim full. split; auto. split; auto.
  exists (run_locs i a (length data)). unfold run_locs. rewrite map_length, zseq_length.
  split; [lia|]. split; [auto|]. split.
  - intros j Hj. rewrite zlen_map in Hj. unfold zlen in Hj. rewrite zseq_length in Hj.
    exists 1%nat. split; [lia|].
    rewrite (znth_map _ 0 dloc) by (unfold zlen; rewrite zseq_length; lia).
    rewrite znth_zseq by lia. cbn [fst snd]. apply (dec_leaf h i (a + j) o); auto. unfold zlen in *; lia.
  - intros l x. fold (run_locs i a (length data)). rewrite stores_run, Hc; auto.
    intros y Hy. apply Hmem. lia.
Qed.

Lemma per_write_strip p a d : strip (KPeriph (fst (per_write p a d))) = strip (KPeriph p).
Proof.
  destruct p as [as_ f g log]. unfold per_write. cbn [p_async p_rd p_wr p_log].
  destruct as_; [reflexivity|]. destruct (g log a d) as [|e]; [reflexivity|destruct e; reflexivity].
Qed.

Lemma wr_obj_sound lim : wr_sound_at lim (wr_obj lim).
Proof.
  induction lim as [|lim IH]; intros h i a data h' r Hok Hb HS; cbn [wr_obj] in HS.
  { inversion HS; subst. apply wrote_nothing; [auto|discriminate]. }
  destruct (hget h i) as [o|] eqn:Hi;
    [|inversion HS; subst; apply wrote_nothing; [auto|discriminate]].
  pose proof (hok_get _ _ _ Hok Hi) as Ho. pose proof Ho as Ho'. unfold okobj in Ho.
  assert (Hi' : hget h i <> None) by congruence.
  pose proof (zlen_nonneg (pd_list data)) as Hnn.
  destruct (o_kind o) as [mem|m|p|off al|regs al] eqn:Hk.
  1-4: destruct (range_ok (o_size o) a (zlen (pd_list data))) eqn:Er; cbn [negb] in HS;
    [apply range_ok_spec in Er|inversion HS; subst; apply wrote_nothing; [auto|discriminate]].
  - destruct data as [d|d]; cbn [pd_list] in *;
      [|inversion HS; subst; apply wrote_nothing; [auto|discriminate]].
    inversion HS; subst; clear HS.
    assert (Hz : zlen (zsplice mem a (a + zlen d) d) = o_size o).
    { rewrite zsplice_length by lia. lia. }
    eapply wrote_leaf; eauto; try lia.
    + apply hok_set; auto.
    + now rewrite Hk.
    + apply hset_map with (o := o); auto. unfold oskel, set_kind. cbn [o_size o_base o_parent o_kind].
      now rewrite Hk.
    + intros x Hx. unfold content. rewrite Hi, Hk. now replace ((0 <=? x) && (x <? o_size o)) with true by lia.
    + intros l x. destruct (Nat.eqb_spec i l) as [<-|Hne]; cbn [andb]; [|apply content_other; auto].
      unfold content. rewrite hget_hset, Nat.eqb_refl, Hi, Hk by auto.
      cbn [set_kind o_size o_kind].
      destruct ((0 <=? x) && (x <? o_size o)) eqn:E.
      * rewrite znth_zsplice by lia.
        destruct (x <? a) eqn:E1; [replace (a <=? x) with false by lia; reflexivity|].
        replace (a <=? x) with true by lia. destruct (x <? a + zlen d) eqn:E2; cbn [andb]; auto.
      * replace ((a <=? x) && (x <? a + zlen d)) with false by lia. reflexivity.
  - destruct Ho as (s & Hrel & Hsz).
    pose proof (sm_write_spec m s a (pd_list data) Hrel) as HW.
    destruct (sm_write m a (pd_list data)) as [m' r'] eqn:Ew. inversion HS; subst; clear HS.
    unfold f_write, in_range in HW.
    replace ((0 <=? a) && (a <? f_size s) && (0 <=? zlen (pd_list data)) && (a + zlen (pd_list data) <=? f_size s))
      with true in HW by lia.
    rewrite (proj2 (good_prefix_full _) Hb), Z.eqb_refl in HW. destruct HW as [Hrel' _].
    assert (Hsk : hskel (hset h i (set_kind o (KSparse m'))) = hskel h).
    { apply hset_map with (o := o); auto. unfold oskel, set_kind. cbn [o_size o_base o_parent o_kind].
      now rewrite Hk. }
    destruct (sparse_content h i o m s a 0 Hi Hk Hrel Hsz ltac:(lia) ltac:(lia) ltac:(lia)) as [_ C1].
    pose proof (hget_hset h i (set_kind o (KSparse m')) i Hi') as G. rewrite Nat.eqb_refl in G.
    destruct (sparse_content _ i _ m' _ a 0 G eq_refl Hrel' Hsz ltac:(cbn; lia) ltac:(lia) ltac:(cbn; lia)) as [_ C2].
    cbn [set_kind o_size f_mem] in C2.
    eapply wrote_leaf; eauto; try lia.
    + apply hok_set; auto. unfold okobj. cbn [set_kind o_kind o_size]. eauto.
    + now rewrite Hk.
    + intros x Hx. rewrite C1 by auto. discriminate.
    + intros l x. destruct (Nat.eqb_spec i l) as [<-|Hne]; cbn [andb]; [|apply content_other; auto].
      destruct ((0 <=? x) && (x <? o_size o)) eqn:E.
      * rewrite C1, C2 by lia. unfold wr. 
        destruct ((a <=? x) && (x <? a + zlen (pd_list data))); reflexivity.
      * unfold content at 1. rewrite G. cbn [set_kind o_size]. rewrite E.
        replace ((a <=? x) && (x <? a + zlen (pd_list data))) with false by lia.
        unfold content. rewrite Hi, E. reflexivity.
  - pose proof (per_write_strip p a (pd_list data)) as HP.
    destruct (per_write p a (pd_list data)) as [p' r']. cbn [fst] in HP. inversion HS; subst; clear HS.
    assert (Hst : hstrip (hset h i (set_kind o (KPeriph p'))) = hstrip h).
    { apply hset_map with (o := o); auto. unfold ostrip, set_kind. cbn [o_size o_base o_parent o_kind].
      now rewrite Hk, HP. }
    split; [now apply strip_skel|]. split; [eapply hok_strip; [symmetry; exact Hst|auto]|].
    exists (run_locs i a (length (pd_list data))). unfold run_locs. rewrite map_length, zseq_length.
    split; [lia|]. split; [auto|]. split.
    + intros j Hj. rewrite zlen_map in Hj. unfold zlen in Hj. rewrite zseq_length in Hj.
      exists 1%nat. split; [lia|].
      rewrite (znth_map _ 0 dloc) by (unfold zlen; rewrite zseq_length; lia).
      rewrite znth_zseq by lia. cbn [fst snd]. apply (dec_leaf h i (a + j) o); auto.
      * now rewrite Hk.
      * unfold zlen in *; lia.
    + intros l x. rewrite stores_none.
      * now apply content_strip.
      * intros j Hj. apply in_map_iff in Hj. destruct Hj as (y & <- & _). cbn [fst snd].
        unfold content. rewrite Hi, Hk. now destruct ((0 <=? y) && (y <? o_size o)).
  - destruct (o_parent o) as [pa|] eqn:Hp;
      [|inversion HS; subst; apply wrote_nothing; [auto|discriminate]].
    destruct (IH _ _ _ _ _ _ Hok Hb HS) as (A1 & A2 & locs & A3 & A4 & A5 & A6).
    split; auto. split; auto. exists locs. split; auto. split; auto. split; auto.
    intros j Hj. destruct (A5 j Hj) as (d & Hd & D). exists (S d). split; [lia|].
    eapply dec_window; eauto; [unfold zlen in *; lia|]. now replace (a + j + off) with (a + off + j) by lia.
  - destruct (find_regions (o_size o) regs a (zlen (pd_list data))) as [segs|x] eqn:Ef;
      [|inversion HS; subst; apply wrote_nothing; [auto|discriminate]].
    destruct segs as [|e segs]; [inversion HS; subst; apply wrote_nothing; [auto|discriminate]|].
    pose proof (find_incl _ _ _ _ _ Ef) as Hincl. pose proof (find_before _ _ _ _ _ Ho Ef) as Hord.
    assert (HH : wrote (S lim) h i a (zslice (pd_list data) 0 (0 + zlen (pd_list data))) h' (r = Ok tt)).
    { eapply sp_write_loop_sound; eauto; try lia.
      - intros y Hy. apply (find_In _ _ _ _ _ y) in Ef. destruct Ef as (_ & _ & Ef). apply Ef in Hy. lia.
      - apply Forall_forall. intros y Hy. apply Hincl in Hy. destruct Ho as [Ho _].
        rewrite Forall_forall in Ho. apply Ho in Hy. lia. }
    rewrite zslice_all in HH by lia. exact HH.
Qed.
