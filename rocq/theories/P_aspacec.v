(** Proofs about address spaces: decoding is unique; reads and writes of mapped ranges succeed. *)
From Coq Require Import ZArith Lia List Bool.
From Coq Require Import ZifyBool ZifyNat.
From Verif Require Import Py S_flat M_sparse S_sparse P_sparse M_memory P_memory M_buddy M_aspace S_aspace P_aspace P_aspacew.
Import ListNotations.
Open Scope Z_scope.

Lemma regs_cover_eq regs e e' a : regs_ok regs -> In e regs -> In e' regs ->
  covers e a -> covers e' a -> e = e'.
Proof.
  intros [_ HF] He He' Hc Hc'. destruct (FOP_in _ _ _ _ HF He He') as [|H]; auto.
  unfold sepe, covers in *. lia.
Qed.

Lemma decodes_unique h d i a l x : hok h -> decodes h d i a l x ->
  forall d' l' x', decodes h d' i a l' x' -> d = d' /\ l = l' /\ x = x'.
Proof.
  intros Hok H. induction H as [i a o Hi Hl Ha|d i a o off al p l x Hi Hk Ha Hp H IH|d i a o regs al e l x Hi Hk He Hc H IH];
    intros d' l' x' H'.
  - inversion H' as [? ? o' Hi'|? ? ? o' ? ? ? ? ? Hi' Hk'|? ? ? o' ? ? ? ? ? Hi' Hk']; subst; auto;
      rewrite Hi in Hi'; inversion Hi'; subst o'; rewrite Hk' in Hl; destruct Hl.
  - inversion H' as [? ? o' Hi' Hl'|? ? ? o' ? ? ? ? ? Hi' Hk' ? Hp' D'|? ? ? o' ? ? ? ? ? Hi' Hk']; subst;
      rewrite Hi in Hi'; inversion Hi'; subst o'.
    + rewrite Hk in Hl'. destruct Hl'.
    + rewrite Hk in Hk'. inversion Hk'; subst. rewrite Hp in Hp'. inversion Hp'; subst.
      destruct (IH _ _ _ D') as (-> & -> & ->). auto.
    + congruence.
  - pose proof (hok_get _ _ _ Hok Hi) as Ho. unfold okobj in Ho. rewrite Hk in Ho.
    inversion H' as [? ? o' Hi' Hl'|? ? ? o' ? ? ? ? ? Hi' Hk' ? Hp'|? ? ? o' ? ? e' ? ? Hi' Hk' He' Hc' D']; subst;
      rewrite Hi in Hi'; inversion Hi'; subst o'.
    + rewrite Hk in Hl'. destruct Hl'.
    + congruence.
    + rewrite Hk in Hk'. inversion Hk'; subst.
      assert (e = e') by (eapply regs_cover_eq; eauto). subst e'.
      destruct (IH _ _ _ D') as (-> & -> & ->). auto.
Qed.

Definition is_mem (k : kind) : Prop := match k with KMem _ | KSparse _ => True | _ => False end.

Definition memdec (lim : nat) (h : heap) (i : nat) (a : Z) : Prop :=
  exists d l x o, decodes h d i a l x /\ (d <= lim)%nat /\ hget h l = Some o /\ is_mem (o_kind o).

Lemma is_mem_skel k : is_mem (skel k) <-> is_mem k.
Proof. destruct k; cbn; tauto. Qed.

Lemma memdec_skel lim h h' i a : hskel h = hskel h' -> memdec lim h i a -> memdec lim h' i a.
Proof.
  intros Hs (d & l & x & o & D & Hd & Hl & Hm). destruct (skel_get _ _ _ _ Hs Hl) as (o' & E & _ & _ & _ & K).
  exists d, l, x, o'. split; [eapply decodes_skel; eauto|]. split; auto. split; auto.
  apply is_mem_skel. rewrite K. now apply is_mem_skel.
Qed.

Lemma content_mem h l x : content h l x <> None -> exists o, hget h l = Some o /\ is_mem (o_kind o).
Proof.
  unfold content. destruct (hget h l) as [o|]; [|congruence]. intros H. exists o. split; auto.
  destruct ((0 <=? x) && (x <? o_size o)); [|congruence]. destruct (o_kind o); cbn; auto; congruence.
Qed.

Lemma memdec_content lim h i a : (exists d l x, decodes h d i a l x /\ (d <= lim)%nat /\ content h l x <> None) ->
  memdec lim h i a.
Proof.
  intros (d & l & x & D & Hd & C). destruct (content_mem _ _ _ C) as (o & E & M). exists d, l, x, o. auto.
Qed.

(** what it means at each kind of object *)
Lemma memdec_leaf lim h i o a : hget h i = Some o -> is_leaf (o_kind o) -> memdec lim h i a ->
  0 <= a < o_size o /\ is_mem (o_kind o) /\ (1 <= lim)%nat.
Proof.
  intros Hi Hl (d & l & x & o' & D & Hd & Hg & Hm).
  inversion D as [? ? o1 Hi1|? ? ? o1 ? ? ? ? ? Hi1 Hk1|? ? ? o1 ? ? ? ? ? Hi1 Hk1]; subst;
    rewrite Hi in Hi1; inversion Hi1; subst o1; try (rewrite Hk1 in Hl; destruct Hl).
  rewrite Hi in Hg. inversion Hg; subst. auto.
Qed.

Lemma memdec_window lim h i o off al a : hget h i = Some o -> o_kind o = KWindow off al ->
  memdec lim h i a ->
  0 <= a < o_size o /\ exists p lim', o_parent o = Some p /\ lim = S lim' /\ memdec lim' h p (a + off).
Proof.
  intros Hi Hk (d & l & x & o' & D & Hd & Hg & Hm).
  inversion D as [? ? o1 Hi1 Hl1|? ? ? o1 ? ? p ? ? Hi1 Hk1 ? Hp D1|? ? ? o1 ? ? ? ? ? Hi1 Hk1]; subst;
    rewrite Hi in Hi1; inversion Hi1; subst o1; try congruence.
  - rewrite Hk in Hl1. destruct Hl1.
  - rewrite Hk in Hk1. inversion Hk1; subst. split; auto. destruct lim as [|lim]; [lia|].
    exists p, lim. split; auto. split; auto. exists d0, l, x, o'. split; auto. split; [lia|auto].
Qed.

Lemma memdec_space lim h i o regs al a : hget h i = Some o -> o_kind o = KSpace regs al ->
  memdec lim h i a ->
  exists e lim', In e regs /\ covers e a /\ lim = S lim' /\ memdec lim' h (e_reg e) (translated e a).
Proof.
  intros Hi Hk (d & l & x & o' & D & Hd & Hg & Hm).
  inversion D as [? ? o1 Hi1 Hl1|? ? ? o1 ? ? p ? ? Hi1 Hk1 ? Hp D1|? ? ? o1 ? ? e ? ? Hi1 Hk1 He Hc D1]; subst;
    rewrite Hi in Hi1; inversion Hi1; subst o1; try congruence.
  - rewrite Hk in Hl1. destruct Hl1.
  - rewrite Hk in Hk1. inversion Hk1; subst. destruct lim as [|lim]; [lia|].
    exists e, lim. split; auto. split; auto. split; auto. exists d0, l, x, o'. split; auto. split; [lia|auto].
Qed.

(** no ties among non-empty disjoint regions *)
Lemma no_ties l : ForallOrdPairs sepe l -> Forall (fun e => 0 < e_size e) l -> any_tie_bad l = false.
Proof.
  induction 1 as [|x l Hx Hl IH]; intros HP; cbn [any_tie_bad]; auto.
  inversion HP as [|? ? Px HP']; subst. rewrite IH by auto. rewrite orb_false_r.
  destruct (existsb (tie_bad x) l) eqn:E; auto. apply existsb_exists in E. destruct E as (y & Hy & E).
  rewrite Forall_forall in Hx, HP'. specialize (Hx y Hy). specialize (HP' y Hy). cbn beta in HP'.
  unfold tie_bad in E. unfold sepe in Hx. lia.
Qed.

Lemma find_ok size regs a n : regs_ok regs -> Forall (fun e => 0 < e_size e) regs ->
  0 <= a < size -> 0 <= n -> exists segs, find_regions size regs a n = Ok segs.
Proof.
  intros [HP HS] Hpos Ha Hn. unfold find_regions.
  replace ((a <? 0) || (size <=? a)) with false by lia. replace (n <? 0) with false by lia.
  unfold sort_entries. rewrite no_ties; eauto.
  - now apply FOP_filter.
  - apply Forall_forall. intros e He. apply filter_In in He. rewrite Forall_forall in Hpos. apply Hpos; tauto.
Qed.

(** state of the segment loops *)
Definition loop_inv (segs regs : list entry) (a n : Z) : Prop :=
  incl segs regs /\ ForallOrdPairs before segs /\ Forall (fun e => 0 < e_size e) segs /\ 0 <= n /\
  (n = 0 -> segs = []) /\
  (forall e, In e segs -> a < e_base e + e_size e /\ e_base e < a + n) /\
  (forall j, 0 <= j < n -> exists e, In e segs /\ covers e (a + j)).

Lemma loop_inv_nil regs a n : loop_inv [] regs a n -> n = 0.
Proof.
  intros (_ & _ & _ & Hn & _ & _ & H). destruct (Z.eq_dec n 0); auto.
  destruct (H 0 ltac:(lia)) as (e & He & _). destruct He.
Qed.

Lemma loop_inv_cons e segs regs a n : loop_inv (e :: segs) regs a n ->
  e_base e <= a /\ let sl := Z.min (e_size e - (a - e_base e)) n in
  0 < sl <= n /\ (forall j, 0 <= j < sl -> covers e (a + j)) /\
  loop_inv segs regs (a + sl) (n - sl).
Proof.
  intros (H1 & H2 & H3 & H4 & H0 & H5 & H6).
  inversion H2 as [|? ? Hb H2']; subst. inversion H3 as [|? ? Hp H3']; subst.
  rewrite Forall_forall in Hb. unfold before in Hb.
  pose proof (H5 e (or_introl eq_refl)) as He.
  assert (Hn : 0 < n) by (destruct (Z.eq_dec n 0) as [E|E]; [specialize (H0 E); discriminate|lia]).
  assert (Hba : e_base e <= a).
  { destruct (H6 0 ltac:(lia)) as (y & Hy & Hc). unfold covers in Hc.
    destruct Hy as [->|Hy]; [lia|]. specialize (Hb y Hy). lia. }
  split; auto. set (sl := Z.min (e_size e - (a - e_base e)) n). cbv zeta.
  split; [lia|]. split; [intros j Hj; unfold covers; lia|].
  split; [intros y Hy; apply H1; now right|]. split; auto. split; auto. split; [lia|].
  assert (Hs : forall y, In y segs -> a + sl <= e_base y /\ 0 < e_size y /\ e_base y < a + n).
  { intros y Hy. specialize (Hb y Hy). rewrite Forall_forall in H3'. specialize (H3' y Hy). cbn beta in H3'.
    specialize (H5 y (or_intror Hy)). lia. }
  split; [|split].
  - intros E. destruct segs as [|y segs]; auto. exfalso. specialize (Hs y (or_introl eq_refl)). lia.
  - intros y Hy. specialize (Hs y Hy). lia.
  - intros j Hj. destruct (H6 (sl + j) ltac:(lia)) as (y & Hy & Hc). destruct Hy as [->|Hy].
    + unfold covers in Hc. lia.
    + exists y. split; auto. now replace (a + sl + j) with (a + (sl + j)) by lia.
Qed.

Lemma loop_inv_start h i o regs al lim a n : hok h -> contained h -> hget h i = Some o ->
  o_kind o = KSpace regs al -> 0 < n -> (forall j, 0 <= j < n -> memdec lim h i (a + j)) ->
  exists segs, find_regions (o_size o) regs a n = Ok segs /\ segs <> [] /\ loop_inv segs regs a n.
Proof.
  intros Hok Hct Hi Hk Hn HM.
  pose proof (hok_get _ _ _ Hok Hi) as Ho. unfold okobj in Ho. rewrite Hk in Ho.
  assert (Hcv : forall j, 0 <= j < n -> exists e, In e regs /\ covers e (a + j)).
  { intros j Hj. destruct (memdec_space _ _ _ _ _ _ _ Hi Hk (HM j Hj)) as (e & _ & He & Hc & _). eauto. }
  assert (Hpos : Forall (fun e => 0 < e_size e) regs).
  { apply Forall_forall. intros e He. destruct (Hct _ _ _ _ _ Hi Hk He). lia. }
  assert (Ha : 0 <= a < o_size o).
  { destruct (Hcv 0 ltac:(lia)) as (e & He & Hc). destruct (Hct _ _ _ _ _ Hi Hk He). unfold covers in Hc. lia. }
  destruct (find_ok (o_size o) regs a n Ho Hpos Ha ltac:(lia)) as (segs & Ef).
  exists segs. split; auto.
  assert (Hin : forall e, In e segs <-> In e regs /\ a < e_base e + e_size e /\ e_base e < a + n).
  { intros e. destruct (find_In _ _ _ _ _ e Ef) as (_ & _ & H). replace (Z.max n 1) with n in H by lia. auto. }
  assert (Hcv2 : forall j, 0 <= j < n -> exists e, In e segs /\ covers e (a + j)).
  { intros j Hj. destruct (Hcv j Hj) as (e & He & Hc). exists e. split; auto. apply Hin.
    unfold covers in Hc. split; [auto|lia]. }
  split. { intros ->. destruct (Hcv2 0 ltac:(lia)) as (e & [] & _). }
  split; [eapply find_incl; eauto|]. split; [eapply find_before; eauto|].
  split. { apply Forall_forall. intros e He. apply Hin in He. rewrite Forall_forall in Hpos. apply Hpos; tauto. }
  split; [lia|]. split; [lia|]. split; auto. intros e He. apply Hin in He. tauto.
Qed.

(** the bytes of a segment decode through its region *)
Lemma memdec_seg h i o regs al lim e a sl : hok h -> hget h i = Some o -> o_kind o = KSpace regs al ->
  In e regs -> (forall j, 0 <= j < sl -> covers e (a + j)) ->
  (forall j, 0 <= j < sl -> memdec (S lim) h i (a + j)) ->
  forall j, 0 <= j < sl -> memdec lim h (e_reg e) (translated e a + j).
Proof.
  intros Hok Hi Hk He Hc HM j Hj.
  pose proof (hok_get _ _ _ Hok Hi) as Ho. unfold okobj in Ho. rewrite Hk in Ho.
  destruct (memdec_space _ _ _ _ _ _ _ Hi Hk (HM j Hj)) as (e' & lim' & He' & Hc' & El & M).
  assert (e' = e) by (eapply regs_cover_eq; eauto). subst e'. inversion El; subst lim'.
  replace (translated e a + j) with (translated e (a + j)); auto.
  unfold translated. destruct (e_off e); lia.
Qed.

Definition rd_complete_at (lim : nat) (rdf : heap -> nat -> Z -> Z -> heap * res (list Z)) : Prop :=
  forall h i a n, hok h -> contained h -> 0 < n ->
    (forall j, 0 <= j < n -> memdec lim h i (a + j)) ->
    exists data, rdf h i a n = (h, Ok data).

Lemma sp_read_loop_complete lim rdf : rd_complete_at lim rdf ->
  forall h i o regs al, hok h -> contained h -> hget h i = Some o -> o_kind o = KSpace regs al ->
  forall segs a n acc, loop_inv segs regs a n -> (forall j, 0 <= j < n -> memdec (S lim) h i (a + j)) ->
    exists data, sp_read_loop rdf h segs a n acc = (h, Ok data).
Proof.
  intros HR h i o regs al Hok Hct Hi Hk segs. induction segs as [|e segs IH]; intros a n acc HI HM;
    cbn [sp_read_loop].
  - rewrite (loop_inv_nil _ _ _ HI). cbn. eauto.
  - pose proof (loop_inv_cons _ _ _ _ _ HI) as (Hba & HI'). cbv zeta in HI'.
    replace (a <? e_base e) with false by lia.
    set (sl := Z.min (e_size e - (a - e_base e)) n) in *. destruct HI' as (Hsl & Hc & HI').
    change (match e_off e with None => a | Some off => a - e_base e + off end) with (translated e a).
    destruct (HR h (e_reg e) (translated e a) sl Hok Hct ltac:(lia)) as (d & Ed).
    { eapply memdec_seg; eauto; [destruct HI as (H1 & _); apply H1; now left|].
      intros j Hj. apply HM. lia. }
    rewrite Ed. apply IH; auto. intros j Hj. replace (a + sl + j) with (a + (sl + j)) by lia. apply HM. lia.
Qed.

Lemma rd_obj_complete lim : rd_complete_at lim (rd_obj lim).
Proof.
  induction lim as [|lim IH]; intros h i a n Hok Hct Hn HM.
  { destruct (HM 0 ltac:(lia)) as (d & l & x & o & D & Hd & _). inversion D; subst; lia. }
  assert (Hex : exists o, hget h i = Some o).
  { destruct (HM 0 ltac:(lia)) as (d & l & x & o & D & _). inversion D; subst; eauto. }
  destruct Hex as (o & Hi). cbn [rd_obj]. rewrite Hi.
  pose proof (hok_get _ _ _ Hok Hi) as Ho. unfold okobj in Ho.
  assert (HL : is_leaf (o_kind o) -> range_ok (o_size o) a n = true /\ is_mem (o_kind o)).
  { intros HL. destruct (memdec_leaf _ _ _ _ _ Hi HL (HM 0 ltac:(lia))) as (Ha0 & Hm & _).
    destruct (memdec_leaf _ _ _ _ _ Hi HL (HM (n - 1) ltac:(lia))) as (Ha1 & _ & _).
    split; auto. apply range_ok_spec. lia. }
  destruct (o_kind o) as [mem|m|p|off al|regs al] eqn:Hk.
  1-3: destruct (HL I) as [Er Hm]; pose proof (proj1 (range_ok_spec _ _ _) Er) as Er'.
  - rewrite Er. cbn [negb]. eauto.
  - rewrite Er. cbn [negb]. destruct Ho as (s & Hrel & Hsz).
    destruct (sparse_content h i o m s a n Hi Hk Hrel Hsz ltac:(lia) ltac:(lia) ltac:(lia)) as [E1 _].
    rewrite E1. eauto.
  - destruct Hm.
  - destruct (memdec_window _ _ _ _ _ _ _ Hi Hk (HM 0 ltac:(lia))) as (Ha0 & p & lim' & Hp & El & _).
    destruct (memdec_window _ _ _ _ _ _ _ Hi Hk (HM (n - 1) ltac:(lia))) as (Ha1 & _).
    replace (range_ok (o_size o) a n) with true by (symmetry; apply range_ok_spec; lia). cbn [negb].
    rewrite Hp. apply IH; auto. intros j Hj.
    destruct (memdec_window _ _ _ _ _ _ _ Hi Hk (HM j Hj)) as (_ & p' & lim'' & Hp' & El' & M).
    rewrite Hp in Hp'. inversion Hp'; subst. inversion El'; subst.
    now replace (a + off + j) with (a + j + off) by lia.
  - destruct (loop_inv_start _ _ _ _ _ _ _ _ Hok Hct Hi Hk Hn HM) as (segs & Ef & Hne & HI).
    rewrite Ef. destruct segs as [|e segs]; [congruence|].
    eapply sp_read_loop_complete; eauto.
Qed.

Definition wr_complete_at (lim : nat) (wrf : heap -> nat -> Z -> pydata -> heap * res unit) : Prop :=
  forall h i a data, hok h -> contained h -> data <> [] -> are_bytes data ->
    (forall j, 0 <= j < zlen data -> memdec lim h i (a + j)) ->
    exists h', wrf h i a (PBytes data) = (h', Ok tt).

Lemma sp_write_loop_complete lim wrf : wr_complete_at lim wrf -> wr_sound_at lim wrf ->
  forall i regs al data, are_bytes data ->
  forall segs h o a start n, hok h -> contained h -> hget h i = Some o -> o_kind o = KSpace regs al ->
    0 <= start -> start + n = zlen data ->
    loop_inv segs regs a n -> (forall j, 0 <= j < n -> memdec (S lim) h i (a + j)) ->
    exists h', sp_write_loop wrf h segs a start n (PBytes data) = (h', Ok tt).
Proof.
  intros HW HWs i regs al data Hb segs.
  induction segs as [|e segs IH]; intros h o a start n Hok Hct Hi Hk Hst Hlen HI HM;
    cbn [sp_write_loop].
  - rewrite (loop_inv_nil _ _ _ HI). cbn. eauto.
  - pose proof (loop_inv_cons _ _ _ _ _ HI) as (Hba & HI'). cbv zeta in HI'.
    replace (a <? e_base e) with false by lia.
    set (sl := Z.min (e_size e - (a - e_base e)) n) in *. destruct HI' as (Hsl & Hc & HI').
    change (match e_off e with None => a | Some off => a - e_base e + off end) with (translated e a).
    cbn [pd_slice].
    assert (Hl1 : zlen (zslice data start (start + sl)) = sl) by (rewrite zslice_length by lia; lia).
    destruct (HW h (e_reg e) (translated e a) (zslice data start (start + sl)) Hok Hct) as (h1 & Ed).
    { intros E. rewrite E in Hl1. change (zlen (@nil Z)) with 0 in Hl1. lia. }
    { now apply are_bytes_zslice. }
    { rewrite Hl1. eapply memdec_seg; eauto; [destruct HI as (H1 & _); apply H1; now left|].
      intros j Hj. apply HM. lia. }
    rewrite Ed.
    destruct (HWs _ _ _ _ _ _ Hok (are_bytes_zslice _ _ _ Hb : are_bytes (pd_list (PBytes _))) Ed)
      as (Hsk & Hok1 & _).
    destruct (skel_get _ _ _ _ (eq_sym Hsk) Hi) as (o1 & Hi1 & _ & _ & _ & K).
    rewrite Hk in K. cbn [skel] in K. apply (proj1 (skel_space _ _ _)) in K.
    eapply IH; eauto; try lia.
    + apply (contained_skel h); auto.
    + intros j Hj. replace (a + sl + j) with (a + (sl + j)) by lia.
      eapply memdec_skel; [symmetry; eauto|]. apply HM. lia.
Qed.

Lemma wr_obj_complete lim : wr_complete_at lim (wr_obj lim).
Proof.
  induction lim as [|lim IH]; intros h i a data Hok Hct Hne Hb HM.
  all: assert (Hn : 0 < zlen data) by (destruct data; [congruence|rewrite zlen_cons; pose proof (zlen_nonneg data); lia]).
  { destruct (HM 0 ltac:(lia)) as (d & l & x & o & D & Hd & _). inversion D; subst; lia. }
  assert (Hex : exists o, hget h i = Some o).
  { destruct (HM 0 ltac:(lia)) as (d & l & x & o & D & _). inversion D; subst; eauto. }
  destruct Hex as (o & Hi). cbn [wr_obj pd_list]. rewrite Hi.
  pose proof (hok_get _ _ _ Hok Hi) as Ho. unfold okobj in Ho.
  assert (HL : is_leaf (o_kind o) -> range_ok (o_size o) a (zlen data) = true /\ is_mem (o_kind o)).
  { intros HL. destruct (memdec_leaf _ _ _ _ _ Hi HL (HM 0 ltac:(lia))) as (Ha0 & Hm & _).
    destruct (memdec_leaf _ _ _ _ _ Hi HL (HM (zlen data - 1) ltac:(lia))) as (Ha1 & _ & _).
    split; auto. apply range_ok_spec. lia. }
  destruct (o_kind o) as [mem|m|p|off al|regs al] eqn:Hk.
  1-3: destruct (HL I) as [Er Hm]; pose proof (proj1 (range_ok_spec _ _ _) Er) as Er'.
  - rewrite Er. cbn [negb]. eauto.
  - rewrite Er. cbn [negb]. destruct Ho as (s & Hrel & Hsz).
    pose proof (sm_write_spec m s a data Hrel) as HW.
    destruct (sm_write m a data) as [m' r'].
    unfold f_write, in_range in HW.
    replace ((0 <=? a) && (a <? f_size s) && (0 <=? zlen data) && (a + zlen data <=? f_size s))
      with true in HW by lia.
    rewrite (proj2 (good_prefix_full _) Hb), Z.eqb_refl in HW. destruct HW as [_ HW].
    destruct r' as [[]|]; [eauto|discriminate].
  - destruct Hm.
  - destruct (memdec_window _ _ _ _ _ _ _ Hi Hk (HM 0 ltac:(lia))) as (Ha0 & p & lim' & Hp & El & _).
    destruct (memdec_window _ _ _ _ _ _ _ Hi Hk (HM (zlen data - 1) ltac:(lia))) as (Ha1 & _).
    replace (range_ok (o_size o) a (zlen data)) with true by (symmetry; apply range_ok_spec; lia). cbn [negb].
    rewrite Hp. apply IH; auto. intros j Hj.
    destruct (memdec_window _ _ _ _ _ _ _ Hi Hk (HM j Hj)) as (_ & p' & lim'' & Hp' & El' & M).
    rewrite Hp in Hp'. inversion Hp'; subst. inversion El'; subst.
    now replace (a + off + j) with (a + j + off) by lia.
  - destruct (loop_inv_start _ _ _ _ _ _ _ _ Hok Hct Hi Hk Hn HM) as (segs & Ef & Hnn & HI).
    rewrite Ef. destruct segs as [|e segs]; [congruence|].
    eapply sp_write_loop_complete; eauto; try lia. apply wr_obj_sound.
Qed.
