(** Proofs: an address space is a target that stores bytes. *)
From Coq Require Import ZArith Lia List Bool.
From Coq Require Import ZifyBool ZifyNat.
From Verif Require Import Py S_flat M_sparse S_sparse P_sparse M_memory P_memory M_buddy S_buddy P_buddy
  M_aspace S_aspace P_aspace P_aspacew P_aspacec P_aspaceh P_aspacep P_aspacer M_axisframe P_axisframe M_axi S_axi P_axi P_axislave P_axiram
  M_astgt S_astgt.
Import ListNotations.
Open Scope Z_scope.

(** ** [locate] is [decodes] *)
Lemma locate_sound lim : forall h i a l x, locate lim h i a = Some (l, x) ->
  exists d, decodes h d i a l x /\ (d <= lim)%nat.
Proof.
  induction lim as [|lim IH]; intros h i a l x E; cbn [locate] in E; [discriminate|].
  destruct (hget h i) as [o|] eqn:Hi; [|discriminate].
  destruct (o_kind o) as [mem|m|p|off al|regs al] eqn:Hk.
  1-4: destruct ((0 <=? a) && (a <? o_size o)) eqn:Er; [|discriminate].
  1-3: injection E as <- <-; exists 1%nat; split; [|lia]; eapply dec_leaf; eauto; [rewrite Hk; exact I|lia].
  - destruct (o_parent o) as [p|] eqn:Hp; [|discriminate]. destruct (IH _ _ _ _ _ E) as (d & D & Hd).
    exists (S d). split; [|lia]. eapply dec_window; eauto. lia.
  - destruct (find _ regs) as [e|] eqn:Ef; [|discriminate]. apply find_some in Ef as [He Hc].
    destruct (IH _ _ _ _ _ E) as (d & D & Hd). exists (S d). split; [|lia]. eapply dec_space; eauto. unfold covers. lia.
Qed.

Lemma locate_complete h d i a l x : hok h -> decodes h d i a l x -> forall lim, (d <= lim)%nat -> locate lim h i a = Some (l, x).
Proof.
  intros Hok D. induction D as [i a o Hi Hl Ha|d i a o off al p l x Hi Hk Ha Hp D IH|d i a o regs al e l x Hi Hk He Hc D IH];
    intros [|lim] Hd; try lia; cbn [locate]; rewrite Hi.
  - replace ((0 <=? a) && (a <? o_size o)) with true by lia. destruct (o_kind o); cbn in Hl; tauto.
  - rewrite Hk. replace ((0 <=? a) && (a <? o_size o)) with true by lia. rewrite Hp. apply IH. lia.
  - rewrite Hk. pose proof (hok_get _ _ _ Hok Hi) as Ho. unfold okobj in Ho. rewrite Hk in Ho.
    destruct (find (fun e0 => (e_base e0 <=? a) && (a <? e_base e0 + e_size e0)) regs) as [e'|] eqn:Ef.
    + apply find_some in Ef as [He' Hc']. assert (Ee : e = e') by (eapply regs_cover_eq; eauto; unfold covers; lia). rewrite <- Ee. apply IH. lia.
    + pose proof (find_none _ _ Ef e He) as K. cbn beta in K. unfold covers in Hc. lia.
Qed.

Lemma locate_skel h h' lim i a : hok h -> hok h' -> hskel h = hskel h' -> locate lim h i a = locate lim h' i a.
Proof.
  intros H H' Hs. destruct (locate lim h i a) as [[l x]|] eqn:E.
  - apply locate_sound in E as (d & D & Hd). symmetry. eapply locate_complete; eauto. eapply decodes_skel; eauto.
  - destruct (locate lim h' i a) as [[l x]|] eqn:E'; auto. apply locate_sound in E' as (d & D & Hd).
    assert (D' : decodes h d i a l x) by (eapply decodes_skel; [symmetry; exact Hs|auto]).
    rewrite (locate_complete h d i a l x H D' lim Hd) in E. discriminate.
Qed.

(** ** cells *)
Lemma cell_mod N l x : (Z.of_nat l < N) -> cell N (l, x) mod N = Z.of_nat l.
Proof. intros H. unfold cell. cbn [fst snd]. rewrite Z.add_comm, Z.mod_add by lia. apply Z.mod_small. lia. Qed.
Lemma cell_div N l x : (Z.of_nat l < N) -> cell N (l, x) / N = x.
Proof. intros H. unfold cell. cbn [fst snd]. rewrite Z.add_comm, Z.div_add by lia. rewrite Z.div_small; lia. Qed.
Lemma cell_inj N l x l' x' : Z.of_nat l < N -> Z.of_nat l' < N -> cell N (l, x) = cell N (l', x') -> l = l' /\ x = x'.
Proof.
  intros H H' E. pose proof (cell_mod N l x H). pose proof (cell_mod N l' x' H'). pose proof (cell_div N l x H).
  pose proof (cell_div N l' x' H'). rewrite E in *. lia.
Qed.

Definition view_of (N : Z) (c : nat -> Z -> option Z) : flat :=
  fun k => match c (Z.to_nat (k mod N)) (k / N) with Some b => b | None => 0 end.
Lemma view_cell N c l x : Z.of_nat l < N -> view_of N c (cell N (l, x)) = match c l x with Some b => b | None => 0 end.
Proof. intros H. unfold view_of. now rewrite cell_mod, cell_div, Nat2Z.id by auto. Qed.

Lemma view_ext N c c' : ceq c c' -> view_of N c =f view_of N c'.
Proof. intros H k. unfold view_of. now rewrite H. Qed.

Lemma view_store N c l x b : Z.of_nat l < N -> c l x <> None ->
  view_of N (store c l x b) =f upd (view_of N c) (cell N (l, x)) b.
Proof.
  intros Hl Hc k. unfold upd. destruct (Z.eqb_spec k (cell N (l, x))) as [->|Hk].
  - rewrite view_cell by auto. now rewrite store_same.
  - unfold view_of. rewrite store_other; auto. intros E. injection E as E1 E2. apply Hk. unfold cell. cbn [fst snd].
    pose proof (Z.mod_pos_bound k N ltac:(lia)). pose proof (Z.div_mod k N ltac:(lia)). nia.
Qed.

Lemma view_stores N phi data : forall c locs a, length locs = length data ->
  (forall j, 0 <= j < zlen data -> let lx := znth dloc locs j in
     phi (a + j) = cell N lx /\ Z.of_nat (fst lx) < N /\ c (fst lx) (snd lx) <> None) ->
  view_of N (stores c locs data) =f put phi (view_of N c) (addressed a data).
Proof.
  induction data as [|b data IH]; intros c [|[l x] locs] a Hl H; try discriminate.
  - rewrite addressed_nil. cbn. apply feq_refl.
  - rewrite addressed_cons. cbn [put stores]. pose proof (zlen_nonneg data) as Hz. rewrite zlen_cons in H.
    destruct (H 0 ltac:(lia)) as (H1 & H2 & H3). cbn in H1, H2, H3. replace (a + 0) with a in H1 by lia.
    eapply feq_trans; [|apply put_feq; rewrite H1; apply view_store; auto].
    apply IH; [cbn in Hl; lia|]. intros j Hj. destruct (H (j + 1) ltac:(lia)) as (K1 & K2 & K3).
    rewrite znth_cons in K1, K2, K3 by lia. replace (j + 1 - 1) with j in K1, K2, K3 by lia. cbv zeta. replace (a + 1 + j) with (a + (j + 1)) by lia. split; auto. split; auto.
    now apply store_some.
Qed.

(** ** the heap behind the bus *)
Definition as_inv (h0 h : heap) : Prop :=
  hok h /\ contained h /\ lawful h /\ hskel h = hskel h0 /\ holds_bytes h.

Lemma skel_len h h' : hskel h = hskel h' -> length h = length h'.
Proof. unfold hskel. intros H. apply (f_equal (@length _)) in H. now rewrite !map_length in H. Qed.

Lemma decodes_lt h d i a l x : decodes h d i a l x -> (l < length h)%nat.
Proof. induction 1; auto. eapply hget_lt; eauto. Qed.

Lemma content_lt h l x : content h l x <> None -> (l < length h)%nat.
Proof. unfold content. destruct (hget h l) eqn:E; [|congruence]. intros _. eapply hget_lt; eauto. Qed.

(** a location is a memory byte in one heap iff in every heap of the same structure *)
Lemma content_some_skel h h' l x : hok h -> hok h' -> hskel h = hskel h' -> content h l x <> None -> content h' l x <> None.
Proof.
  intros Hok Hok' Hs. unfold content. destruct (hget h l) as [o|] eqn:E; [|congruence].
  destruct (skel_get _ _ _ _ Hs E) as (o' & E' & Sz & _ & _ & K). rewrite E', Sz.
  destruct ((0 <=? x) && (x <? o_size o)) eqn:Er; [|congruence].
  destruct (o_kind o) as [mem|m|p|off al|regs al] eqn:Hk; try congruence; intros _; cbn [skel] in K;
    destruct (o_kind o') as [mem'|m'|p'|off' al'|regs' al'] eqn:Hk'; cbn [skel] in K; try discriminate.
  pose proof (hok_get _ _ _ Hok' E') as Ho. unfold okobj in Ho. rewrite Hk' in Ho. destruct Ho as (s & Hr & Hz).
  destruct (sparse_content h' l o' m' s 0 0 E' Hk' Hr Hz ltac:(lia) ltac:(lia) ltac:(lia)) as [_ Hc].
  specialize (Hc x ltac:(lia)). unfold content in Hc. rewrite E', Hk', Sz, Er in Hc. rewrite Hc. discriminate.
Qed.

Lemma mapped_locate lim h i a : hok h -> mapped lim h i a <-> exists l x, locate lim h i a = Some (l, x) /\ content h l x <> None.
Proof.
  intros Hok. split.
  - intros (d & l & x & D & Hd & C). exists l, x. split; auto. eapply locate_complete; eauto.
  - intros (l & x & E & C). apply locate_sound in E as (d & D & Hd). exists d, l, x. auto.
Qed.
Lemma unmapped_locate lim h i a : hok h -> unmapped lim h i a <-> locate lim h i a = None.
Proof.
  intros Hok. split.
  - intros U. destruct (locate lim h i a) as [[l x]|] eqn:E; auto. apply locate_sound in E as (d & D & Hd). destruct (U _ _ _ D Hd).
  - intros E d l x D Hd. rewrite (locate_complete _ _ _ _ _ _ Hok D lim Hd) in E. discriminate.
Qed.
Lemma mapped_skel lim h h' i a : hok h -> hok h' -> hskel h = hskel h' -> mapped lim h i a -> mapped lim h' i a.
Proof.
  intros Hok Hok' Hs (d & l & x & D & Hd & C). exists d, l, x. split; [eapply decodes_skel; eauto|]. split; auto.
  exact (content_some_skel h h' l x Hok Hok' Hs C).
Qed.
Lemma unmapped_skel lim h h' i a : hskel h = hskel h' -> unmapped lim h i a -> unmapped lim h' i a.
Proof. intros Hs U d l x D. apply (U d l x). eapply decodes_skel; [symmetry; exact Hs|auto]. Qed.

Lemma stores_bytes locs : forall c data, are_bytes data -> (forall l x b, c l x = Some b -> is_byte b) ->
  forall l x b, stores c locs data l x = Some b -> is_byte b.
Proof.
  induction locs as [|[l0 x0] locs IH]; intros c [|b0 data] Hd Hc l x b; cbn [stores]; auto; try apply Hc.
  inversion Hd; subst. apply IH; auto. intros l1 x1 b1. unfold store.
  destruct (Nat.eqb l0 l1 && (x0 =? x1)); [|apply Hc]. destruct (c l0 x0); congruence.
Qed.

Section A.
Variables (lim i : nat) (h0 : heap).
Hypothesis H0 : hok h0.
Notation N := (Nof h0).
Notation phi := (cell_of N lim h0 i).
Notation inv := (as_inv h0).

Lemma cells_view h : cells N h =f view_of N (content h).
Proof. intros k. reflexivity. Qed.

Lemma as_write_mapped h a d : inv h -> are_bytes d -> 0 < zlen d -> (forall x, a <= x < a + zlen d -> mapped lim h0 i x) ->
  exists h', as_write lim i h a d = (h', Ok tt) /\ inv h' /\ cells N h' =f put phi (cells N h) (addressed a d).
Proof.
  intros (Hok & HC & HL & Hs & HB) Hd Hn HM.
  assert (HM' : forall j, 0 <= j < zlen d -> mapped lim h i (a + j)).
  { intros j Hj. apply (mapped_skel lim h0 h); auto. apply HM. lia. }
  destruct (wr_obj_complete lim h i a d Hok HC) as (h' & E); auto.
  { intros ->. cbn in Hn. lia. }
  { intros j Hj. apply memdec_content. exact (HM' j Hj). }
  exists h'. split; [exact E|].
  destruct (wr_obj_sound lim h i a (PBytes d) h' _ Hok Hd E) as (Hs' & Hok' & locs & _ & Hfull & HD & HCe).
  specialize (Hfull eq_refl). cbn [pd_list] in *. split.
  - split; auto. split; [eapply contained_skel; [symmetry; exact Hs'|auto]|]. split; [eapply lawful_skel; [symmetry; exact Hs'|auto]|].
    split; [congruence|]. intros l x b Hb. rewrite HCe in Hb. eapply stores_bytes; eauto.
  - eapply feq_trans; [apply cells_view|]. eapply feq_trans; [apply view_ext; exact HCe|]. apply view_stores; auto.
    intros j Hj lx. destruct (HD j) as (dd & Hdd & D); [unfold zlen in *; lia|]. fold lx in D.
    destruct (HM' j Hj) as (d2 & l2 & x2 & D2 & _ & Hx). destruct (decodes_unique _ _ _ _ _ _ Hok D _ _ _ D2) as (_ & E1 & E2).
    split; [|split].
    + assert (D0 : decodes h0 dd i (a + j) (fst lx) (snd lx)) by (eapply decodes_skel; eauto).
      unfold cell_of. rewrite (locate_complete h0 _ _ _ _ _ H0 D0 lim Hdd). now rewrite <- surjective_pairing.
    + unfold Nof. apply decodes_lt in D. rewrite <- (skel_len _ _ Hs). lia.
    + rewrite E1, E2. exact Hx.
Qed.

Lemma as_write_unmapped h a d : inv h -> are_bytes d -> 0 < zlen d -> unmapped lim h0 i a ->
  exists h' e, as_write lim i h a d = (h', Err e) /\ inv h' /\ cells N h' =f cells N h.
Proof.
  intros (Hok & HC & HL & Hs & HB) Hd Hn HU. unfold as_write. destruct (wr_obj lim h i a (PBytes d)) as [h' r] eqn:E. exists h'.
  destruct (wr_obj_sound lim h i a (PBytes d) h' _ Hok Hd E) as (Hs' & Hok' & locs & _ & Hfull & HD & HCe). cbn [pd_list] in *.
  assert (Hnil : locs = []).
  { destruct locs as [|lx locs]; auto. destruct (HD 0) as (dd & Hdd & D); [rewrite zlen_cons; pose proof (zlen_nonneg locs); lia|].
    replace (a + 0) with a in D by lia. destruct (HU dd (fst (znth dloc (lx :: locs) 0)) (snd (znth dloc (lx :: locs) 0))); auto.
    eapply decodes_skel; eauto. }
  subst locs. destruct r as [[]|e].
  { specialize (Hfull eq_refl). cbn in Hfull. destruct d; cbn in *; [lia|discriminate]. }
  exists e. split; auto. split.
  - split; auto. split; [eapply contained_skel; [symmetry; exact Hs'|auto]|]. split; [eapply lawful_skel; [symmetry; exact Hs'|auto]|].
    split; [congruence|]. intros l x b Hb. rewrite HCe in Hb. cbn [stores] in Hb. eapply HB; eauto.
  - eapply feq_trans; [apply cells_view|]. eapply feq_trans; [apply view_ext; exact HCe|]. cbn [stores]. apply feq_refl.
Qed.

Lemma as_read_inv h a n h' r : inv h -> as_read lim i h a n = (h', r) -> inv h' /\ cells N h' =f cells N h.
Proof.
  intros (Hok & HC & HL & Hs & HB) E. destruct (rd_obj_sound lim _ _ _ _ _ _ Hok E) as [Hst _].
  pose proof (strip_skel _ _ Hst) as Hs'. split.
  - split; [eapply hok_strip; [symmetry; exact Hst|auto]|]. split; [eapply contained_skel; [symmetry; exact Hs'|auto]|].
    split; [eapply lawful_skel; [symmetry; exact Hs'|auto]|]. split; [congruence|].
    intros l x b Hb. rewrite (content_strip _ _ l x Hst) in Hb. eapply HB; eauto.
  - intros k. unfold cells. now rewrite (content_strip _ _ _ _ Hst).
Qed.

Lemma as_read_mapped h a n : inv h -> 0 < n -> (forall x, a <= x < a + n -> mapped lim h0 i x) ->
  exists h', as_read lim i h a n = (h', Ok (map (fun x => cells N h (phi x)) (zrange a (a + n)))) /\ inv h' /\ cells N h' =f cells N h.
Proof.
  intros Hi Hn HM. pose proof Hi as (Hok & HC & HL & Hs & HB).
  assert (HM' : forall j, 0 <= j < n -> mapped lim h i (a + j)).
  { intros j Hj. apply (mapped_skel lim h0 h); auto. apply HM. lia. }
  destruct (rd_obj_complete lim h i a n Hok HC Hn) as (data & E).
  { intros j Hj. apply memdec_content. exact (HM' j Hj). }
  destruct (rd_obj_sound lim _ _ _ _ _ _ Hok E) as [_ HR]. destruct (HR data eq_refl HL) as (_ & Hlen & Hby).
  exists h. assert (Ed : data = map (fun x => cells N h (phi x)) (zrange a (a + n))).
  { apply (nth_ext_z 0). { unfold zlen. rewrite map_length, zrange_length. unfold zlen in *. lia. }
    intros j Hj. rewrite (znth_map _ 0) by (unfold zlen; rewrite zrange_length; lia).
    rewrite znth_zrange0 by lia. destruct (Hby j ltac:(lia)) as (d & l & x & D & Hd & C).
    destruct (HM' j ltac:(lia)) as (d2 & l2 & x2 & D2 & _ & Hx). destruct (decodes_unique _ _ _ _ _ _ Hok D _ _ _ D2) as (_ & <- & <-).
    destruct C as [C|C]; [|congruence]. 
    assert (D0 : decodes h0 d i (a + j) l x) by (eapply decodes_skel; eauto).
    unfold cell_of. rewrite (locate_complete h0 _ _ _ _ _ H0 D0 lim Hd).
    rewrite (cells_view h), view_cell; [now rewrite C|]. unfold Nof. apply decodes_lt in D. rewrite <- (skel_len _ _ Hs). lia. }
  rewrite <- Ed. split; [exact E|]. split; auto. apply feq_refl.
Qed.

Lemma as_read_unmapped h a n x : inv h -> a <= x < a + n -> unmapped lim h0 i x ->
  exists h' e, as_read lim i h a n = (h', Err e) /\ inv h' /\ cells N h' =f cells N h.
Proof.
  intros Hi Hx HU. destruct (as_read lim i h a n) as [h' r] eqn:E. destruct (as_read_inv _ _ _ _ _ Hi E) as [K1 K2].
  destruct r as [data|e]; [|exists h', e; auto]. exfalso. pose proof Hi as (Hok & HC & HL & Hs & HB).
  destruct (rd_obj_sound lim _ _ _ _ _ _ Hok E) as [_ HR]. destruct (HR data eq_refl HL) as (_ & Hlen & Hby).
  destruct (Hby (x - a) ltac:(lia)) as (d & l & y & D & Hd & _). replace (a + (x - a)) with x in D by lia.
  apply (HU d l y); auto. eapply decodes_skel; eauto.
Qed.

Lemma cells_bytes h k : inv h -> is_byte (cells N h k).
Proof.
  intros (_ & _ & _ & _ & HB). unfold cells. destruct (content h _ _) eqn:E; [eapply HB; eauto|]. unfold is_byte. lia.
Qed.

Lemma aspace_flat L lo hi : 0 < L -> (forall x, lo <= x < hi -> mapped lim h0 i x) ->
  flat_target L lo hi phi inv (cells N) (as_write lim i) (as_read lim i).
Proof.
  intros HL HM. constructor.
  - intros t a d Hi Hd Hn Ha Hb _. apply as_write_mapped; auto. intros x Hx. apply HM. lia.
  - intros t a Hi Ha Hb _. apply as_read_mapped; auto. intros x Hx. apply HM. lia.
  - intros t x. apply cells_bytes.
Qed.

Lemma aspace_part L lo hi (mp : Z -> bool) : 0 < L -> (forall x, lo <= x < hi -> if mp x then mapped lim h0 i x else unmapped lim h0 i x) ->
  part_target L lo hi mp phi inv (cells N) (as_write lim i) (as_read lim i).
Proof.
  intros HL HM. constructor.
  - intros t a d Hi Hd Hn Ha Hb _ Hm. apply as_write_mapped; auto. intros x Hx. specialize (HM x ltac:(lia)). now rewrite Hm in HM.
  - intros t a d Hi Hd Hn Ha Hb _ Hm. apply as_write_unmapped; auto. specialize (HM a ltac:(lia)). now rewrite Hm in HM.
  - intros t a Hi Ha Hb _ Hm. apply as_read_mapped; auto. intros x Hx. specialize (HM x ltac:(lia)). now rewrite (Hm x Hx) in HM.
  - intros t a x Hi Ha Hb _ Hx Hm. apply (as_read_unmapped t a L x); auto. specialize (HM x ltac:(lia)). now rewrite Hm in HM.
  - intros t x. apply cells_bytes.
Qed.
End A.
