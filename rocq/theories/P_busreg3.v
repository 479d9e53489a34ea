(** Proofs for C72: address spaces with masters as regions, as targets of further slaves. *)
From Coq Require Import ZArith Lia List Bool.
From Coq Require Import ZifyBool ZifyNat.
From Verif Require Import Py S_flat M_sparse S_sparse P_sparse M_memory P_memory M_buddy S_buddy P_buddy
  M_aspace S_aspace P_aspace P_aspacew P_aspacec P_aspaceh P_aspacep P_aspacer
  M_axi S_axi P_axi M_axiargs M_axil S_axil M_apb S_apb M_astgt S_astgt P_astgt M_busreg S_busreg P_twin P_busreg P_busreg2.
Import ListNotations.
Open Scope Z_scope.

Section V.
Variable V : byte_view.
Notation am := (as_memory V).

Lemma mem_bytes v p size : stores_bytes_at size v p -> Forall (call_in size) (p_log p) -> are_bytes (map (v (p_log p)) (zrange 0 size)).
Proof.
  intros HS HL. destruct (HS _ HL) as (_ & _ & HB). apply Forall_forall. intros y Hy. apply in_map_iff in Hy as (x & <- & Hx). apply HB. now apply in_zrange in Hx.
Qed.

Lemma hok_am h : hok h -> bus_heap V h -> hok (am h).
Proof.
  intros Hok Hb. apply Forall_forall. intros o Ho. apply In_nth_error in Ho as (i & Hi). change (nth_error (am h) i) with (hget (am h) i) in Hi.
  rewrite am_get in Hi. destruct (hget h i) as [o0|] eqn:E; [|discriminate]. injection Hi as <-. pose proof (hok_get _ _ _ Hok E) as Ho. unfold as_mem_obj.
  destruct (V i) as [v|] eqn:Ev; auto. destruct (o_kind o0) as [|?|p|? ?|? ?] eqn:Ek; auto. destruct (Hb _ _ _ _ E Ek Ev) as (Hz & HS & HL).
  unfold okobj. cbn. rewrite zlen_map, zlen_zrange by lia. lia.
Qed.

Lemma ao_kind i o : o_kind (as_mem_obj V i o) = o_kind o \/ exists mem, o_kind (as_mem_obj V i o) = KMem mem.
Proof. unfold as_mem_obj. destruct (V i); auto. destruct (o_kind o) eqn:E; auto. right. eexists. reflexivity. Qed.
Lemma contained_am h : contained h -> contained (am h).
Proof.
  intros HC i o regs al e Hi Hk He. rewrite am_get in Hi. destruct (hget h i) as [o0|] eqn:E; [|discriminate]. injection Hi as <-.
  rewrite ao_size. apply (HC i o0 regs al e E); auto. destruct (ao_kind i o0) as [<-|(mem & Em)]; congruence.
Qed.
Lemma lawful_am h : lawful h -> lawful (am h).
Proof.
  intros HL i o p log a n d Hi Hk. rewrite am_get in Hi. destruct (hget h i) as [o0|] eqn:E; [|discriminate]. injection Hi as <-.
  apply (HL i o0 p log a n d E). destruct (ao_kind i o0) as [<-|(mem & Em)]; congruence.
Qed.
Lemma bytes_am h : holds_bytes h -> bus_heap V h -> holds_bytes (am h).
Proof.
  intros HB Hb l x y C. unfold content in C. rewrite am_get in C. destruct (hget h l) as [o|] eqn:E; cbn [option_map] in C; [|discriminate].
  assert (Hc : (V l = None \/ (forall p, o_kind o <> KPeriph p)) -> is_byte y).
  { intros Ho. apply (HB l x y). unfold content. rewrite E. rewrite ao_size in C. assert (as_mem_obj V l o = o) as Eo by (destruct Ho as [Ho|Ho]; [now apply ao_none|now apply ao_id]). now rewrite Eo in C. }
  destruct (V l) as [v|] eqn:Ev; [|auto]. destruct (o_kind o) as [|?|p|? ?|? ?] eqn:Ek; try (apply Hc; right; intros; discriminate).
  rewrite ao_size in C. destruct ((0 <=? x) && (x <? o_size o)) eqn:Er; [|discriminate].
  unfold as_mem_obj in C. rewrite Ev, Ek in C. cbn in C. injection C as <-. destruct (Hb _ _ _ _ E Ek Ev) as (Hz & HS & HL).
  change (map _ _) with (mem_of v (p_log p) (o_size o)). rewrite mem_nth by lia. apply (HS _ HL). lia.
Qed.

Definition up_inv (h0 h : heap) : Prop := as_inv (am h0) (am h) /\ bus_heap V h.
Lemma up_inv0 h : space_ok h -> bus_heap V h -> up_inv h h.
Proof.
  intros (HR & HC & HL & HB) Hb. split; auto. split; [apply hok_am; auto; now apply a_reach_hok|]. split; [now apply contained_am|]. split; [now apply lawful_am|].
  split; [reflexivity|now apply bytes_am].
Qed.

Lemma twin_w lim i t a d (P : heap -> Prop) r : bus_heap V t -> are_bytes d -> (exists t', as_write lim i (am t) a d = (t', r) /\ P t') ->
  exists t', as_write lim i t a d = (t', r) /\ P (am t') /\ bus_heap V t'.
Proof.
  intros Hb Hd (t' & E & HP). unfold as_write in *. destruct (wr_twin V lim t i a (PBytes d) Hd Hb) as (E2 & Hb2). rewrite E in E2. injection E2 as Et Er.
  exists (fst (wr_obj lim t i a (PBytes d))). split; [rewrite Er; now destruct (wr_obj lim t i a (PBytes d))|]. rewrite Et in HP. auto.
Qed.
Lemma twin_r lim i t a n (P : heap -> Prop) r : bus_heap V t -> (exists t', as_read lim i (am t) a n = (t', r) /\ P t') ->
  exists t', as_read lim i t a n = (t', r) /\ P (am t') /\ bus_heap V t'.
Proof.
  intros Hb (t' & E & HP). unfold as_read in *. destruct (rd_twin V lim t i a n Hb) as (E2 & Hb2). rewrite E in E2. injection E2 as Et Er.
  exists (fst (rd_obj lim t i a n)). split; [rewrite Er; now destruct (rd_obj lim t i a n)|]. rewrite Et in HP. auto.
Qed.

Lemma up_flat lim i L lo hi phi inv view : flat_target L lo hi phi inv view (as_write lim i) (as_read lim i) ->
  flat_target L lo hi phi (fun h => inv (am h) /\ bus_heap V h) (fun h => view (am h)) (as_write lim i) (as_read lim i).
Proof.
  intros [Hw Hr Hb]. constructor.
  - intros t a d [Hi HB] Hd Hn Ha He Hw1. destruct (twin_w lim i t a d _ _ HB Hd (Hw (am t) a d Hi Hd Hn Ha He Hw1)) as (t' & E & (H1 & H2) & H3). exists t'. auto.
  - intros t a [Hi HB] Ha He Hm. destruct (twin_r lim i t a L _ _ HB (Hr (am t) a Hi Ha He Hm)) as (t' & E & (H1 & H2) & H3). exists t'. auto.
  - intros t x [Hi _]. now apply Hb.
Qed.
Lemma up_part lim i L lo hi mp phi inv view : part_target L lo hi mp phi inv view (as_write lim i) (as_read lim i) ->
  part_target L lo hi mp phi (fun h => inv (am h) /\ bus_heap V h) (fun h => view (am h)) (as_write lim i) (as_read lim i).
Proof.
  intros [Hw Hf Hr Hg Hb]. constructor.
  - intros t a d [Hi HB] Hd Hn Ha He Hw1 Hm. destruct (twin_w lim i t a d _ _ HB Hd (Hw (am t) a d Hi Hd Hn Ha He Hw1 Hm)) as (t' & E & (H1 & H2) & H3). exists t'. auto.
  - intros t a d [Hi HB] Hd Hn Ha He Hw1 Hm. destruct (Hf (am t) a d Hi Hd Hn Ha He Hw1 Hm) as (t1 & e & E1 & E2).
    destruct (twin_w lim i t a d (fun t1 => inv t1 /\ view t1 =f view (am t)) _ HB Hd (ex_intro _ t1 (conj E1 E2))) as (t' & E & (H1 & H2) & H3). exists t', e. auto.
  - intros t a [Hi HB] Ha He Hm Hx. destruct (twin_r lim i t a L _ _ HB (Hr (am t) a Hi Ha He Hm Hx)) as (t' & E & (H1 & H2) & H3). exists t'. auto.
  - intros t a x [Hi HB] Ha He Hm Hx Hp. destruct (Hg (am t) a x Hi Ha He Hm Hx Hp) as (t1 & e & E1 & E2).
    destruct (twin_r lim i t a L (fun t1 => inv t1 /\ view t1 =f view (am t)) _ HB (ex_intro _ t1 (conj E1 E2))) as (t' & E & (H1 & H2) & H3). exists t', e. auto.
  - intros t x [Hi _]. now apply Hb.
Qed.
End V.

(** a new master *)
Definition vset (V : byte_view) (i : nat) (v : list pcall -> flat) : byte_view := fun j => if Nat.eqb j i then Some v else V j.

Lemma new_bus_heap {T} phi (inv : T -> Prop) view tw tr b t0 V h :
  flat_target (bus_lanes b) 0 (2 ^ bus_aw b) phi inv view tw tr -> bus_fits 0 (2 ^ bus_aw b) b ->
  (forall x y, 0 <= x < 2 ^ bus_aw b -> 0 <= y < 2 ^ bus_aw b -> phi x = phi y -> x = y) -> inv t0 ->
  bus_heap V h -> bus_heap (vset V (length h) (bus_view phi view tw tr b t0)) (fst (new_bus tw tr b t0 h)).
Proof.
  intros Hft Hfit Hinj H0 Hb i o p v Hi Hk Hv. unfold new_bus, new_periph, hnew in Hi. cbn [fst] in Hi. unfold vset in Hv.
  unfold hget in Hi. destruct (Nat.eqb_spec i (length h)) as [->|Hn].
  - rewrite nth_error_app2, Nat.sub_diag in Hi by lia. injection Hi as <-. cbn in Hk. injection Hk as <-. injection Hv as <-. cbn [o_size]. split; [|split].
    + destruct Hfit as (_ & _ & _ & _ & _). apply Z.pow_nonneg. lia.
    + apply bus_stores with (inv := inv); auto.
    + constructor.
  - apply (Hb i o p v); auto. destruct (Nat.lt_ge_cases i (length h)) as [Hl|Hl]; [now rewrite nth_error_app1 in Hi by lia|].
    rewrite nth_error_app2 in Hi by lia. destruct (i - length h)%nat as [|k] eqn:E; [lia|]. cbn in Hi. destruct k; discriminate.
Qed.
