(** Proofs: a peripheral that stores bytes is as good as a memory (C72). *)
From Coq Require Import ZArith Lia List Bool.
From Coq Require Import ZifyBool ZifyNat.
From Verif Require Import Py S_flat M_sparse S_sparse P_sparse M_memory P_memory M_buddy M_aspace S_aspace P_aspace.
From Verif Require Import M_axi M_axiargs S_axi P_axi P_axislave P_axisframe M_axil M_busreg S_busreg.
Import ListNotations.
Open Scope Z_scope.

Section V.
Variable V : byte_view.
Notation am := (as_memory V).
Notation ao := (as_mem_obj V).

Lemma get_from k h i : hget (as_mem_from V k h) i = option_map (ao (k + i)%nat) (hget h i).
Proof.
  revert k i. induction h as [|o h IH]; intros k [|i]; cbn; auto.
  - now rewrite Nat.add_0_r.
  - change (nth_error (as_mem_from V (S k) h) i) with (hget (as_mem_from V (S k) h) i). rewrite IH.
    unfold hget. replace (S k + i)%nat with (k + S i)%nat by lia. reflexivity.
Qed.
Lemma am_get h i : hget (am h) i = option_map (ao i) (hget h i).
Proof. apply (get_from 0). Qed.
Lemma set_from k h i o : as_mem_from V k (hset h i o) = hset (as_mem_from V k h) i (ao (k + i)%nat o).
Proof.
  revert k i. induction h as [|x h IH]; intros k [|i]; cbn; auto.
  - now rewrite Nat.add_0_r.
  - rewrite IH. now replace (S k + i)%nat with (k + S i)%nat by lia.
Qed.
Lemma am_set h i o : am (hset h i o) = hset (am h) i (ao i o).
Proof. apply (set_from 0). Qed.
Lemma am_app h o : am (h ++ [o]) = am h ++ [ao (length h) o].
Proof.
  unfold as_memory. enough (forall k, as_mem_from V k (h ++ [o]) = as_mem_from V k h ++ [ao (k + length h)%nat o]) as -> by reflexivity.
  induction h as [|x h IH]; intros k; cbn; [now rewrite Nat.add_0_r|]. rewrite IH. now replace (S k + length h)%nat with (k + S (length h))%nat by lia.
Qed.
Lemma am_length h : length (am h) = length h.
Proof. unfold as_memory. generalize 0%nat. induction h; intros k; cbn; auto. Qed.
Lemma hset_same h i o : hget h i = Some o -> hset h i o = h.
Proof.
  unfold hget. revert i. induction h as [|x h IH]; intros [|i] H; cbn in *; try discriminate; auto.
  - now injection H as ->.
  - f_equal. auto.
Qed.
Lemma hset_none h i o : hget h i = None -> hset h i o = h.
Proof.
  unfold hget. revert i. induction h as [|x h IH]; intros [|i] H; cbn in *; try discriminate; auto. f_equal. auto.
Qed.

Lemma ao_size i o : o_size (ao i o) = o_size o.
Proof. unfold as_mem_obj. destruct (V i), (o_kind o); reflexivity. Qed.
Lemma ao_base i o : o_base (ao i o) = o_base o.
Proof. unfold as_mem_obj. destruct (V i), (o_kind o); reflexivity. Qed.
Lemma ao_parent i o : o_parent (ao i o) = o_parent o.
Proof. unfold as_mem_obj. destruct (V i), (o_kind o); reflexivity. Qed.
Lemma ao_id i o : (forall p, o_kind o <> KPeriph p) -> ao i o = o.
Proof. intros H. unfold as_mem_obj. destruct (V i); auto. destruct (o_kind o) eqn:E; auto. now destruct (H p). Qed.
Lemma ao_none i o : V i = None -> ao i o = o.
Proof. intros H. unfold as_mem_obj. now rewrite H. Qed.

Definition mem_of (v : list pcall -> flat) (log : list pcall) (size : Z) : list Z := map (v log) (zrange 0 size).
Lemma mem_len v log size : 0 <= size -> zlen (mem_of v log size) = size.
Proof. intros. unfold mem_of. rewrite zlen_map, zlen_zrange; lia. Qed.
Lemma mem_nth v log size x : 0 <= x < size -> znth 0 (mem_of v log size) x = v log x.
Proof. intros H. unfold mem_of. rewrite (znth_map _ 0) by (rewrite zlen_zrange; lia). now rewrite znth_zrange0 by lia. Qed.
Lemma mem_ext v l1 l2 size : (forall x, 0 <= x < size -> v l1 x = v l2 x) -> mem_of v l1 size = mem_of v l2 size.
Proof. intros H. unfold mem_of. apply map_ext_in. intros x Hx. apply in_zrange in Hx. auto. Qed.
Lemma mem_slice v log size a n : 0 <= a -> 0 <= n -> a + n <= size -> zslice (mem_of v log size) a (a + n) = map (v log) (zrange a (a + n)).
Proof.
  intros Ha Hn Hs. apply (nth_ext_z 0).
  - rewrite zslice_length by (rewrite ?mem_len; lia). rewrite zlen_map, zlen_zrange by lia. lia.
  - intros j Hj. rewrite zslice_length in Hj by (rewrite ?mem_len; lia). rewrite znth_zslice by lia. rewrite mem_nth by lia.
    rewrite (znth_map _ 0) by (rewrite zlen_zrange; lia). now rewrite znth_zrange0 by lia.
Qed.
Lemma mem_splice v l1 l2 size a d : 0 <= a -> a + zlen d <= size -> (forall x, 0 <= x < size -> v l2 x = wr (v l1) a d x) ->
  zsplice (mem_of v l1 size) a (a + zlen d) d = mem_of v l2 size.
Proof.
  intros Ha Hs H. pose proof (zlen_nonneg d) as Hd.
  assert (Hm1 := mem_len v l1 size ltac:(lia)). assert (Hm2 := mem_len v l2 size ltac:(lia)).
  assert (Hl : zlen (zsplice (mem_of v l1 size) a (a + zlen d) d) = size) by (rewrite zsplice_length by lia; lia).
  apply (nth_ext_z 0); [lia|]. intros j Hj. rewrite Hl in Hj. rewrite znth_zsplice by lia. rewrite !mem_nth by lia. rewrite (H j) by lia. reflexivity.
Qed.

Definition same_dev (p p' : periph) : Prop := p_rd p' = p_rd p /\ p_wr p' = p_wr p.
Lemma same_stores p p' size v : same_dev p p' -> stores_bytes_at size v p -> stores_bytes_at size v p'.
Proof. intros [E1 E2] H log HL. rewrite E1, E2. exact (H log HL). Qed.
Lemma range_call_rd size a n : range_ok size a n = true -> call_in size (PRead a n).
Proof. unfold range_ok, call_in. lia. Qed.
Lemma range_call_wr size a d : range_ok size a (zlen d) = true -> are_bytes d -> call_in size (PWrite a d).
Proof. unfold range_ok, call_in. intros. split; auto. lia. Qed.

Lemma per_read_store size v p a n : stores_bytes_at size v p -> Forall (call_in size) (p_log p) -> call_in size (PRead a n) ->
  exists p', per_read p a n = (p', Ok (map (v (p_log p)) (zrange a (a + n)))) /\ same_dev p p' /\ Forall (call_in size) (p_log p') /\
    forall x, 0 <= x < size -> v (p_log p') x = v (p_log p) x.
Proof.
  intros H HL HC. unfold per_read. destruct (H _ HL) as (H1 & _). destruct (H1 a n HC) as [E1 F1]. rewrite E1.
  assert (HL1 : Forall (call_in size) (p_log p ++ [PRead a n])) by (apply Forall_app; split; auto).
  destruct (H _ HL1) as (H2 & _). destruct (H2 a n HC) as [E2 F2].
  destruct (p_async p).
  - eexists. split; [reflexivity|]. split; [now split|]. split; cbn [p_log]; auto.
  - eexists. split; [rewrite E2; do 2 f_equal|].
    + apply map_ext_in. intros x Hx. apply in_zrange in Hx. apply F1. cbn in HC. lia.
    + split; [now split|]. cbn [p_log]. split; [apply Forall_app; split; auto|]. intros x Hx. rewrite F2, F1; auto.
Qed.
Lemma per_write_store size v p a d : stores_bytes_at size v p -> Forall (call_in size) (p_log p) -> call_in size (PWrite a d) ->
  exists p', per_write p a d = (p', Ok tt) /\ same_dev p p' /\ Forall (call_in size) (p_log p') /\
    forall x, 0 <= x < size -> v (p_log p') x = wr (v (p_log p)) a d x.
Proof.
  intros H HL HC. unfold per_write. destruct (H _ HL) as (_ & H1 & _). destruct (H1 a d HC) as [E1 F1]. rewrite E1.
  assert (HL1 : Forall (call_in size) (p_log p ++ [PWrite a d])) by (apply Forall_app; split; auto).
  destruct (H _ HL1) as (_ & H2 & _). destruct (H2 a d HC) as [E2 F2].
  destruct (p_async p).
  - eexists. split; [reflexivity|]. split; [now split|]. split; cbn [p_log]; auto.
  - eexists. split; [now rewrite E2|]. split; [now split|]. cbn [p_log]. split; [apply Forall_app; split; auto|].
    intros x Hx. rewrite F2 by auto. unfold wr. destruct (_ && _) eqn:Eb; auto. rewrite F1 by auto. unfold wr. now rewrite Eb.
Qed.

Lemma bus_heap_set h i o p p' v : bus_heap V h -> hget h i = Some o -> o_kind o = KPeriph p -> V i = Some v -> same_dev p p' ->
  Forall (call_in (o_size o)) (p_log p') -> bus_heap V (hset h i (set_kind o (KPeriph p'))).
Proof.
  intros H Hi Hk Hv Hs HL j oj pj vj Hj Hkj Hvj. rewrite hget_hset in Hj by congruence. destruct (Nat.eqb_spec i j) as [->|Hn].
  - injection Hj as <-. cbn in Hkj. injection Hkj as <-. cbn [o_size set_kind]. rewrite Hv in Hvj. injection Hvj as <-.
    destruct (H _ _ _ _ Hi Hk Hv) as (A & B & C). split; auto. split; auto. eapply same_stores; eauto.
  - exact (H _ _ _ _ Hj Hkj Hvj).
Qed.
(** replacing an object by one that is not a peripheral of [V], or by one with the same peripheral and size *)
Lemma bus_heap_other h i o : bus_heap V h -> (forall p v, o_kind o = KPeriph p -> V i = Some v ->
    exists o0, hget h i = Some o0 /\ o_kind o0 = o_kind o /\ o_size o0 = o_size o) -> bus_heap V (hset h i o).
Proof.
  intros H Ho j oj pj vj Hj Hkj Hvj. destruct (hget h i) as [ob|] eqn:Hg; [|rewrite hset_none in Hj by auto; exact (H _ _ _ _ Hj Hkj Hvj)].
  rewrite hget_hset in Hj by congruence. destruct (Nat.eqb_spec i j) as [->|Hn].
  - injection Hj as <-. destruct (Ho _ _ Hkj Hvj) as (o0 & E0 & E1 & E2). injection E0 as ->.
    rewrite <- E2. rewrite Hkj in E1. exact (H _ _ _ _ Hg E1 Hvj).
  - exact (H _ _ _ _ Hj Hkj Hvj).
Qed.

(** ** reads *)
Lemma rd_loop_twin (f : heap -> nat -> Z -> Z -> heap * res (list Z)) :
  (forall h i a n, bus_heap V h -> f (am h) i a n = (am (fst (f h i a n)), snd (f h i a n)) /\ bus_heap V (fst (f h i a n))) ->
  forall segs h a n data, bus_heap V h ->
  sp_read_loop f (am h) segs a n data = (am (fst (sp_read_loop f h segs a n data)), snd (sp_read_loop f h segs a n data)) /\
  bus_heap V (fst (sp_read_loop f h segs a n data)).
Proof.
  intros Hf. induction segs as [|e segs IH]; intros h a n data H; cbn [sp_read_loop]; [split; [reflexivity|auto]|].
  destruct (a <? e_base e); [split; [reflexivity|auto]|].
  destruct (Hf h (e_reg e) (match e_off e with None => a | Some off => a - e_base e + off end) (Z.min (e_size e - (a - e_base e)) n) H) as [E B].
  cbv zeta. rewrite E. destruct (f h (e_reg e) _ _) as [h1 [d|x]]; cbn [fst snd] in *; [now apply IH|now split].
Qed.

Lemma rd_twin lim : forall h i a n, bus_heap V h ->
  rd_obj lim (am h) i a n = (am (fst (rd_obj lim h i a n)), snd (rd_obj lim h i a n)) /\ bus_heap V (fst (rd_obj lim h i a n)).
Proof.
  induction lim as [|lim IH]; intros h i a n H; cbn [rd_obj]; [now split|].
  rewrite am_get. destruct (hget h i) as [o|] eqn:Hi; cbn [option_map]; [|now split].
  destruct (o_kind o) as [mem|m|p|off al|regs al] eqn:Hk.
  1,2: rewrite (ao_id i o) by (intros p; rewrite Hk; discriminate); rewrite Hk; destruct (negb _); now split.
  - destruct (V i) as [v|] eqn:Hv.
    + unfold as_mem_obj at 1. rewrite Hv, Hk. cbn [o_kind set_kind]. rewrite ao_size.
      destruct (range_ok (o_size o) a n) eqn:Hr; cbn [negb]; [|now split].
      destruct (H _ _ _ _ Hi Hk Hv) as (Hs & Hst & HL).
      destruct (per_read_store _ _ _ _ _ Hst HL (range_call_rd _ _ _ Hr)) as (p' & E & Hd & HL' & Hx).
      rewrite E. cbn [fst snd]. split; [|eapply bus_heap_set; eauto]. rewrite am_set. f_equal.
      * unfold as_mem_obj. rewrite Hv. cbn [o_kind set_kind o_size o_base o_parent].
        change (map (v (p_log p')) (zrange 0 (o_size o))) with (mem_of v (p_log p') (o_size o)). rewrite (mem_ext v _ _ _ Hx).
        symmetry. apply hset_same. rewrite am_get, Hi. cbn [option_map]. unfold as_mem_obj. now rewrite Hv, Hk.
      * f_equal. apply mem_slice; unfold range_ok in Hr; lia.
    + rewrite (ao_none i o Hv). rewrite Hk. destruct (negb _); [now split|]. destruct (per_read p a n) as [p' r]. cbn [fst snd].
      split.
      * rewrite am_set. now rewrite (ao_none i _ Hv).
      * apply bus_heap_other; auto. intros. congruence.
  - rewrite (ao_id i o) by (intros p; rewrite Hk; discriminate). rewrite Hk. destruct (negb _); [now split|].
    destruct (o_parent o) as [pa|]; [now apply IH|now split].
  - rewrite (ao_id i o) by (intros p; rewrite Hk; discriminate). rewrite Hk. destruct (find_regions _ _ _ _) as [[|e segs]|x]; try now split.
    now apply rd_loop_twin.
Qed.

(** ** writes *)
Definition bytes_pd (d : pydata) : Prop := match d with PBytes l => are_bytes l | PList _ => False end.
Lemma bytes_slice d s e : bytes_pd d -> bytes_pd (pd_slice d s e).
Proof.
  destruct d as [l|l]; cbn; auto. intros H. now apply are_bytes_zslice.
Qed.

Lemma wr_loop_twin (f : heap -> nat -> Z -> pydata -> heap * res unit) :
  (forall h i a d, bytes_pd d -> bus_heap V h -> f (am h) i a d = (am (fst (f h i a d)), snd (f h i a d)) /\ bus_heap V (fst (f h i a d))) ->
  forall segs h a s n d, bytes_pd d -> bus_heap V h ->
  sp_write_loop f (am h) segs a s n d = (am (fst (sp_write_loop f h segs a s n d)), snd (sp_write_loop f h segs a s n d)) /\
  bus_heap V (fst (sp_write_loop f h segs a s n d)).
Proof.
  intros Hf. induction segs as [|e segs IH]; intros h a s n d Hd H; cbn [sp_write_loop]; [split; [reflexivity|auto]|].
  destruct (a <? e_base e); [split; [reflexivity|auto]|]. cbv zeta.
  destruct (Hf h (e_reg e) (match e_off e with None => a | Some off => a - e_base e + off end)
      (pd_slice d s (s + Z.min (e_size e - (a - e_base e)) n)) (bytes_slice _ _ _ Hd) H) as [E B].
  rewrite E. destruct (f h (e_reg e) _ _) as [h1 [[]|x]]; cbn [fst snd] in *; [now apply IH|now split].
Qed.

Lemma wr_twin lim : forall h i a d, bytes_pd d -> bus_heap V h ->
  wr_obj lim (am h) i a d = (am (fst (wr_obj lim h i a d)), snd (wr_obj lim h i a d)) /\ bus_heap V (fst (wr_obj lim h i a d)).
Proof.
  induction lim as [|lim IH]; intros h i a d Hd H; cbn [wr_obj]; [now split|].
  rewrite am_get. destruct (hget h i) as [o|] eqn:Hi; cbn [option_map]; [|now split].
  destruct (o_kind o) as [mem|m|p|off al|regs al] eqn:Hk.
  - rewrite (ao_id i o) by (intros p; rewrite Hk; discriminate). rewrite Hk. destruct (negb _); [now split|]. destruct d as [d|d]; [|now split]. cbn [fst snd].
    split; [|apply bus_heap_other; auto; intros; discriminate]. rewrite am_set. f_equal. f_equal. rewrite ao_id; auto. intros p. discriminate.
  - rewrite (ao_id i o) by (intros p; rewrite Hk; discriminate). rewrite Hk. destruct (negb _); [now split|]. destruct (sm_write _ _ _) as [m' r]. cbn [fst snd].
    split; [|apply bus_heap_other; auto; intros; discriminate]. rewrite am_set. f_equal. f_equal. rewrite ao_id; auto. intros p. discriminate.
  - destruct d as [d|d]; [|destruct Hd]. cbn [pd_list]. destruct (V i) as [v|] eqn:Hv.
    + unfold as_mem_obj at 1. rewrite Hv, Hk. cbn [o_kind set_kind]. rewrite ao_size.
      destruct (range_ok (o_size o) a (zlen d)) eqn:Hr; cbn [negb]; [|now split].
      destruct (H _ _ _ _ Hi Hk Hv) as (Hs & Hst & HL).
      destruct (per_write_store _ _ _ _ _ Hst HL (range_call_wr _ _ _ Hr Hd)) as (p' & E & Hdv & HL' & Hx).
      rewrite E. cbn [fst snd]. split; [|eapply bus_heap_set; eauto]. rewrite am_set. f_equal. f_equal.
      unfold as_mem_obj. rewrite Hv, Hk. unfold set_kind. cbn [o_kind o_size o_base o_parent]. f_equal. f_equal.
      apply mem_splice; auto; unfold range_ok in Hr; lia.
    + rewrite (ao_none i o Hv). rewrite Hk. destruct (negb _); [now split|]. destruct (per_write p a d) as [p' r]. cbn [fst snd].
      split.
      * rewrite am_set. now rewrite (ao_none i _ Hv).
      * apply bus_heap_other; auto. intros. congruence.
  - rewrite (ao_id i o) by (intros p; rewrite Hk; discriminate). rewrite Hk. destruct (negb _); [now split|].
    destruct (o_parent o) as [pa|]; [now apply IH|now split].
  - rewrite (ao_id i o) by (intros p; rewrite Hk; discriminate). rewrite Hk. destruct (find_regions _ _ _ _) as [[|e segs]|x]; try now split.
    now apply wr_loop_twin.
Qed.

(** ** the other calls *)
Definition twin {A} (f : heap -> heap * res A) (h : heap) : Prop :=
  f (am h) = (am (fst (f h)), snd (f h)) /\ bus_heap V (fst (f h)).

Lemma heap_app h o : bus_heap V h -> (forall p, o_kind o = KPeriph p -> V (length h) = None) -> bus_heap V (h ++ [o]).
Proof.
  intros H Ho i oi p v Hi Hk Hv. unfold hget in Hi. destruct (Nat.lt_ge_cases i (length h)) as [Hl|Hl].
  - rewrite nth_error_app1 in Hi by lia. exact (H _ _ _ _ Hi Hk Hv).
  - rewrite nth_error_app2 in Hi by lia. destruct (i - length h)%nat eqn:E; cbn in Hi.
    + injection Hi as <-. replace i with (length h) in Hv by lia. rewrite (Ho _ Hk) in Hv. discriminate.
    + now destruct n.
Qed.
Lemma hnew_twin h o : bus_heap V h -> (forall p, o_kind o = KPeriph p -> V (length h) = None) -> hnew (am h) o = (am (fst (hnew h o)), snd (hnew h o)) /\ bus_heap V (fst (hnew h o)).
Proof.
  intros H Ho. unfold hnew. cbn [fst snd]. rewrite am_app, am_length. split; [|now apply heap_app]. do 3 f_equal.
  unfold as_mem_obj. destruct (V (length h)) eqn:E; auto. destruct (o_kind o) as [| |p| |] eqn:Ek; auto. now specialize (Ho p eq_refl).
Qed.
Lemma new_region_twin t s h : bus_heap V h -> twin (fun h => new_region h t s) h.
Proof.
  intros H. unfold twin. destruct t; cbn [new_region]; unfold new_mem, new_sparse, new_space; try (apply hnew_twin; auto; intros; discriminate).
  destruct (s <? 0); [now split|]. destruct (s =? 0); [now split|]. apply hnew_twin; auto; intros; discriminate.
Qed.
Lemma abs_ao i o a : abs_address (ao i o) a = abs_address o a.
Proof. unfold abs_address. now rewrite ao_base, ao_size. Qed.
Lemma ao_reparent i o b pa : ao i (Obj (o_size o) b pa (o_kind o)) = Obj (o_size o) b pa (o_kind (ao i o)).
Proof. unfold as_mem_obj. cbn [o_kind]. destruct (V i); auto. destruct (o_kind o) eqn:E; cbn; rewrite ?E; auto. Qed.
Lemma ao_set_kind i o k : (forall p, k <> KPeriph p) -> ao i (set_kind o k) = set_kind (ao i o) k.
Proof. intros Hk. rewrite ao_id by (cbn; auto). unfold set_kind. now rewrite ao_size, ao_base, ao_parent. Qed.

Lemma register_twin sp r b s off h : bus_heap V h -> twin (fun h => register_region h sp r b s off) h.
Proof.
  intros H. unfold twin, register_region. rewrite !am_get.
  destruct (hget h sp) as [os|] eqn:Hs; cbn [option_map]; [|now split]. destruct (hget h r) as [rg|] eqn:Hr; cbn [option_map]; [|now split].
  destruct (o_kind os) as [mem|m|p|woff al|regs al] eqn:Hk.
  1,2,4: rewrite (ao_id sp os) by (intros p; rewrite Hk; discriminate); rewrite Hk; now split.
  { unfold as_mem_obj at 1. rewrite Hk. destruct (V sp); cbn; rewrite ?Hk; now split. }
  rewrite (ao_id sp os) by (intros p; rewrite Hk; discriminate). rewrite Hk. rewrite !ao_size, !ao_base. cbv zeta.
  destruct (find_regions _ _ _ _) as [[|e segs]|x]; try now split.
  assert (Hb : forall b, bus_heap V (hset h r (Obj (o_size rg) b (Some sp) (o_kind rg)))).
  { intros b'. apply bus_heap_other; auto. intros p v Hkp Hv. exists rg. auto. }
  assert (Hc : forall b, am (hset h r (Obj (o_size rg) b (Some sp) (o_kind rg))) = hset (am h) r (Obj (o_size rg) b (Some sp) (o_kind (ao r rg)))).
  { intros b'. rewrite am_set. now rewrite ao_reparent. }
  destruct (match off with Some 0 => abs_address os b | _ => Ok None end) as [nb|x]; [|cbn [fst snd]; split; [now rewrite Hc|auto]].
  rewrite <- Hc, am_get. destruct (hget (hset h r (Obj (o_size rg) nb (Some sp) (o_kind rg))) sp) as [os1|] eqn:Hs1; cbn [option_map fst snd]; [|now split].
  split.
  - rewrite (am_set _ sp (set_kind _ _)). rewrite ao_set_kind by (intros; discriminate). reflexivity.
  - apply bus_heap_other; auto. intros p v Hkp. discriminate.
Qed.

Lemma window_twin i off s h : bus_heap V h -> twin (fun h => create_window h i off s) h.
Proof.
  intros H. unfold twin, create_window. rewrite am_get. destruct (hget h i) as [o|] eqn:Hi; cbn [option_map]; [|now split].
  rewrite ao_size, abs_ao. cbv zeta. destruct (negb _); [now split|]. destruct (abs_address o off); [|now split]. apply hnew_twin; auto; intros; discriminate.
Qed.
Lemma winpool_twin i off s h : bus_heap V h -> twin (fun h => create_window_pool h i off s) h.
Proof.
  intros H. unfold twin, create_window_pool. rewrite am_get. destruct (hget h i) as [o|] eqn:Hi; cbn [option_map]; [|now split].
  rewrite ao_size, abs_ao. cbv zeta. destruct (negb _); [now split|]. destruct (abs_address o _); [|now split]. apply hnew_twin; auto; intros; discriminate.
Qed.
Lemma allocwin_twin i s h : bus_heap V h -> twin (fun h => alloc_window h i s) h.
Proof.
  intros H. unfold twin, alloc_window. rewrite am_get. destruct (hget h i) as [o|] eqn:Hi; cbn [option_map]; [|now split].
  destruct (o_kind o) as [mem|m|p|woff al|regs al] eqn:Hk.
  1,2,5: rewrite (ao_id i o) by (intros p; rewrite Hk; discriminate); rewrite Hk; now split.
  { unfold as_mem_obj at 1. rewrite Hk. destruct (V i); cbn; rewrite ?Hk; now split. }
  rewrite (ao_id i o) by (intros p; rewrite Hk; discriminate). rewrite Hk. destruct al as [bd|]; [|now split].
  destruct (b_alloc_op bd s) as [b' r].
  assert (Hc : am (hset h i (set_kind o (KWindow woff (Some b')))) = hset (am h) i (set_kind o (KWindow woff (Some b')))).
  { rewrite am_set. f_equal. apply ao_id. intros p. discriminate. }
  assert (Hb : bus_heap V (hset h i (set_kind o (KWindow woff (Some b'))))) by (apply bus_heap_other; auto; intros; discriminate).
  cbv zeta. rewrite <- Hc. destruct r as [ad|x]; [|now split]. exact (window_twin i ad (Some s) _ Hb).
Qed.
Lemma pool_twin i b s h : bus_heap V h -> twin (fun h => create_pool h i b s) h.
Proof.
  intros H. unfold twin, create_pool. rewrite am_get. destruct (hget h i) as [o|] eqn:Hi; cbn [option_map]; [|now split].
  destruct (o_kind o) as [mem|m|p|woff al|regs al] eqn:Hk.
  1,2,4: rewrite (ao_id i o) by (intros p; rewrite Hk; discriminate); rewrite Hk; now split.
  { unfold as_mem_obj at 1. rewrite Hk. destruct (V i); cbn; rewrite ?Hk; now split. }
  rewrite (ao_id i o) by (intros p; rewrite Hk; discriminate). rewrite Hk. cbv zeta. destruct (negb _); [now split|].
  rewrite am_length. set (o1 := Obj _ _ (Some i) (KSpace [] _)).
  assert (Hc : am (h ++ [o1]) = am h ++ [o1]) by (rewrite am_app; do 2 f_equal; apply ao_id; intros p; discriminate).
  assert (Hb : bus_heap V (h ++ [o1])) by (apply heap_app; auto; intros; discriminate).
  rewrite <- Hc. destruct (register_twin i (length h) (match b with None => 0 | Some x => x end)
     (Some (match s with Some s0 => s0 | None => o_size o - match b with None => 0 | Some x => x end end)) (Some 0) _ Hb) as [E B].
  rewrite E. destruct (register_region (h ++ [o1]) _ _ _ _ _) as [h2 [[]|x]]; cbn [fst snd] in *; now split.
Qed.
Lemma allocreg_twin i t s h : bus_heap V h -> twin (fun h => alloc_region h i t s) h.
Proof.
  intros H. unfold twin, alloc_region. rewrite am_get. destruct (hget h i) as [o|] eqn:Hi; cbn [option_map]; [|now split].
  destruct (o_kind o) as [mem|m|p|woff al|regs al] eqn:Hk.
  1,2,4: rewrite (ao_id i o) by (intros p; rewrite Hk; discriminate); rewrite Hk; now split.
  { unfold as_mem_obj at 1. rewrite Hk. destruct (V i); cbn; rewrite ?Hk; now split. }
  rewrite (ao_id i o) by (intros p; rewrite Hk; discriminate). rewrite Hk. destruct al as [bd|]; [|now split].
  destruct (b_alloc_op bd s) as [b' r].
  assert (Hc : am (hset h i (set_kind o (KSpace regs (Some b')))) = hset (am h) i (set_kind o (KSpace regs (Some b')))).
  { rewrite am_set. f_equal. apply ao_id. intros p. discriminate. }
  assert (Hb : bus_heap V (hset h i (set_kind o (KSpace regs (Some b'))))) by (apply bus_heap_other; auto; intros; discriminate).
  cbv zeta. rewrite <- Hc. destruct r as [ad|x]; [|now split].
  destruct (new_region_twin t s _ Hb) as [E B]. cbn beta in E, B. rewrite E. destruct (new_region (hset h i (set_kind o (KSpace regs (Some b')))) t s) as [h2 [rg|x]]; cbn [fst snd] in *; [|now split].
  destruct (register_twin i rg ad None (Some 0) _ B) as [E2 B2]. rewrite E2. destruct (register_region h2 _ _ _ _ _) as [h3 [[]|x]]; cbn [fst snd] in *; now split.
Qed.

Theorem step_twin lim h op : bus_heap V h -> aop_ok V h op ->
  a_step lim (am h) op = (am (fst (a_step lim h op)), snd (a_step lim h op)) /\ bus_heap V (fst (a_step lim h op)).
Proof.
  intros H Hop.
  assert (K1 : forall f : heap -> heap * res nat, twin f h -> M_aspace.ao_id (f (am h)) = (am (fst (M_aspace.ao_id (f h))), snd (M_aspace.ao_id (f h))) /\ bus_heap V (fst (M_aspace.ao_id (f h)))).
  { intros f [E B]. unfold M_aspace.ao_id. rewrite E. cbn [fst snd]. now split. }
  destruct op as [s|s|a f g s|s|sp r b s off|i off s|i off s|i s|i b s|i t s|i a n|i a d]; cbn [a_step].
  - apply (K1 (fun h => new_mem h s)). exact (new_region_twin RTMem s h H).
  - apply (K1 (fun h => new_sparse h s)). exact (new_region_twin RTSparse s h H).
  - apply (K1 (fun h => new_periph h a f g s)). unfold twin, new_periph. apply hnew_twin; auto.
  - apply (K1 (fun h => new_space h s)). exact (new_region_twin RTSpace s h H).
  - destruct (register_twin sp r b s off h H) as [E B]. unfold ao_unit. cbn beta in E. rewrite E. now split.
  - apply (K1 (fun h => create_window h i off s)). now apply window_twin.
  - apply (K1 (fun h => create_window_pool h i off s)). now apply winpool_twin.
  - apply (K1 (fun h => alloc_window h i s)). now apply allocwin_twin.
  - apply (K1 (fun h => create_pool h i b s)). now apply pool_twin.
  - apply (K1 (fun h => alloc_region h i t s)). now apply allocreg_twin.
  - destruct (rd_twin lim h i a n H) as [E B]. unfold ao_bytes. rewrite E. now split.
  - destruct (wr_twin lim h i a d Hop H) as [E B]. unfold ao_unit. rewrite E. now split.
Qed.

Theorem run_twin lim : forall ops h, bus_heap V h -> aops_ok V lim h ops ->
  a_run lim (am h) ops = (am (fst (a_run lim h ops)), snd (a_run lim h ops)) /\ bus_heap V (fst (a_run lim h ops)).
Proof.
  induction ops as [|o ops IH]; intros h H Ho; cbn [a_run]; [now split|]. destruct Ho as [Ho Hos].
  destruct (step_twin lim h o H Ho) as [E B]. rewrite E. destruct (a_step lim h o) as [h1 r]. cbn [fst snd] in *.
  destruct (IH h1 B Hos) as [E2 B2]. rewrite E2. destruct (a_run lim h1 ops) as [h2 rs]. now split.
Qed.
End V.
