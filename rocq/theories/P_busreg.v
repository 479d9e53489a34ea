(** Proofs: a master is a memory; masters as regions; buses behind buses (C72). *)
From Coq Require Import ZArith Lia List Bool.
From Coq Require Import ZifyBool ZifyNat.
From Verif Require Import Py S_flat M_sparse S_sparse P_sparse M_memory P_memory M_buddy S_aspace P_aspace P_aspacer.
From Verif Require Import M_axi M_axiargs S_axi P_axi P_axislave P_axiop P_axicomp P_axiread P_axiargs P_axiram P_axisframe M_axil P_axil M_sys S_sys P_sys P_syswr P_sysrd.
From Verif Require Import M_aspace M_busreg S_busreg P_twin.
Import ListNotations.
Open Scope Z_scope.

(** ** argument checks with default arguments *)
Definition wcmd0 (m a : Z) (d : list Z) : wcmd :=
  {| wc_addr := a; wc_data := d; wc_burst := INCR; wc_size := m; wc_side := dflt_side; wc_wuser := WInt 0 |}.
Definition rcmd0 (m a n : Z) : rcmd := {| rc_addr := a; rc_len := n; rc_burst := INCR; rc_size := m; rc_side := dflt_side |}.

Lemma com_dflt c m a : 0 <= m -> ac_lanes c = 2 ^ m -> com_check c (dflt a) = Ok (None, INCR, m).
Proof.
  intros Hm HL. unfold com_check, dflt, dflt_side, id_arg, size_arg, burst_of, check.
  cbn [g_id g_burst g_size g_side s_lock s_cache s_prot s_qos s_region s_user bind Z.eqb Pos.eqb orb].
  rewrite !orb_true_r. cbn [bind]. unfold max_burst_size. rewrite HL, bit_length_pow2 by auto. reflexivity.
Qed.
Lemma axi_wargs c m a d : 0 <= m -> ac_lanes c = 2 ^ m ->
  write_args c {| wa_com := dflt a; wa_data := DSeq d; wa_wuser := UInt 0 |} =
  if range_ok (2 ^ ac_aw c) a (zlen d) && forallb is_byteb d then Ok (None, wcmd0 m a d) else Err ValueError.
Proof.
  intros Hm HL. unfold write_args. cbn [wa_com wa_data wa_wuser]. rewrite (com_dflt c m a Hm HL). cbn [dflt g_addr g_burst g_side].
  unfold check, range_ok. pose proof (zlen_nonneg d) as Hd. replace (zlen d <? 0) with false by lia. cbn [negb].
  destruct ((a <? 0) || (2 ^ ac_aw c <=? a)); cbn [negb bind andb]; [reflexivity|].
  change (1 =? 0) with false. cbn [orb]. replace (2 ^ ac_aw c <? a + zlen d) with (negb (a + zlen d <=? 2 ^ ac_aw c)) by lia.
  destruct (a + zlen d <=? 2 ^ ac_aw c); cbn [negb bind andb]; [|reflexivity].
  change (0 =? 0) with true. rewrite orb_true_r. cbn [bind]. destruct (forallb is_byteb d); reflexivity.
Qed.
Lemma axi_rargs c m a n : 0 <= m -> ac_lanes c = 2 ^ m ->
  read_args c {| ra_com := dflt a; ra_len := n |} = if range_ok (2 ^ ac_aw c) a n then Ok (None, rcmd0 m a n) else Err ValueError.
Proof.
  intros Hm HL. unfold read_args. cbn [ra_com ra_len]. rewrite (com_dflt c m a Hm HL). cbn [dflt g_addr g_burst g_side].
  unfold check, range_ok.
  destruct ((a <? 0) || (2 ^ ac_aw c <=? a)); cbn [negb bind andb]; [reflexivity|].
  destruct (n <? 0); cbn [negb bind andb]; [reflexivity|].
  change (1 =? 0) with false. cbn [orb]. replace (2 ^ ac_aw c <? a + n) with (negb (a + n <=? 2 ^ ac_aw c)) by lia.
  destruct (a + n <=? 2 ^ ac_aw c); reflexivity.
Qed.
Lemma lite_wargs aw pp a d : lite_write_args aw pp a (inl d) 2 =
  if range_ok (2 ^ aw) a (zlen d) && forallb is_byteb d then Ok {| lc_addr := a; lc_data := d; lc_prot := 2 |} else Err ValueError.
Proof.
  unfold lite_write_args, range_ok. pose proof (zlen_nonneg d) as Hd. replace (zlen d <? 0) with false by lia. cbn [negb].
  destruct ((a <? 0) || (2 ^ aw <=? a)); cbn [negb andb]; [reflexivity|]. destruct (2 ^ aw <? a + zlen d); cbn [negb andb]; [reflexivity|].
  change (2 =? 2) with true. cbn [negb]. rewrite andb_false_r. destruct (forallb is_byteb d); reflexivity.
Qed.
Lemma lite_rargs aw pp a n : lite_read_args aw pp a n 2 =
  if range_ok (2 ^ aw) a n then Ok {| lr_addr := a; lr_len := n; lr_prot := 2 |} else Err ValueError.
Proof.
  unfold lite_read_args, range_ok. destruct ((a <? 0) || (2 ^ aw <=? a)); cbn [negb andb]; [reflexivity|].
  destruct (n <? 0); cbn [negb andb]; [reflexivity|]. destruct (2 ^ aw <? a + n); cbn [negb andb]; [reflexivity|].
  change (2 =? 2) with true. cbn [negb]. now rewrite andb_false_r.
Qed.

Lemma bytes_ok d : are_bytes d -> forallb is_byteb d = true.
Proof. apply forallb_bytes. Qed.

Section Flat.
Context {T : Type} (lo hi : Z) (phi : Z -> Z) (inv : T -> Prop) (view : T -> flat)
  (tw : T -> Z -> list Z -> T * res unit) (tr : T -> Z -> Z -> T * res (list Z)) (b : bus).
Hypothesis Hft : flat_target (bus_lanes b) lo hi phi inv view tw tr.
Hypothesis Hfit : bus_fits lo hi b.

Lemma bus_wr_flat t a d : inv t -> are_bytes d -> lo <= a < hi -> a + zlen d <= hi ->
  exists t', bus_wr tw b t a d = (t', Ok OKAY) /\ inv t' /\ view t' =f put phi (view t) (addressed a d).
Proof.
  destruct Hfit as ((HL & Hg) & Hl1 & Hl2 & Hlo & Hhi). intros Hi Hd Ha Hb. pose proof (zlen_nonneg d) as Hz.
  assert (Hr : range_ok (2 ^ bus_aw b) a (zlen d) = true) by (unfold range_ok; lia).
  destruct b as [c mbl idw idr|L aw pp|L aw pp ep]; cbn [bus_lanes bus_aw] in *; unfold bus_wr.
  - destruct Hg as (m & HLm & Hm). rewrite (axi_wargs c m) by (auto; lia). rewrite Hr, (bytes_ok d Hd). cbn [andb].
    destruct (write_exact (ac_lanes c) lo hi phi inv view tw tr Hft {| m_lanes := ac_lanes c; m_mbl := mbl |} idw (wcmd0 m a d) t)
      as (t' & bs & users & E & Hi' & Hv & _ & Hm'); auto; try (cbn [wcmd0 wc_addr wc_data]; lia).
    { exists m. cbn [wcmd0 wc_size]. auto with zarith. }
    cbv zeta. rewrite E, Hm'. exists t'. auto.
  - rewrite lite_wargs, Hr, (bytes_ok d Hd). cbn [andb].
    destruct (lite_write_exact L lo hi phi inv view tw tr Hft HL {| lc_addr := a; lc_data := d; lc_prot := 2 |} t) as (t' & bs & E & Hi' & Hv & _ & Hm');
      auto; try (cbn [lc_addr lc_data]; lia).
    cbv zeta in *. rewrite E, Hm'. exists t'. auto.
  - rewrite lite_wargs, Hr, (bytes_ok d Hd). cbn [andb].
    destruct (lite_write_exact L lo hi phi inv view tw tr Hft HL {| lc_addr := a; lc_data := d; lc_prot := 2 |} t) as (t' & bs & E & Hi' & Hv & _ & Hm');
      auto; try (cbn [lc_addr lc_data]; lia).
    cbv zeta in *. rewrite E, Hm'. exists t'. destruct ep; auto.
Qed.
Lemma bus_rd_flat t a n : inv t -> 0 <= n -> lo <= a < hi -> a + n <= hi ->
  exists t', bus_rd tr b t a n = (t', Ok (map (fun x => view t (phi x)) (zrange a (a + n)), OKAY)) /\ inv t' /\ view t' =f view t.
Proof.
  destruct Hfit as ((HL & Hg) & Hl1 & Hl2 & Hlo & Hhi). intros Hi Hn Ha Hb.
  assert (Hr : range_ok (2 ^ bus_aw b) a n = true) by (unfold range_ok; lia).
  destruct b as [c mbl idw idr|L aw pp|L aw pp ep]; cbn [bus_lanes bus_aw] in *; unfold bus_rd.
  - destruct Hg as (m & HLm & Hm). rewrite (axi_rargs c m) by (auto; lia). rewrite Hr.
    destruct (read_exact (ac_lanes c) lo hi phi inv view tw tr Hft {| m_lanes := ac_lanes c; m_mbl := mbl |} idr (rcmd0 m a n) t)
      as (t' & rs & users & E & Hi' & Hv & _ & Hm'); auto; try (cbn [rcmd0 rc_addr rc_len]; lia).
    { exists m. cbn [rcmd0 rc_size]. auto with zarith. }
    cbv zeta. rewrite E, Hm'. exists t'. auto.
  - rewrite lite_rargs, Hr.
    destruct (lite_read_exact L lo hi phi inv view tw tr Hft HL Hl1 Hl2 {| lr_addr := a; lr_len := n; lr_prot := 2 |} t) as (t' & rs & E & Hi' & Hv & _ & Hm');
      auto; try (cbn [lr_addr lr_len]; lia).
    rewrite E, Hm'. exists t'. auto.
  - rewrite lite_rargs, Hr.
    destruct (lite_read_exact L lo hi phi inv view tw tr Hft HL Hl1 Hl2 {| lr_addr := a; lr_len := n; lr_prot := 2 |} t) as (t' & rs & E & Hi' & Hv & _ & Hm');
      auto; try (cbn [lr_addr lr_len]; lia).
    rewrite E, Hm'. cbn [fst snd lr_addr lr_len]. exists t'. destruct ep; auto.
Qed.

Lemma bus_store : byte_store lo hi phi inv view (reg_wr tw b) (reg_rd tr b).
Proof.
  constructor.
  - intros t a d Hi Hd Ha Hb. destruct (bus_wr_flat t a d Hi Hd Ha Hb) as (t' & E & Hr). exists t'. unfold reg_wr. rewrite E. auto.
  - intros t a n Hi Hn Ha Hb. destruct (bus_rd_flat t a n Hi Hn Ha Hb) as (t' & E & Hr). exists t'. unfold reg_rd. rewrite E. auto.
  - exact (ft_bytes _ _ _ _ _ _ _ _ Hft).
Qed.
End Flat.

Lemma store_flat {T} lo hi phi (inv : T -> Prop) view tw tr L : 0 < L -> byte_store lo hi phi inv view tw tr -> flat_target L lo hi phi inv view tw tr.
Proof.
  intros HL H. constructor.
  - intros t a d Hi Hd Hz Ha Hb _. apply (st_write _ _ _ _ _ _ _ H); auto; lia.
  - intros t a Hi Ha Hb _. apply (st_read _ _ _ _ _ _ _ H); auto; lia.
  - exact (st_bytes _ _ _ _ _ _ _ H).
Qed.

Lemma chain_store {T} lo hi phi (inv : T -> Prop) view tw tr bs : byte_store lo hi phi inv view tw tr -> Forall (bus_fits lo hi) bs ->
  byte_store lo hi phi inv view (fst (through bs tw tr)) (snd (through bs tw tr)).
Proof.
  intros H HF. induction HF as [|b bs Hb HF IH]; cbn [through fst snd]; auto.
  destruct (through bs tw tr) as [w r]. cbn [fst snd] in *. apply bus_store; auto. apply store_flat; auto. apply Hb.
Qed.
Lemma through_app {T} bs b (tw : T -> Z -> list Z -> T * res unit) tr : through (bs ++ [b]) tw tr = through bs (reg_wr tw b) (reg_rd tr b).
Proof. induction bs as [|x bs IH]; cbn [app through]; [reflexivity|]. now rewrite IH. Qed.
Lemma chain_flat {T} lo hi phi (inv : T -> Prop) view tw tr bs b : flat_target (bus_lanes b) lo hi phi inv view tw tr -> bus_fits lo hi b -> Forall (bus_fits lo hi) bs ->
  byte_store lo hi phi inv view (fst (through (bs ++ [b]) tw tr)) (snd (through (bs ++ [b]) tw tr)).
Proof. intros H Hb HF. rewrite through_app. apply chain_store; auto. now apply bus_store. Qed.

(** ** a master as region *)
Lemma put_phi_wr phi lo hi f a d x : (forall x y, lo <= x < hi -> lo <= y < hi -> phi x = phi y -> x = y) -> lo <= a -> a + zlen d <= hi -> lo <= x < hi ->
  put phi f (addressed a d) (phi x) = wr (fun y => f (phi y)) a d x.
Proof.
  intros Hinj. revert f a. induction d as [|y d IH]; intros f a Ha Hd Hx.
  - rewrite addressed_nil. cbn [put]. unfold wr. change (zlen (@nil Z)) with 0. replace ((a <=? x) && (x <? a + 0)) with false by lia. reflexivity.
  - pose proof (zlen_nonneg d). rewrite zlen_cons in Hd. rewrite addressed_cons. cbn [put]. rewrite IH by lia. unfold wr. rewrite zlen_cons.
    destruct (Z.eqb_spec x a) as [->|Hn].
    + replace ((a + 1 <=? a) && (a <? a + 1 + zlen d)) with false by lia. replace ((a <=? a) && (a <? a + (1 + zlen d))) with true by lia.
      unfold upd. rewrite Z.eqb_refl. replace (a - a) with 0 by lia. reflexivity.
    + destruct ((a + 1 <=? x) && (x <? a + 1 + zlen d)) eqn:E.
      * replace ((a <=? x) && (x <? a + (1 + zlen d))) with true by lia. rewrite znth_cons by lia. f_equal. lia.
      * replace ((a <=? x) && (x <? a + (1 + zlen d))) with false by lia. unfold upd. destruct (Z.eqb_spec (phi x) (phi a)) as [Ep|]; auto.
        apply Hinj in Ep; lia.
Qed.

Section Region.
Context {T : Type} (phi : Z -> Z) (inv : T -> Prop) (view : T -> flat)
  (tw : T -> Z -> list Z -> T * res unit) (tr : T -> Z -> Z -> T * res (list Z)) (b : bus) (t0 : T).
Notation size := (2 ^ bus_aw b).
Hypothesis Hft : flat_target (bus_lanes b) 0 size phi inv view tw tr.
Hypothesis Hfit : bus_fits 0 size b.
Hypothesis Hinj : forall x y, 0 <= x < size -> 0 <= y < size -> phi x = phi y -> x = y.
Hypothesis H0 : inv t0.

Lemma after_snoc log c : bus_after tw tr b t0 (log ++ [c]) =
  match c with PRead a n => fst (reg_rd tr b (bus_after tw tr b t0 log) a n) | PWrite a d => fst (reg_wr tw b (bus_after tw tr b t0 log) a d) end.
Proof. unfold bus_after. now rewrite fold_left_app. Qed.
Lemma after_inv log : Forall (call_in size) log -> inv (bus_after tw tr b t0 log).
Proof.
  induction log as [|c log IH] using rev_ind; intros H; [exact H0|]. apply Forall_app in H as [H1 H2]. inversion H2 as [|? ? Hc _]; subst.
  rewrite after_snoc. specialize (IH H1). pose proof (bus_store 0 size phi inv view tw tr b Hft Hfit) as HS. destruct c as [a n|a d]; cbn in Hc.
  - destruct (st_read _ _ _ _ _ _ _ HS _ a n IH) as (t' & E & Hi & _); try lia. now rewrite E.
  - destruct (st_write _ _ _ _ _ _ _ HS _ a d IH) as (t' & E & Hi & _); try tauto; try lia. now rewrite E.
Qed.
Definition bus_view (log : list pcall) : flat := fun x => view (bus_after tw tr b t0 log) (phi x).

Lemma bus_stores log0 : stores_bytes_at size bus_view
  (Periph true (fun log a n => snd (reg_rd tr b (bus_after tw tr b t0 log) a n)) (fun log a d => snd (reg_wr tw b (bus_after tw tr b t0 log) a d)) log0).
Proof.
  intros log HL. pose proof (after_inv log HL) as Hi. pose proof (bus_store 0 size phi inv view tw tr b Hft Hfit) as HS.
  cbn [p_rd p_wr]. split; [|split].
  - intros a n Hc. cbn in Hc. destruct (st_read _ _ _ _ _ _ _ HS _ a n Hi) as (t' & E & Hi' & Hv); try lia. rewrite E. split; [reflexivity|].
    intros x Hx. unfold bus_view. rewrite after_snoc, E. apply Hv.
  - intros a d Hc. cbn in Hc. destruct (st_write _ _ _ _ _ _ _ HS _ a d Hi) as (t' & E & Hi' & Hv); try tauto; try lia. rewrite E. split; [reflexivity|].
    intros x Hx. unfold bus_view. rewrite after_snoc, E. cbn [fst]. rewrite Hv. apply (put_phi_wr phi 0 size); auto; lia.
  - intros x Hx. unfold bus_view. apply (st_bytes _ _ _ _ _ _ _ HS). exact Hi.
Qed.
End Region.
