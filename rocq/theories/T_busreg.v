(** C72: a master is a memory: its word and byte accessors, masters as regions of address spaces, buses behind buses. *)
From Coq Require Import ZArith Lia List Bool.
From Coq Require Import ZifyBool ZifyNat.
From Verif Require Import Py S_flat M_sparse S_sparse P_sparse M_memory P_memory M_buddy S_buddy P_buddy
  M_aspace S_aspace P_aspace P_aspacew P_aspacec P_aspaceh P_aspacep P_aspacer T_aspace
  M_axi S_axi P_axi P_axislave P_axiop P_axicomp P_axiram M_axisframe P_axisframe M_axil S_axil P_axil
  M_liteeng S_liteeng P_liteeng M_axieng S_axieng P_axieng P_axiattr T_axieng M_sys S_sys P_sys P_syswr P_sysrd T_sys T_sysrd
  M_litesys S_litesys P_litesys P_litewr P_literd T_litesys M_axisys S_axisys P_sysram T_sysram M_literw S_literw P_literw T_literw
  M_apb S_apb P_apb P_apbsys P_apbmem T_apb M_astgt S_astgt P_astgt P_astsys T_astgt.
From Verif Require Import M_axiargs M_aspace M_busreg S_busreg P_twin P_busreg P_busreg2 P_busreg3.
Import ListNotations.
Open Scope Z_scope.

(** ** read() and write() of a master *)
(** A master accepts exactly the addresses and lengths inside its 2**address_width bytes, as a region does; every other call raises
    ValueError before anything happens.  An accepted call returns, whatever the target does, and a read returns as many bytes as asked for. *)
Theorem C72_master_checks_range : forall T (tw : T -> Z -> list Z -> T * res unit) tr b t a, bus_good b ->
  (forall d, if range_ok (2 ^ bus_aw b) a (zlen d) && forallb is_byteb d then exists t' r, bus_wr tw b t a d = (t', Ok r)
             else bus_wr tw b t a d = (t, Err ValueError)) /\
  (forall n, if range_ok (2 ^ bus_aw b) a n then exists t' d r, bus_rd tr b t a n = (t', Ok (d, r)) /\ zlen d = n
             else bus_rd tr b t a n = (t, Err ValueError)).
Proof. intros T tw tr b t a Hb. split; intros x; [now apply bus_wr_range|now apply bus_rd_range]. Qed.
Print Assumptions C72_master_checks_range.

(** On a target that stores bytes, write() stores them with OKAY and read() returns them with OKAY. *)
Theorem C72_master_is_memory : forall T lo hi phi (inv : T -> Prop) view tw tr b,
  flat_target (bus_lanes b) lo hi phi inv view tw tr -> bus_fits lo hi b ->
  (forall t a d, inv t -> are_bytes d -> lo <= a < hi -> a + zlen d <= hi ->
     exists t', bus_wr tw b t a d = (t', Ok OKAY) /\ inv t' /\ view t' =f put phi (view t) (addressed a d)) /\
  (forall t a n, inv t -> 0 <= n -> lo <= a < hi -> a + n <= hi ->
     exists t', bus_rd tr b t a n = (t', Ok (map (fun x => view t (phi x)) (zrange a (a + n)), OKAY)) /\ inv t' /\ view t' =f view t).
Proof.
  intros T lo hi phi inv view tw tr b Hft Hfit. split.
  - intros t a d. now apply bus_wr_flat with (1 := Hft).
  - intros t a n. now apply bus_rd_flat with (1 := Hft).
Qed.
Print Assumptions C72_master_is_memory.

(** The word accessors: what write_words() wrote, read_words() returns; write_byte() and read_byte() work on masters (they do not on memory
    regions, C17). *)
Lemma put_map phi lo hi f a d : (forall x y, lo <= x < hi -> lo <= y < hi -> phi x = phi y -> x = y) -> lo <= a -> a + zlen d <= hi ->
  map (fun x => put phi f (addressed a d) (phi x)) (zrange a (a + zlen d)) = d.
Proof.
  intros Hinj Ha Hd. pose proof (zlen_nonneg d) as Hz. apply (nth_ext_z 0); [rewrite zlen_map, zlen_zrange; lia|].
  intros j Hj. rewrite zlen_map, zlen_zrange in Hj by lia. rewrite znth_map with (da := 0) by (rewrite zlen_zrange; lia). rewrite P_axisframe.znth_zrange0 by lia.
  rewrite (put_phi_wr phi lo hi) by (auto; lia). unfold wr. replace ((a <=? a + j) && (a + j <? a + zlen d)) with true by lia. f_equal. lia.
Qed.

Theorem C72_accessors : forall T lo hi phi (inv : T -> Prop) view tw tr b,
  flat_target (bus_lanes b) lo hi phi inv view tw tr -> bus_fits lo hi b ->
  (forall x y, lo <= x < hi -> lo <= y < hi -> phi x = phi y -> x = y) ->
  forall t a, inv t -> lo <= a < hi ->
  (forall ws bo words, 0 <= ws -> a + zlen words * ws <= hi -> Forall (fun w => 0 <= w < 256 ^ ws) words ->
     exists t' t'', m_write_words tw b t a words bo ws = (t', Ok tt) /\ m_read_words tr b t' a (zlen words) bo ws = (t'', Ok words) /\
       view t'' =f view t' /\ forall x, (forall y, a <= y < a + zlen words * ws -> x <> phi y) -> view t' x = view t x) /\
  (forall y, is_byte y -> exists t' t'', m_write_byte tw b t a y = (t', Ok tt) /\ m_read_byte tr b t' a = (t'', Ok y) /\ view t'' =f view t' /\
       forall x, x <> phi a -> view t' x = view t x).
Proof.
  intros T lo hi phi inv view tw tr b Hft Hfit Hinj t a Hi Ha.
  assert (K : forall d, are_bytes d -> a + zlen d <= hi -> exists t' t'', bus_wr tw b t a d = (t', Ok OKAY) /\ bus_rd tr b t' a (zlen d) = (t'', Ok (d, OKAY)) /\
    view t'' =f view t' /\ forall x, (forall y, a <= y < a + zlen d -> x <> phi y) -> view t' x = view t x).
  { intros d Hd Hh. pose proof (zlen_nonneg d) as Hz. destruct (bus_wr_flat lo hi phi inv view tw tr b Hft Hfit t a d Hi Hd Ha Hh) as (t' & E & Hi' & Hv).
    destruct (bus_rd_flat lo hi phi inv view tw tr b Hft Hfit t' a (zlen d) Hi' Hz Ha Hh) as (t'' & E' & _ & Hv'). exists t', t''. split; auto. split.
    - rewrite E'. do 3 f_equal. etransitivity; [|apply (put_map phi lo hi (view t) a d Hinj); lia]. apply map_ext. intros x. apply Hv.
    - split; auto. intros x Hx. rewrite Hv. clear -Hx. revert a Hx. generalize (view t) as f. induction d as [|y d IH]; intros f a Hx; [now rewrite addressed_nil|].
      pose proof (zlen_nonneg d) as Hz. rewrite zlen_cons in Hx. rewrite addressed_cons. cbn [put]. rewrite IH by (intros; apply Hx; lia). unfold upd.
      destruct (Z.eqb_spec x (phi a)) as [->|]; auto. now destruct (Hx a ltac:(lia)). }
  split.
  - intros ws bo words Hws Hh HF. destruct (words_to_bytes_ok ws bo words Hws HF) as (bs & Hbs & Hl & Hb & _).
    replace (zlen words * ws) with (zlen bs) in * by lia. destruct (K bs Hb ltac:(lia)) as (t' & t'' & E & E' & Hv & Hk). exists t', t''. unfold m_write_words, m_read_words, reg_wr, reg_rd. rewrite Hbs, E. replace (zlen words * ws) with (zlen bs) by lia. rewrite E'.
    cbn [bind fst]. rewrite (words_back ws bo words bs) by auto. auto.
  - intros y Hy. destruct (K [y] ltac:(repeat constructor; apply Hy) ltac:(cbn; lia)) as (t' & t'' & E & E' & Hv & Hk). exists t', t''.
    unfold m_write_byte, m_read_byte, reg_wr. change (zlen [y]) with 1 in E'. rewrite E, E'. cbn [bind fst]. repeat split; auto. intros x Hx. apply Hk. cbn. intros z Hz. now replace z with a by lia.
Qed.
Print Assumptions C72_accessors.

(** ** masters in address spaces *)
(** A new master whose slave's target stores bytes is a peripheral that stores bytes. *)
Theorem C72_master_stores : forall T phi (inv : T -> Prop) view tw tr b t0 V h,
  flat_target (bus_lanes b) 0 (2 ^ bus_aw b) phi inv view tw tr -> bus_fits 0 (2 ^ bus_aw b) b ->
  (forall x y, 0 <= x < 2 ^ bus_aw b -> 0 <= y < 2 ^ bus_aw b -> phi x = phi y -> x = y) -> inv t0 -> bus_heap V h ->
  bus_heap (vset V (length h) (fun log x => view (bus_after tw tr b t0 log) (phi x))) (fst (new_bus tw tr b t0 h)).
Proof. intros. now apply (new_bus_heap phi inv view tw tr b t0 V h). Qed.
Print Assumptions C72_master_stores.

(** With such peripherals every API call of address_space.py - reads and writes through spaces and windows, registering, creating windows, pools and
    allocating - does and returns the same as with memory regions of the same size and content in their place. *)
Theorem C72_region_is_memory : forall V lim ops h, bus_heap V h -> aops_ok V lim h ops ->
  a_run lim (as_memory V h) ops = (as_memory V (fst (a_run lim h ops)), snd (a_run lim h ops)) /\ bus_heap V (fst (a_run lim h ops)).
Proof. intros V lim ops h. apply run_twin. Qed.
Print Assumptions C72_region_is_memory.

(** An address space with masters as regions is byte memory (with holes) for the slave of the next bus, so that the theorems about these (C20, C24, C33, C35,
    C52, C54-C58, C69, C71) hold on it. *)
Theorem C72_space_over_buses : forall V lim i h0 L lo hi mp, space_ok h0 -> bus_heap V h0 -> 0 < L ->
  let m0 := as_memory V h0 in
  (forall x, lo <= x < hi -> if mp x : bool then mapped lim m0 i x else unmapped lim m0 i x) ->
  exists inv : heap -> Prop, inv h0 /\
    part_target L lo hi mp (cell_of (Nof m0) lim m0 i) inv (fun h => cells (Nof m0) (as_memory V h)) (as_write lim i) (as_read lim i) /\
    ((forall x, mp x = true) ->
     flat_target L lo hi (cell_of (Nof m0) lim m0 i) inv (fun h => cells (Nof m0) (as_memory V h)) (as_write lim i) (as_read lim i)).
Proof.
  intros V lim i h0 L lo hi mp HS Hb HL m0 HM. pose proof (up_inv0 V h0 HS Hb) as H0. pose proof HS as (HR & _).
  pose proof (hok_am V h0 (a_reach_hok _ HR) Hb) as Hok. exists (up_inv V h0). split; auto. split.
  - exact (up_part V lim i L lo hi mp _ (as_inv m0) (cells (Nof m0)) (aspace_part lim i m0 Hok L lo hi mp HL HM)).
  - intros Hm. apply (up_flat V lim i L lo hi _ (as_inv m0) (cells (Nof m0))). apply aspace_flat; auto. intros x Hx. specialize (HM x Hx). now rewrite Hm in HM.
Qed.
Print Assumptions C72_space_over_buses.

(** AXI above such a space: a read started when all writes touching its bytes were completed returns the bytes written. *)
Corollary C72_axi_read_after_write : forall V lim i h0 L lo hi, space_ok h0 -> bus_heap V h0 -> 0 < L -> lo mod L = 0 -> hi mod L = 0 ->
  let m0 := as_memory V h0 in (forall x, lo <= x < hi -> mapped lim m0 i x) ->
  forall c widn ridn h1 h2, m_lanes c = L -> 0 < widn -> 0 < ridn -> Forall a_nopoke (h1 ++ h2) ->
  let phi := cell_of (Nof m0) lim m0 i in
  let '(z1, l1) := rw_run c widn ridn (as_write lim i) (as_read lim i) (rw_init h0) h1 in
  let '(z, l2) := rw_run c widn ridn (as_write lim i) (as_read lim i) z1 h2 in
  let l := l1 ++ l2 in let W := writes_of widn l in let R := reads_of ridn l in
  Forall (write_in L lo hi) W -> Forall (read_in L lo hi) R ->
  exists rrss, length rrss = length R /\
    (forall u, exists k, (k <= length (with_tag u R))%nat /\
       completed_on u (r_outs l) = combine (firstn k (with_tag u R)) (firstn k (on_tag u R rrss))) /\
    forall j o u, nth_error R j = Some (o, u) -> (length (reads_of ridn l1) <= j)%nat ->
      (forall i p, nth_error W i = Some p ->
         ((i < length (writes_of widn l1))%nat /\ done_at (writes_of widn l1) (w_outs l1) i (snd p)) \/ ~ touches phi p o) ->
      exists rs, nth_error rrss j = Some rs /\
        read_returns c o u rs = Some (map (fun x => put phi (cells (Nof m0) m0) (op_bytes_of W) (phi x)) (zrange (rc_addr (snd o)) (rc_addr (snd o) + rc_len (snd o))), OKAY).
Proof.
  intros V lim i h0 L lo hi HS Hb HL Hlo Hhi m0 HM c widn ridn h1 h2 Hc Hw Hr Hn phi. destruct (C72_space_over_buses V lim i h0 L lo hi (fun _ => true) HS Hb HL HM) as (inv & H0 & _ & Hf).
  exact (C55_read_after_write heap L lo hi phi inv (fun h => cells (Nof m0) (as_memory V h)) (as_write lim i) (as_read lim i)
    (Hf (fun _ => eq_refl)) HL Hlo Hhi c widn ridn h0 h1 h2 Hc Hw Hr H0 Hn).
Qed.
Print Assumptions C72_axi_read_after_write.

(** Buses behind each other, of any kinds, widths and number: the first behaves as the memory behind the last. *)
Theorem C72_chain : forall T lo hi phi (inv : T -> Prop) view tw tr bs b,
  flat_target (bus_lanes b) lo hi phi inv view tw tr -> bus_fits lo hi b -> Forall (bus_fits lo hi) bs ->
  byte_store lo hi phi inv view (fst (through (bs ++ [b]) tw tr)) (snd (through (bs ++ [b]) tw tr)).
Proof. intros. now apply chain_flat. Qed.
Print Assumptions C72_chain.

(** ** errors on the bus *)
(** A target with holes: the response of read() and write() of the master tells (on APB only if the bus has pslverr), but as a region, or by the word
    accessors, every access in range succeeds: bytes written into a hole are dropped and bytes read from one are zeros. *)
Theorem C72_errors_dropped : forall T lo hi mp phi (inv : T -> Prop) view tw tr b,
  part_target (bus_lanes b) lo hi mp phi inv view tw tr -> of_words (bus_lanes b) mp -> bus_fits lo hi b ->
  (forall t a d, inv t -> are_bytes d -> lo <= a < hi -> a + zlen d <= hi ->
     exists t' r, bus_wr tw b t a d = (t', Ok r) /\ reg_wr tw b t a d = (t', Ok tt) /\ inv t' /\
       view t' =f put phi (view t) (kept mp (addressed a d)) /\
       ((forall L aw pp, b <> BusApb L aw pp false) -> r = part_resp mp a (zlen d))) /\
  (forall t a n, inv t -> 0 < n -> lo <= a < hi -> a + n <= hi ->
     exists t' r, bus_rd tr b t a n = (t', Ok (part_data mp phi (view t) a n, r)) /\
       reg_rd tr b t a n = (t', Ok (part_data mp phi (view t) a n)) /\ inv t' /\ view t' =f view t /\
       ((forall L aw pp, b <> BusApb L aw pp false) -> r = part_resp mp a n)).
Proof.
  intros T lo hi mp phi inv view tw tr b Hpt Hmp Hfit. split.
  - intros t a d Hi Hd Ha Hh. destruct (bus_wr_part lo hi mp phi inv view tw tr b Hpt Hmp Hfit t a d Hi Hd Ha Hh) as (t' & r & E & Hi' & Hv & Hr).
    exists t', r. unfold reg_wr. rewrite E. repeat split; auto. intros Hb. destruct Hr as [|(L & aw & pp & -> & _)]; auto. now destruct (Hb L aw pp).
  - intros t a n Hi Hn Ha Hh. destruct (bus_rd_part lo hi mp phi inv view tw tr b Hpt Hmp Hfit t a n Hi Hn Ha Hh) as (t' & r & E & Hi' & Hv & Hr).
    exists t', r. unfold reg_rd. rewrite E. repeat split; auto. intros Hb. destruct Hr as [|(L & aw & pp & -> & _)]; auto. now destruct (Hb L aw pp).
Qed.
Print Assumptions C72_errors_dropped.

(** ** a master as the target itself *)
(** With a target that returns bytes the log line changes nothing. *)
Lemma lite_log_bytes T (tr : T -> Z -> Z -> T * res (list Z)) info L ars : forall t,
  lite_slave_read_log (fun t a n => let '(t', r) := tr t a n in (t', do d <- r; Ok (RBytes d))) info L ars t =
  (lite_slave_read tr L ars t, Ok tt).
Proof.
  induction ars as [|a ars IH]; intros t; cbn [lite_slave_read_log lite_slave_read]; auto. unfold lite_sr. destruct (tr t (la_addr a / L * L) L) as [t' [d|e]]; cbn [bind].
  - destruct info; cbn [log_line rd_bytes]; rewrite IH; destruct (lite_slave_read tr L ars t'); reflexivity.
  - destruct info; cbn [log_line rd_bytes]; rewrite IH; destruct (lite_slave_read tr L ars t'); reflexivity.
Qed.

(** AxiLiteSlave(target=master) at log level INFO: the first read that succeeds is answered with the right data and then the task ends with TypeError in
    its log line; later reads are never answered.  At a higher level all is well. *)
Theorem C72_direct_target : forall T lo hi phi (inv : T -> Prop) view tw tr b L,
  flat_target (bus_lanes b) lo hi phi inv view tw tr -> bus_fits lo hi b -> 0 < L -> lo mod L = 0 -> hi mod L = 0 ->
  forall t, inv t -> forall a ars, Forall (fun a => lo <= la_addr a < hi) (a :: ars) ->
  let word a := {| lr_data := le_int (map (fun x => view t (phi x)) (zrange (down L (la_addr a)) (down L (la_addr a) + L))); lr_resp := OKAY |} in
  (exists t', lite_slave_read_log (direct_rd tr b) true L (a :: ars) t = (t', [word a], Err TypeError)) /\
  (exists t', lite_slave_read_log (direct_rd tr b) false L (a :: ars) t = (t', map word (a :: ars), Ok tt)).
Proof.
  intros T lo hi phi inv view tw tr b L Hft Hfit HL Hlo Hhi t0 Hi0 a0 ars0 HF word.
  assert (K : forall t a, inv t -> lo <= la_addr a < hi -> exists t', bus_rd tr b t (la_addr a / L * L) L =
     (t', Ok (map (fun x => view t (phi x)) (zrange (down L (la_addr a)) (down L (la_addr a) + L)), OKAY)) /\ inv t' /\ view t' =f view t).
  { intros t a Hi Ha. assert (E : la_addr a / L * L = down L (la_addr a)) by (unfold down; pose proof (Z.div_mod (la_addr a) L ltac:(lia)); lia). rewrite E.
    assert (B : lo <= down L (la_addr a) < hi /\ down L (la_addr a) + L <= hi).
    { rewrite <- E. pose proof (Z.div_mod (la_addr a) L ltac:(lia)) as D1. pose proof (Z.mod_pos_bound (la_addr a) L HL) as D2.
      pose proof (Z.div_mod lo L ltac:(lia)) as D3. pose proof (Z.div_mod hi L ltac:(lia)) as D4. rewrite Hlo in D3. rewrite Hhi in D4.
      set (q := la_addr a / L) in *. set (ql := lo / L) in *. set (qh := hi / L) in *. set (m := la_addr a mod L) in *. clearbody q ql qh m.
      assert (ql <= q) by nia. assert (q + 1 <= qh) by nia. nia. }
    destruct B as [B1 B2]. apply (bus_rd_flat lo hi phi inv view tw tr b Hft Hfit t _ L Hi ltac:(lia) B1 B2). }
  split.
  - inversion HF as [|? ? Ha _]; subst. destruct (K t0 a0 Hi0 Ha) as (t' & E & _). exists t'. cbn [lite_slave_read_log]. unfold direct_rd. rewrite E. reflexivity.
  - set (l := a0 :: ars0) in *. clearbody l. assert (H : forall t, inv t -> view t =f view t0 -> exists t', lite_slave_read_log (direct_rd tr b) false L l t = (t', map word l, Ok tt)); [|apply H; auto; apply feq_refl].
    induction HF as [|a l Ha HF IH]; intros t Hi Hv; [now exists t|]. destruct (K t a Hi Ha) as (t' & E & Hi' & Hv').
    destruct (IH t' Hi' (fun x => eq_trans (Hv' x) (Hv x))) as (t'' & E'). exists t''. cbn [lite_slave_read_log map]. unfold direct_rd at 1. rewrite E. cbn [bind rd_bytes fst snd]. rewrite E'.
    f_equal. f_equal. f_equal. unfold word. f_equal. f_equal. apply map_ext. intros x. apply Hv.
Qed.
Print Assumptions C72_direct_target.

(** read() of a master returns an object with the address asked for, the bytes and the response. *)
Theorem C72_direct_read : forall T lo hi phi (inv : T -> Prop) view tw tr b,
  flat_target (bus_lanes b) lo hi phi inv view tw tr -> bus_fits lo hi b ->
  forall t, inv t -> forall a n, 0 <= n -> lo <= a < hi -> a + n <= hi ->
  exists t', direct_rd tr b t a n = (t', Ok (RTuple a (map (fun x => view t (phi x)) (zrange a (a + n))) OKAY)) /\
    inv t' /\ view t' =f view t.
Proof.
  intros T lo hi phi inv view tw tr b Hft Hfit t Hi a n Hn Ha Hh.
  destruct (bus_rd_flat lo hi phi inv view tw tr b Hft Hfit t a n Hi Hn Ha Hh) as (t' & E & H).
  exists t'. unfold direct_rd. rewrite E. split; [reflexivity|exact H].
Qed.
Print Assumptions C72_direct_read.

(** ** examples *)
Definition nopres : present := {| p_lock := true; p_cache := true; p_prot := true; p_qos := false; p_region := false; p_user := false; p_wuser := false |}.
Definition b_axi (aw m : Z) : bus := BusAxi {| ac_aw := aw; ac_idw := 4; ac_lanes := 2 ^ m; ac_pres := nopres |} 2 1 3.
Definition b_lite (aw L : Z) : bus := BusLite L aw true.
Definition b_apb (aw L : Z) (ep : bool) : bus := BusApb L aw false ep.
Definition bs72 (aw : Z) : list bus := [b_axi aw 3; b_apb aw 4 true; b_lite aw 8; b_apb aw 1 false].
(** a target: 64 bytes *)
Definition ram72 : list Z := zeros 64.
Definition tw72 (t : list Z) (a : Z) (d : list Z) : list Z * res unit :=
  if range_ok 64 a (zlen d) then (zsplice t a (a + zlen d) d, Ok tt) else (t, Err ValueError).
Definition tr72 (t : list Z) (a n : Z) : list Z * res (list Z) :=
  (t, if range_ok 64 a n then Ok (zslice t a (a + n)) else Err ValueError).
Definition inv72 (t : list Z) : Prop := zlen t = 64 /\ are_bytes t.
Definition see72 (t : list Z) : flat := fun x => if (0 <=? x) && (x <? 64) then znth 0 t x else 0.
Lemma bytes_znth t x : are_bytes t -> 0 <= x < zlen t -> is_byte (znth 0 t x).
Proof. intros H Hx. unfold are_bytes in H. rewrite Forall_forall in H. apply H. unfold znth. apply nth_In. unfold zlen in Hx. lia. Qed.
Lemma in_firstn {A} (y : A) n l : In y (firstn n l) -> In y l.
Proof. intros H. rewrite <- (firstn_skipn n l). apply in_or_app. auto. Qed.
Lemma in_skipn {A} (y : A) n l : In y (skipn n l) -> In y l.
Proof. intros H. rewrite <- (firstn_skipn n l). apply in_or_app. auto. Qed.
Lemma target72 L : 0 < L -> flat_target L 0 64 (fun x => x) inv72 see72 tw72 tr72.
Proof.
  intros HL. constructor.
  - intros t a d [Hl Hb] Hd Hn Ha He _. unfold tw72, range_ok. replace (_ && _ && _) with true by lia. eexists. split; [reflexivity|]. split; [split|].
    + rewrite zsplice_length by lia. lia.
    + unfold zsplice. unfold are_bytes in *. rewrite Forall_forall in *. intros y Hy. apply in_app_or in Hy as [Hy|Hy]; [apply Hb; eapply in_firstn; eauto|]. apply in_app_or in Hy as [Hy|Hy]; [now apply Hd|]. apply Hb. eapply in_skipn; eauto.
    + intros x. rewrite put_id_addressed. unfold see72, wr. destruct ((0 <=? x) && (x <? 64)) eqn:Ex.
      * rewrite znth_zsplice by lia. reflexivity.
      * now replace ((a <=? x) && (x <? a + zlen d)) with false by lia.
  - intros t a [Hl Hb] Ha He _. unfold tr72, range_ok. replace (_ && _ && _) with true by lia. exists t. split; [|split; [now split|apply feq_refl]].
    do 2 f_equal. apply (nth_ext_z 0); [rewrite zslice_length, zlen_map, zlen_zrange; lia|]. intros j Hj. rewrite zslice_length in Hj by lia.
    rewrite znth_zslice by lia. rewrite (znth_map _ 0) by (rewrite zlen_zrange; lia). rewrite P_axisframe.znth_zrange0 by lia. unfold see72. now replace ((0 <=? a + j) && (a + j <? 64)) with true by lia.
  - intros t x [Hl Hb]. unfold see72. destruct ((0 <=? x) && (x <? 64)) eqn:Ex; [apply bytes_znth; auto; lia|unfold is_byte; lia].
Qed.
Lemma fits72 b : In b (bs72 6) -> bus_fits 0 (2 ^ bus_aw b) b.
Proof. intros [<-|[<-|[<-|[<-|[]]]]]; (split; [split; [reflexivity|try exact I; exists 3; cbn; lia]|cbn; repeat split; lia || reflexivity]). Qed.
Lemma flat72 b : In b (bs72 6) -> flat_target (bus_lanes b) 0 64 (fun x => x) inv72 see72 tw72 tr72.
Proof. intros [<-|[<-|[<-|[<-|[]]]]]; cbn; now apply target72. Qed.

(** each kind of master: unaligned write and read, the range check, words and bytes *)
Example C72_master_nontrivial : Forall (fun b => bus_fits 0 (2 ^ bus_aw b) b /\
  let '(t, r) := bus_wr tw72 b ram72 5 [1; 2; 3; 4; 5; 6; 7; 8; 9; 10; 11; 12; 13; 14; 15; 16; 17; 18; 19] in
  r = Ok OKAY /\ snd (bus_rd tr72 b t 7 6) = Ok ([3; 4; 5; 6; 7; 8], OKAY) /\ snd (bus_rd tr72 b t 60 5) = Err ValueError /\
  snd (bus_wr tw72 b t 64 []) = Err ValueError /\ snd (bus_wr tw72 b t 1 [256]) = Err ValueError /\
  snd (m_read_words tr72 b t 6 2 Big 2) = Ok [2 * 256 + 3; 4 * 256 + 5] /\ snd (m_read_byte tr72 b t 23) = Ok 19 /\
  snd (m_read_byte tr72 b (fst (m_write_byte tw72 b t 63 77)) 63) = Ok 77 /\
  snd (m_write_words tw72 b t 1 [65536] Little 2) = Err OverflowError) (bs72 6).
Proof.
  apply Forall_forall. intros b Hb. split; [now apply fits72|].
  destruct Hb as [<-|[<-|[<-|[<-|[]]]]]; vm_compute; repeat split.
Qed.

(** four buses behind each other *)
Example C72_chain_nontrivial : Forall (bus_fits 0 64) (bs72 6) /\
  let '(w, r) := through (bs72 6 ++ [b_lite 6 2]) tw72 tr72 in
  let '(t, x) := w ram72 5 [1; 2; 3; 4; 5; 6; 7; 8; 9; 10] in
  x = Ok tt /\ snd (r t 4 12) = Ok [0; 1; 2; 3; 4; 5; 6; 7; 8; 9; 10; 0] /\ map (see72 t) [4; 5; 14; 15] = [0; 1; 10; 0].
Proof.
  split; [apply Forall_forall; intros b Hb; pose proof (fits72 b Hb) as H; now destruct Hb as [<-|[<-|[<-|[<-|[]]]]]|]. vm_compute. repeat split.
Qed.

(** a space with a memory region, an AXI-Lite master to a RAM of 64 bytes and an AXI master to another one, each a region *)
Definition h72_0 : heap := fst (a_run 20 [] [ANewSpace 256; ANewMem 16]).
Definition h72_1 : heap := fst (new_bus tw72 tr72 (b_lite 6 8) ram72 h72_0).
Definition h72_2 : heap := fst (new_bus tw72 tr72 (b_axi 6 3) ram72 h72_1).
Definition ops72 : list M_aspace.aop := [ARegister 0 1 0 None (Some 0); ARegister 0 2 16 None (Some 0); ARegister 0 3 128 (Some 32) (Some 16); AWindow 2 8 None].
Definition h72 : heap := fst (a_run 20 h72_2 ops72).
Definition view72 b : list pcall -> flat := fun log x => see72 (bus_after tw72 tr72 b ram72 log) x.
Definition V72 : byte_view := vset (vset (fun _ => None) 2 (view72 (b_lite 6 8))) 3 (view72 (b_axi 6 3)).
Lemma ram72_ok : inv72 ram72.
Proof. split; [reflexivity|]. unfold ram72, zeros. apply Forall_forall. intros x Hx. apply repeat_spec in Hx as ->. unfold is_byte. lia. Qed.
Lemma id72 (x y : Z) : 0 <= x < 64 -> 0 <= y < 64 -> x = y -> x = y.
Proof. auto. Qed.
Lemma bus72 : bus_heap V72 h72.
Proof.
  assert (H0 : bus_heap (fun _ => None) h72_0) by (intros i o p v _ _ Hv; discriminate).
  assert (I1 : In (b_lite 6 8) (bs72 6)) by (cbn; auto). assert (I2 : In (b_axi 6 3) (bs72 6)) by (cbn; auto).
  pose proof (C72_master_stores _ _ _ _ _ _ (b_lite 6 8) ram72 _ h72_0 (flat72 _ I1) (fits72 _ I1) id72 ram72_ok H0) as H1.
  pose proof (C72_master_stores _ _ _ _ _ _ (b_axi 6 3) ram72 _ h72_1 (flat72 _ I2) (fits72 _ I2) id72 ram72_ok H1) as H2.
  apply (C72_region_is_memory V72 20 ops72 h72_2 H2). cbn. auto.
Qed.
(** reads and writes through the space and the window, across the memory and the bus, and the same with three memories *)
Definition acc72 : list M_aspace.aop := [AWrite 0 13 (PBytes [1; 2; 3; 4; 5; 6]); ARead 0 12 8; ARead 2 0 4; AWrite 4 0 (PBytes [7; 8; 9]); ARead 0 22 8;
  AWrite 0 130 (PBytes [10; 11]); ARead 3 17 5; ARead 0 78 4; ARead 2 60 5; AWrite 0 158 (PBytes [1; 2; 3])].
Example C72_region_nontrivial : bus_heap V72 h72 /\ aops_ok V72 20 h72 acc72 /\
  snd (a_run 20 h72 acc72) = [ADone; ABytes [0; 1; 2; 3; 4; 5; 6; 0]; ABytes [4; 5; 6; 0]; ADone; ABytes [0; 0; 7; 8; 9; 0; 0; 0]; ADone; ABytes [0; 10; 11; 0; 0];
    AErr Plain; AErr ValueError; AErr Plain] /\
  snd (a_run 20 (as_memory V72 h72) acc72) = snd (a_run 20 h72 acc72).
Proof.
  split; [exact bus72|]. split; [vm_compute; repeat (split; [try exact I; repeat constructor; discriminate|]); exact I|]. split; vm_compute; reflexivity.
Qed.

(** the space above as the target of the next bus: 0-79 and 128-159 are memory *)
Definition mp72 (x : Z) : bool := (0 <=? x) && (x <? 80) || (128 <=? x) && (x <? 160).
Lemma reach72 : a_reach h72.
Proof.
  exists 20%nat, ([ANewSpace 256; ANewMem 16;
    ANewPeriph true (fun log a n => snd (reg_rd tr72 (b_lite 6 8) (bus_after tw72 tr72 (b_lite 6 8) ram72 log) a n))
      (fun log a d => snd (reg_wr tw72 (b_lite 6 8) (bus_after tw72 tr72 (b_lite 6 8) ram72 log) a d)) 64;
    ANewPeriph true (fun log a n => snd (reg_rd tr72 (b_axi 6 3) (bus_after tw72 tr72 (b_axi 6 3) ram72 log) a n))
      (fun log a d => snd (reg_wr tw72 (b_axi 6 3) (bus_after tw72 tr72 (b_axi 6 3) ram72 log) a d)) 64] ++ ops72). reflexivity.
Qed.
Lemma reg_rd_len b t a n d : bus_good b -> snd (reg_rd tr72 b t a n) = Ok d -> zlen d = n.
Proof.
  intros Hb. unfold reg_rd. pose proof (bus_rd_range tr72 b t a n Hb) as H. destruct (range_ok _ a n).
  - destruct H as (t' & d' & r & -> & Hl). cbn. congruence.
  - rewrite H. discriminate.
Qed.
Lemma space72 : space_ok h72.
Proof.
  split; [exact reach72|]. split; [|split].
  - intros i o regs al e Hi Hk He. do 5 (destruct i as [|i]; [cbn in Hi; injection Hi as <-; cbn in Hk; try discriminate; injection Hk as <- _; cbn in He;
      repeat (destruct He as [<-|He]; [cbn; lia|]); destruct He|]). destruct i; discriminate.
  - intros i o p log a n d Hi Hk. do 5 (destruct i as [|i]; [cbn in Hi; injection Hi as <-; cbn in Hk; try discriminate; injection Hk as <-; cbn [p_rd]; apply reg_rd_len;
      (apply (fits72 (b_lite 6 8)); cbn; auto) || (apply (fits72 (b_axi 6 3)); cbn; auto)|]). destruct i; discriminate.
  - apply (holds_bytes_check _ 256); [repeat constructor; cbn; lia|vm_compute; reflexivity].
Qed.
Example C72_space_over_buses_hyp : space_ok h72 /\ bus_heap V72 h72 /\
  forall x, 0 <= x < 256 -> if mp72 x then mapped 20 (as_memory V72 h72) 0 x else unmapped 20 (as_memory V72 h72) 0 x.
Proof.
  split; [exact space72|]. split; [exact bus72|]. intros x Hx. pose proof (hok_am V72 h72 (a_reach_hok _ reach72) bus72) as Hok.
  assert (H : forallb (fun x => match locate 20 (as_memory V72 h72) 0 x with
    | Some (l, y) => mp72 x && match content (as_memory V72 h72) l y with Some _ => true | None => false end | None => negb (mp72 x) end) (zrange 0 256) = true) by (vm_compute; reflexivity).
  rewrite forallb_forall in H. specialize (H x ltac:(apply in_zrange; lia)). destruct (locate 20 (as_memory V72 h72) 0 x) as [[l y]|] eqn:E.
  - apply andb_true_iff in H as [-> H]. apply mapped_locate; auto. exists l, y. split; auto. destruct (content (as_memory V72 h72) l y); congruence.
  - apply negb_true_iff in H. rewrite H. now apply unmapped_locate.
Qed.
(** AXI of 16 bytes above it: a write over the memory region and the AXI-Lite bus, one over the end of the AXI bus's region; read back *)
Example C72_space_over_buses_nontrivial :
  let up := b_axi 8 4 in
  let '(h1, r1) := bus_wr (as_write 20 0) up h72 12 [1; 2; 3; 4; 5; 6; 7; 8; 9] in
  let '(h2, r2) := bus_wr (as_write 20 0) up h1 156 [11; 12; 13; 14; 15; 16] in
  r1 = Ok OKAY /\ r2 = Ok SLVERR /\ snd (bus_rd (as_read 20 0) up h2 10 12) = Ok ([0; 0; 1; 2; 3; 4; 5; 6; 7; 8; 9; 0], OKAY) /\
  snd (rd_obj 20 h2 2 0 6) = Ok [5; 6; 7; 8; 9; 0] /\ snd (bus_rd (as_read 20 0) up h2 156 6) = Ok ([11; 12; 13; 14; 0; 0], SLVERR).
Proof. vm_compute. repeat split. Qed.

(** errors: the space of C71, with holes, behind each kind of bus *)
Example C72_errors_nontrivial : Forall (fun b => bus_fits 0 64 b /\ of_words (bus_lanes b) ex_mp /\
  (exists inv : heap -> Prop, inv ex_heap /\ part_target (bus_lanes b) 0 64 ex_mp (cell_of (Nof ex_heap) 20 ex_heap 0) inv (cells (Nof ex_heap)) (as_write 20 0) (as_read 20 0)) /\
  let '(h, r) := reg_wr (as_write 20 0) b ex_heap 22 [1; 2; 3; 4] in
  r = Ok tt /\ snd (bus_wr (as_write 20 0) b ex_heap 22 [1; 2; 3; 4]) = Ok (match b with BusApb _ _ _ false => OKAY | _ => SLVERR end) /\
  snd (reg_rd (as_read 20 0) b h 20 8) = Ok [0; 0; 1; 2; 0; 0; 0; 0] /\ snd (m_read_words (as_read 20 0) b h 24 2 Little 4) = Ok [0; 0] /\
  snd (rd_obj 20 h 0 24 8) = Err Plain) [b_axi 6 2; b_lite 6 4; b_apb 6 4 true; b_apb 6 4 false].
Proof.
  assert (P : exists inv : heap -> Prop, inv ex_heap /\ part_target 4 0 64 ex_mp (cell_of (Nof ex_heap) 20 ex_heap 0) inv (cells (Nof ex_heap)) (as_write 20 0) (as_read 20 0)).
  { pose proof ex_space_ok as (HR & HC & HL & HB). pose proof (a_reach_hok _ HR) as Hok. exists (as_inv ex_heap). split; [exact (conj Hok (conj HC (conj HL (conj eq_refl HB))))|].
    apply aspace_part; auto; [lia|exact ex_mapped]. }
  assert (F : forall b, In b [b_axi 6 2; b_lite 6 4; b_apb 6 4 true; b_apb 6 4 false] -> bus_fits 0 64 b /\ bus_lanes b = 4).
  { intros b [<-|[<-|[<-|[<-|[]]]]]; (split; [|reflexivity]); (split; [split; [reflexivity|try exact I; exists 2; cbn; lia]|cbn; repeat split; lia || reflexivity]). }
  apply Forall_forall. intros b Hb. destruct (F b Hb) as (F1 & F2). split; auto. rewrite F2. split; [exact ex_words|]. split; auto.
  clear F F1 F2 P. destruct Hb as [<-|[<-|[<-|[<-|[]]]]]; vm_compute; repeat split.
Qed.

(** So an access to a region that failed on the bus does not raise. *)
Theorem C72_errors_refuted : ~ (forall lim i h0 b a n d r, space_ok h0 -> bus_good b ->
  snd (bus_rd (as_read lim i) b h0 a n) = Ok (d, r) -> r <> OKAY -> exists e, snd (reg_rd (as_read lim i) b h0 a n) = Err e).
Proof.
  intros H. destruct (H 20%nat 0%nat ex_heap (b_lite 6 4) 24 4 [0; 0; 0; 0] SLVERR ex_space_ok) as [e E].
  - split; [reflexivity|exact I].
  - vm_compute. reflexivity.
  - discriminate.
  - vm_compute in E. discriminate.
Qed.
Print Assumptions C72_errors_refuted.

(** AxiLiteSlave(target=AxiLiteMaster): two reads *)
Example C72_direct_nontrivial :
  let t := fst (bus_wr tw72 (b_lite 6 4) ram72 4 [1; 2; 3; 4; 5]) in
  let ars := [{| la_addr := 6; la_prot := 2 |}; {| la_addr := 8; la_prot := 2 |}] in
  let w := {| lr_data := 67305985; lr_resp := OKAY |} in
  snd (fst (lite_slave_read_log (direct_rd tr72 (b_lite 6 4)) true 4 ars t)) = [w] /\ snd (lite_slave_read_log (direct_rd tr72 (b_lite 6 4)) true 4 ars t) = Err TypeError /\
  snd (fst (lite_slave_read_log (direct_rd tr72 (b_lite 6 4)) false 4 ars t)) = [w; {| lr_data := 5; lr_resp := OKAY |}].
Proof. vm_compute. auto. Qed.

Example C72_direct_read_nontrivial :
  let t := fst (bus_wr tw72 (b_lite 6 4) ram72 4 [1; 2; 3; 4; 5]) in
  snd (direct_rd tr72 (b_lite 6 4) t 5 3) = Ok (RTuple 5 [2; 3; 4] OKAY).
Proof. vm_compute. reflexivity. Qed.
