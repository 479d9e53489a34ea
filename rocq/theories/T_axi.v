(** Property theorems C20-C29 (AXI master, slave and RAM). *)
From Coq Require Import ZArith List Bool Lia.
From Verif Require Import Py S_flat M_sparse S_sparse P_sparse M_memory P_memory M_axi S_axi P_axi
  P_axislave P_axiop P_axiram P_axicomp M_axiargs S_axiargs P_axiargs.
Import ListNotations.
Open Scope Z_scope.

Definition no_side : side := {| s_lock := 0; s_cache := 3; s_prot := 2; s_qos := 0; s_region := 0; s_user := 0 |}.
Definition w0 : wch := {| w_data := 0; w_strb := 0; w_last := false; w_user := 0 |}.

(* ------------------------------------------------------------------ *)
(** * C20 *)

(** What an INCR write sends: bursts, each as its AW followed by its W beats. *)
Theorem C20_write_bursts_legal : forall c aw id cmd,
  bus_ok (m_lanes c) (wc_size cmd) -> wc_burst cmd = INCR -> are_bytes (wc_data cmd) ->
  0 <= wc_addr cmd < 2 ^ aw -> wc_addr cmd + zlen (wc_data cmd) <= 2 ^ aw ->
  exists bursts,
    master_write c id cmd = (flat_map (fun b => EvAW (fst b) :: map EvW (snd b)) bursts, Ok tt) /\
    Forall (fun b =>
      legal_incr (m_lanes c) aw (fst b) /\ 1 <= beats (fst b) <= Z.max (Z.min (m_mbl c) 256) 1 /\
      ax_id (fst b) = id /\ ax_size (fst b) = wc_size cmd /\ ax_side (fst b) = wc_side cmd /\
      zlen (snd b) = beats (fst b) /\ last_ok (snd b) /\
      Forall (fun w => 0 <= w_data w < 256 ^ m_lanes c /\ 0 <= w_strb w < 2 ^ m_lanes c) (snd b)) bursts /\
    chained (wc_addr cmd) (map fst bursts) /\
    (0 < zlen (wc_data cmd) ->
     chain_end (wc_addr cmd) (map fst bursts) =
     down (2 ^ wc_size cmd) (wc_addr cmd + zlen (wc_data cmd) - 1) + 2 ^ wc_size cmd) /\
    map w_user (flat_map snd bursts) = map (wuser_at (wc_wuser cmd)) (zrange 0 (zlen (flat_map snd bursts))).
Proof.
  intros c aw id [A D bt size sd wu]. cbn [wc_addr wc_data wc_burst wc_size wc_side wc_wuser].
  intros HG -> HD HA Hhi. pose proof (zlen_nonneg D) as Hlen.
  pose proof (op_write c A (zlen D) size sd id HG ltac:(lia) Hlen D wu HD eq_refl) as Hw. unfold og_cmd in Hw.
  eexists. split; [rewrite Hw; reflexivity|].
  destruct (op_chain c A (zlen D) size sd id HG Hlen D wu) as (H1 & H2 & _).
  split; [|split; [exact H1|split; [exact H2|exact (op_user c A (zlen D) size sd id HG Hlen D wu)]]].
  eapply Forall_impl; [|exact (op_bursts c A (zlen D) size sd id HG ltac:(lia) Hlen D wu HD eq_refl aw ltac:(lia) Hhi)].
  cbv beta. intros [a ws] (B1 & B2 & B3). split; [exact B1|]. split; [|exact B3].
  destruct B1 as (_ & _ & _ & B1 & _). cbn [fst] in *. unfold beats in *. lia.
Qed.
Print Assumptions C20_write_bursts_legal.

(** the AW and W channels each see their part of it, and pairing them by awlen gives the bursts *)
Theorem C20_write_channels : forall c id cmd,
  bus_ok (m_lanes c) (wc_size cmd) -> wc_burst cmd = INCR -> are_bytes (wc_data cmd) -> 0 <= wc_addr cmd ->
  exists bursts,
    master_write c id cmd = (flat_map (fun b => EvAW (fst b) :: map EvW (snd b)) bursts, Ok tt) /\
    pair_bursts (aw_of (fst (master_write c id cmd))) (w_of (fst (master_write c id cmd))) = Some bursts.
Proof.
  intros c id [A D bt size sd wu]. cbn [wc_addr wc_data wc_burst wc_size]. intros HG -> HD HA.
  pose proof (zlen_nonneg D) as Hlen.
  pose proof (op_write c A (zlen D) size sd id HG ltac:(lia) Hlen D wu HD eq_refl) as Hw. unfold og_cmd in Hw.
  eexists. rewrite Hw. split; [reflexivity|]. cbn [fst]. exact (op_pair c A (zlen D) size sd id HG D wu).
Qed.
Print Assumptions C20_write_channels.

Theorem C20_read_bursts_legal : forall c aw id cmd,
  bus_ok (m_lanes c) (rc_size cmd) -> rc_burst cmd = INCR -> 0 <= rc_len cmd ->
  0 <= rc_addr cmd < 2 ^ aw -> rc_addr cmd + rc_len cmd <= 2 ^ aw ->
  let ars := master_read c id cmd in
  Forall (fun a =>
    legal_incr (m_lanes c) aw a /\ 1 <= beats a <= Z.max (Z.min (m_mbl c) 256) 1 /\
    ax_id a = id /\ ax_size a = rc_size cmd /\ ax_side a = rc_side cmd) ars /\
  chained (rc_addr cmd) ars /\
  (0 < rc_len cmd ->
   chain_end (rc_addr cmd) ars = down (2 ^ rc_size cmd) (rc_addr cmd + rc_len cmd - 1) + 2 ^ rc_size cmd).
Proof.
  intros c aw id [A len bt size sd]. cbn [rc_addr rc_len rc_burst rc_size rc_side].
  intros HG -> Hlen HA Hhi.
  pose proof (op_read c A len size sd id HG Hlen) as Hw. unfold og_rcmd in Hw. rewrite Hw. cbv zeta.
  destruct (op_ars_chain c A len size sd id HG Hlen) as (H1 & H2 & _).
  split; [|split; [exact H1|exact H2]].
  eapply Forall_impl; [|exact (op_ars c A len size sd id HG ltac:(lia) Hlen aw ltac:(lia) Hhi)].
  cbv beta. intros a (B1 & B2 & B3). split; [exact B1|]. split; [|exact B3].
  destruct B1 as (_ & _ & _ & B1 & _). unfold beats in *. lia.
Qed.
Print Assumptions C20_read_bursts_legal.

(** unaligned narrow write across a 4 kB boundary: split into a 2 beat and a 3 beat burst *)
Example C20_nontrivial :
  let '(evs, r) := master_write {| m_lanes := 4; m_mbl := 256 |} 5
     {| wc_addr := 4093; wc_data := [1;2;3;4;5;6;7;8]; wc_burst := INCR; wc_size := 1;
        wc_side := no_side; wc_wuser := WInt 0 |} in
  (r, map (fun a => (ax_addr a, ax_len a)) (aw_of evs), map (fun w => (w_strb w, w_last w)) (w_of evs))
  = (Ok tt, [(4093, 1); (4096, 2)], [(2, false); (12, true); (3, false); (12, false); (1, true)]).
Proof. vm_compute. reflexivity. Qed.
Example C20_nontrivial_hyp : bus_ok 4 1.
Proof. exists 2. lia. Qed.

(* ------------------------------------------------------------------ *)
(** * C21 *)

Theorem C21_strobes_select_exactly : forall c id cmd,
  bus_ok (m_lanes c) (wc_size cmd) -> wc_burst cmd = INCR -> are_bytes (wc_data cmd) -> 0 <= wc_addr cmd ->
  exists bursts,
    pair_bursts (aw_of (fst (master_write c id cmd))) (w_of (fst (master_write c id cmd))) = Some bursts /\
    all_bytes (m_lanes c) bursts = addressed (wc_addr cmd) (wc_data cmd) /\
    forall a ws j i, In (a, ws) bursts -> 0 <= j < zlen ws -> 0 <= i < m_lanes c ->
      let word := down (m_lanes c) (axi_beat_addr a j) in
      let cont := down (2 ^ wc_size cmd) (axi_beat_addr a j) in
      if Z.testbit (w_strb (znth w0 ws j)) i
      then cont <= word + i < cont + 2 ^ wc_size cmd
      else lane_byte (w_data (znth w0 ws j)) i = 0.
Proof.
  intros c id [A D bt size sd wu]. cbn [wc_addr wc_data wc_burst wc_size]. intros HG -> HD HA.
  pose proof (zlen_nonneg D) as Hlen.
  pose proof (op_write c A (zlen D) size sd id HG ltac:(lia) Hlen D wu HD eq_refl) as Hw. unfold og_cmd in Hw.
  eexists. rewrite Hw. cbn [fst]. split; [exact (op_pair c A (zlen D) size sd id HG D wu)|].
  split; [exact (op_bytes c A (zlen D) size sd id HG HA Hlen D wu HD eq_refl)|].
  intros a ws j i H1 H2 H3. exact (op_lanes c A (zlen D) size sd id HG HA Hlen D wu HD eq_refl a ws j i H1 H2 H3).
Qed.
Print Assumptions C21_strobes_select_exactly.

Example C21_nontrivial :
  let '(evs, r) := master_write {| m_lanes := 4; m_mbl := 256 |} 5
     {| wc_addr := 4093; wc_data := [11;12;13;14;15;16;17;18]; wc_burst := INCR; wc_size := 1;
        wc_side := no_side; wc_wuser := WInt 0 |} in
  map (fun w => (w_strb w, w_data w)) (w_of evs)
  = [(2, 11 * 2^8); (12, 12 * 2^16 + 13 * 2^24); (3, 14 + 15 * 2^8); (12, 16 * 2^16 + 17 * 2^24); (1, 18)].
Proof. vm_compute. reflexivity. Qed.

(* ------------------------------------------------------------------ *)
(** * C22-C24 *)

(** Any byte-storing target.  [mw_resp] is what the master makes of the slave's B transfers. *)
Theorem C22_write_exact : forall T L lo hi phi (inv : T -> Prop) view tw tr,
  flat_target L lo hi phi inv view tw tr ->
  forall c id cmd t,
  m_lanes c = L -> bus_ok L (wc_size cmd) -> wc_burst cmd = INCR -> are_bytes (wc_data cmd) ->
  0 <= wc_addr cmd -> lo <= wc_addr cmd -> wc_addr cmd + zlen (wc_data cmd) <= hi -> inv t ->
  let evs := fst (master_write c id cmd) in
  exists t' bs users,
    slave_write tw L true (aw_of evs) (w_of evs) t = (t', bs, Ok []) /\ inv t' /\
    view t' =f put phi (view t) (addressed (wc_addr cmd) (wc_data cmd)) /\
    Forall (fun b => b_id b = id) bs /\
    mw_resp (bursts_of (aw_of evs)) bs OKAY [] = Some (OKAY, users, []).
Proof. intros T L lo hi phi inv view tw tr H. exact (write_exact L lo hi phi inv view tw tr H). Qed.
Print Assumptions C22_write_exact.

(** AxiRam of [size] bytes: byte a+i of the operation goes to location (a+i) mod size. *)
Theorem C22_ram_write_exact : forall size c id cmd m,
  0 < size -> size mod m_lanes c = 0 -> sm_reachable size m ->
  bus_ok (m_lanes c) (wc_size cmd) -> wc_burst cmd = INCR -> are_bytes (wc_data cmd) -> 0 <= wc_addr cmd ->
  zlen (wc_data cmd) <= size ->
  let evs := fst (master_write c id cmd) in
  exists m' bs users,
    slave_write ram_write (m_lanes c) true (aw_of evs) (w_of evs) m = (m', bs, Ok []) /\
    sm_reachable size m' /\
    mw_resp (bursts_of (aw_of evs)) bs OKAY [] = Some (OKAY, users, []) /\
    (forall i, 0 <= i < zlen (wc_data cmd) -> peek m' ((wc_addr cmd + i) mod size) = znth 0 (wc_data cmd) i) /\
    (forall x, (forall i, 0 <= i < zlen (wc_data cmd) -> x <> (wc_addr cmd + i) mod size) -> peek m' x = peek m x).
Proof.
  intros size c id cmd m Hs Hm Hr HG Hbt HD HA Hlen evs.
  destruct (bus_ok_facts _ _ HG) as (q & p & Hnb & Hq & HL & Hp & Hs' & HL0).
  pose proof (ram_flat (m_lanes c) size 0 (wc_addr cmd + zlen (wc_data cmd)) HL0 Hs Hm) as Hft.
  destruct (write_exact _ _ _ _ _ _ _ _ Hft c id cmd m eq_refl HG Hbt HD HA HA ltac:(lia) Hr)
    as (m' & bs & us & E & Hr' & Hv & _ & Hresp).
  exists m', bs, us. split; [exact E|]. split; [exact Hr'|]. split; [exact Hresp|]. split.
  - intros i Hi. rewrite Hv. apply (put_hit (fun x => x mod size)); [|exact Hi].
    intros j k Hj Hk Hjk. cbv beta in Hjk.
    pose proof (Z.div_mod (wc_addr cmd + j) size ltac:(lia)) as E1.
    pose proof (Z.div_mod (wc_addr cmd + k) size ltac:(lia)) as E2.
    rewrite Hjk in E1. set (u := (wc_addr cmd + j) / size) in *. set (v := (wc_addr cmd + k) / size) in *.
    assert (j - k = size * (u - v)) by lia. clear - H Hj Hk Hlen Hs. destruct (Z.lt_trichotomy u v) as [|[|]]; nia.
  - intros x Hx. rewrite Hv. now apply (put_miss (fun x => x mod size)).
Qed.
Print Assumptions C22_ram_write_exact.

Theorem C23_read_exact : forall T L lo hi phi (inv : T -> Prop) view tw tr,
  flat_target L lo hi phi inv view tw tr ->
  forall c id cmd t,
  m_lanes c = L -> bus_ok L (rc_size cmd) -> rc_burst cmd = INCR -> 0 <= rc_len cmd -> 0 <= rc_addr cmd ->
  lo mod L = 0 -> hi mod L = 0 -> lo <= rc_addr cmd < hi -> rc_addr cmd + rc_len cmd <= hi -> inv t ->
  let ars := master_read c id cmd in
  exists t' rs users,
    slave_read tr L ars t = (t', rs, Ok tt) /\ inv t' /\ view t' =f view t /\
    Forall (fun r => r_id r = id) rs /\
    master_read_resp c cmd (bursts_of ars) rs =
      Some (Ok (map (fun x => view t (phi x)) (zrange (rc_addr cmd) (rc_addr cmd + rc_len cmd)), OKAY, users, [])).
Proof. intros T L lo hi phi inv view tw tr H. exact (read_exact L lo hi phi inv view tw tr H). Qed.
Print Assumptions C23_read_exact.

Theorem C23_ram_read_exact : forall size c id cmd m,
  0 < size -> size mod m_lanes c = 0 -> sm_reachable size m ->
  bus_ok (m_lanes c) (rc_size cmd) -> rc_burst cmd = INCR -> 0 <= rc_len cmd -> 0 <= rc_addr cmd ->
  let ars := master_read c id cmd in
  exists rs users,
    slave_read ram_read (m_lanes c) ars m = (m, rs, Ok tt) /\
    master_read_resp c cmd (bursts_of ars) rs =
      Some (Ok (map (fun x => peek m (x mod size)) (zrange (rc_addr cmd) (rc_addr cmd + rc_len cmd)), OKAY, users, [])).
Proof.
  intros size c id cmd m Hs Hm Hr HG Hbt Hlen HA ars.
  destruct (bus_ok_facts _ _ HG) as (q & p & Hnb & Hq & HL & Hp & Hs' & HL0).
  set (hi := m_lanes c * (rc_addr cmd + rc_len cmd + 1)).
  pose proof (ram_flat (m_lanes c) size 0 hi HL0 Hs Hm) as Hft.
  assert (rc_addr cmd + rc_len cmd + 1 <= hi) by (unfold hi; nia).
  destruct (read_exact _ _ _ _ _ _ _ _ Hft c id cmd m eq_refl HG Hbt Hlen HA (Z.mod_0_l (m_lanes c) ltac:(lia))
              ltac:(unfold hi; rewrite Z.mul_comm; apply Z.mod_mul; lia) ltac:(lia) ltac:(lia) Hr)
    as (m' & rs & us & E & _ & _ & _ & Hresp).
  exists rs, us. split; [|exact Hresp].
  assert (m' = m) as ->; [|exact E].
  assert (Hst : forall n s t, fst (sr_beats ram_read (m_lanes c) n s t) = t).
  { induction n as [|n IH]; intros s t; cbn [sr_beats]; [reflexivity|].
    unfold sr_beat. destruct (ram_read t _ _) as [t1 r] eqn:E1. injection E1 as E1 _. rewrite <- E1.
    destruct r; match goal with |- context [sr_beats ?f ?L n ?s t] =>
      pose proof (IH s t) as Hi; destruct (sr_beats f L n s t) end; exact Hi. }
  assert (Hst2 : forall l t, fst (fst (slave_read ram_read (m_lanes c) l t)) = t).
  { induction l as [|a l IH]; intros t; cbn [slave_read]; [reflexivity|].
    destruct (sl_start (m_lanes c) a) as [s|e]; [|reflexivity].
    pose proof (Hst (Z.to_nat (ss_left s)) s t) as H1. destruct (sr_beats ram_read _ _ s t) as [t1 r1].
    cbn [fst] in H1. subst t1. pose proof (IH t) as H2. destruct (slave_read ram_read _ l t) as [[t2 r2] x].
    exact H2. }
  pose proof (Hst2 (master_read c id cmd) m) as H2. rewrite E in H2. exact H2.
Qed.
Print Assumptions C23_ram_read_exact.

Example C23_nontrivial :
  let c := {| m_lanes := 4; m_mbl := 2 |} in
  let cmd := {| rc_addr := 6; rc_len := 13; rc_burst := INCR; rc_size := 1; rc_side := no_side |} in
  let m := fst (sm_run (sm_init 16) [SWrite 0 [10;11;12;13;14;15;16;17;18;19;20;21;22;23;24;25]]) in
  let ars := master_read c 3 cmd in
  let '(_, rs, _) := slave_read ram_read 4 ars m in
  (map ax_addr ars, master_read_resp c cmd (bursts_of ars) rs) =
  ([6; 10; 14; 18], Some (Ok ([16;17;18;19;20;21;22;23;24;25;10;11;12], OKAY, zeros 7, []))).
Proof. vm_compute. reflexivity. Qed.

(** C24: write, then read with independent IDs, sizes and burst lengths; [k] wraps around the RAM. *)
Theorem C24_ram_roundtrip : forall size c c2 id id2 cmd sz2 sd2 k m,
  0 < size -> size mod m_lanes c = 0 -> sm_reachable size m ->
  bus_ok (m_lanes c) (wc_size cmd) -> bus_ok (m_lanes c) sz2 -> m_lanes c2 = m_lanes c ->
  wc_burst cmd = INCR -> are_bytes (wc_data cmd) -> 0 <= wc_addr cmd -> zlen (wc_data cmd) <= size ->
  0 <= wc_addr cmd + k * size ->
  let evs := fst (master_write c id cmd) in
  let rcm := {| rc_addr := wc_addr cmd + k * size; rc_len := zlen (wc_data cmd); rc_burst := INCR;
                rc_size := sz2; rc_side := sd2 |} in
  let ars := master_read c2 id2 rcm in
  exists m' bs rs users,
    slave_write ram_write (m_lanes c) true (aw_of evs) (w_of evs) m = (m', bs, Ok []) /\
    slave_read ram_read (m_lanes c) ars m' = (m', rs, Ok tt) /\
    master_read_resp c2 rcm (bursts_of ars) rs = Some (Ok (wc_data cmd, OKAY, users, [])).
Proof.
  intros size c c2 id id2 cmd sz2 sd2 k m Hs Hm Hr HG HG2 HL2 Hbt HD HA Hlen HA2 evs rcm ars.
  destruct (C22_ram_write_exact size c id cmd m Hs Hm Hr HG Hbt HD HA Hlen)
    as (m' & bs & us & E & Hr' & _ & Hin & _).
  destruct (C23_ram_read_exact size c2 id2 rcm m' Hs) as (rs & us2 & E2 & Hres);
    try (rewrite HL2; assumption); try assumption; try reflexivity; try apply zlen_nonneg.
  exists m', bs, rs, us2. split; [exact E|]. split; [rewrite <- HL2; exact E2|].
  fold ars in Hres. rewrite Hres. do 4 f_equal. cbn [rc_addr rc_len rcm].
  pose proof (zlen_nonneg (wc_data cmd)).
  apply (f_equal (fun x => (x, OKAY))). apply (nth_ext_z 0); rewrite zlen_map, zlen_zrange; [lia|].
  intros i Hi. rewrite (znth_map _ 0) by (rewrite zlen_zrange; lia).
  unfold zrange. rewrite znth_zseq by lia.
  replace (wc_addr cmd + k * size + i) with (wc_addr cmd + i + k * size) by ring.
  rewrite Z.mod_add by lia. apply Hin. lia.
Qed.
Print Assumptions C24_ram_roundtrip.

(** 13 bytes at address 14 of a 16 byte RAM behind a 4 byte bus: wraps around, and the rest stays *)
Example C24_nontrivial :
  let c := {| m_lanes := 4; m_mbl := 2 |} in
  let cmd := {| wc_addr := 30; wc_data := [1;2;3;4;5;6;7;8;9;10;11;12;13]; wc_burst := INCR; wc_size := 1;
                wc_side := no_side; wc_wuser := WInt 0 |} in
  let m := fst (sm_run (sm_init 16) [SWrite 0 [100;101;102;103;104;105;106;107;108;109;110;111;112;113;114;115]]) in
  let evs := fst (master_write c 1 cmd) in
  let '(m', bs, r) := slave_write ram_write 4 true (aw_of evs) (w_of evs) m in
  (length bs, map (peek m') (zrange 0 16)) =
  (4%nat, [3;4;5;6;7;8;9;10;11;12;13;111;112;113;1;2]).
Proof. vm_compute. reflexivity. Qed.

(* ------------------------------------------------------------------ *)
(** * C25, C27: the slave on an arbitrary target that may raise *)

(** For every sequence of bursts of any type, with any target: the target is called for each beat
    with the bus word of the specified beat address; writes are the strobed bytes of that word, up to
    the first call of the beat that raised.  One B per burst, in order, with its ID; SLVERR exactly
    if some call of the burst raised. *)
Theorem C25_C27_slave_write : forall T (tw : T -> Z -> list Z -> T * res unit) L sp bursts t rest,
  0 < L -> Forall (wburst_ok L) bursts ->
  exists t' ans,
    slave_write (log_write tw) L sp (map fst bursts) (flat_map snd bursts ++ rest) (t, []) =
      ((t', flat_map (fun x => concat (fst x)) ans), map snd ans, Ok rest) /\
    Forall2 (fun b x =>
      logged L (fst b) 0 (map (eff_w sp L) (snd b)) (fst x) /\
      snd x = {| b_id := ax_id (fst b);
                 b_resp := if existsb failed (concat (fst x)) then SLVERR else OKAY; b_user := 0 |}) bursts ans.
Proof.
  intros T tw L sp bursts t rest HL Hb.
  exact (slave_write_any tw (fun t _ _ => (t, Err ValueError)) L HL sp bursts t [] rest Hb).
Qed.
Print Assumptions C25_C27_slave_write.

(** Reads: beat j of burst a reads the bus word of its specified address; arlen+1 R beats with the
    burst's ID, rlast on the last one only, SLVERR and zero data exactly on the beats that raised. *)
Theorem C25_C27_slave_read : forall T (tr : T -> Z -> Z -> T * res (list Z)) L ars t,
  0 < L -> Forall (rburst_ok L) ars ->
  exists t' ans,
    slave_read (log_read tr) L ars (t, []) =
      ((t', concat ans),
       flat_map (fun p => map (r_answer (fst p)) (combine (zrange 0 (beats (fst p))) (snd p))) (combine ars ans),
       Ok tt) /\
    Forall2 (fun a x => map fst x = map (fun j => (down L (axi_beat_addr a j), L)) (zrange 0 (beats a))) ars ans.
Proof. intros T tr L ars t HL Ha. exact (slave_read_any (fun t _ _ => (t, Ok tt)) tr L HL ars t [] Ha). Qed.
Print Assumptions C25_C27_slave_read.

(** a WRAP burst of 4 beats of 2 bytes on a 4 byte bus, starting at 0x0C, target raising on word 0x0C *)
Example C25_C27_nontrivial :
  let tr := fun (t : unit) a n => (t, if a =? 12 then Err ValueError else Ok (map (fun i => (a + i) mod 256) (zrange 0 n))) in
  let a := {| ax_id := 7; ax_addr := 12; ax_len := 3; ax_size := 1; ax_burst := WRAP; ax_side := no_side |} in
  let '((_, log), rs, r) := slave_read (log_read tr) 4 [a] (tt, []) in
  (map (fun e => fst (fst e)) log, map (fun r => (r_id r, r_data r, r_resp r, r_last r)) rs) =
  ([12; 12; 8; 8],
   [(7, 0, SLVERR, false); (7, 0, SLVERR, false); (7, 185207048, OKAY, false); (7, 185207048, OKAY, true)]).
Proof. vm_compute. reflexivity. Qed.
Example C25_C27_nontrivial_hyp :
  rburst_ok 4 {| ax_id := 7; ax_addr := 12; ax_len := 3; ax_size := 1; ax_burst := WRAP; ax_side := no_side |}.
Proof. repeat split; cbn; try lia; try discriminate. exists 2. lia. Qed.

(** a write whose third strobed run would fail: the first run is stored, SLVERR is reported *)
Example C27_nontrivial :
  let tw := fun (t : list (Z * list Z)) a d => if a =? 3 then (t, Err ValueError) else (t ++ [(a, d)], Ok tt) in
  let a := {| ax_id := 7; ax_addr := 0; ax_len := 1; ax_size := 2; ax_burst := INCR; ax_side := no_side |} in
  let w := fun d s l => {| w_data := d; w_strb := s; w_last := l; w_user := 0 |} in
  slave_write tw 4 true [a] [w 67305985 11 false; w 134678021 15 true] [] =
  ([(0, [1; 2]); (4, [5; 6; 7; 8])], [{| b_id := 7; b_resp := SLVERR; b_user := 0 |}], Ok []).
Proof. vm_compute. reflexivity. Qed.

(** bursts outside the accepted set (4 kB crossing, size beyond the bus) kill the slave's task before any access *)
Theorem C27_slave_rejects : forall T (tw : T -> Z -> list Z -> T * res unit) (tr : T -> Z -> Z -> T * res (list Z))
  L sp a aws ws t, 0 <= ax_size a -> 0 <= ax_len a -> ~ accepts L a ->
  slave_write tw L sp (a :: aws) ws t = (t, [], Err AssertionError) /\
  slave_read tr L (a :: aws) t = (t, [], Err AssertionError).
Proof. intros. split; [now apply slave_write_reject|now apply slave_read_reject]. Qed.
Print Assumptions C27_slave_rejects.

(* ------------------------------------------------------------------ *)
(** * C26 *)

(** Full-width, aligned FIXED writes: chunk after chunk of the data goes to the same address. *)
Theorem C26_fixed_write_full_width_partial : forall c id A size sd D wu,
  bus_ok (m_lanes c) size -> m_lanes c = 2 ^ size -> 0 <= A -> A mod m_lanes c = 0 -> are_bytes D ->
  let cmd := {| wc_addr := A; wc_data := D; wc_burst := FIXED; wc_size := size; wc_side := sd; wc_wuser := wu |} in
  let evs := fst (master_write c id cmd) in
  let L := m_lanes c in
  snd (master_write c id cmd) = Ok tt /\
  exists bursts, pair_bursts (aw_of evs) (w_of evs) = Some bursts /\
    Forall (fun b => ax_burst (fst b) = FIXED /\ ax_addr (fst b) = A /\ last_ok (snd b)) bursts /\
    all_bytes L bursts =
    flat_map (fun k => addressed A (zslice D (k * L) ((k + 1) * L))) (zrange 0 ((zlen D + L - 1) / L)).
Proof. intros c id A size sd D wu H1 H2 H3 H4 H5. exact (fixed_write c A size sd id D wu H1 H2 H3 H4 H5). Qed.
Print Assumptions C26_fixed_write_full_width_partial.

(** Narrow FIXED write of 8 bytes as two 4 byte beats on an 8 byte bus: the second beat is strobed on
    lanes 4-7, i.e. it goes to addresses 4-7 instead of 0-3. *)
Theorem C26_fixed_write_refuted : exists c id cmd bursts,
  bus_ok (m_lanes c) (wc_size cmd) /\ wc_burst cmd = FIXED /\ wc_addr cmd = 0 /\ wc_size cmd = 2 /\
  are_bytes (wc_data cmd) /\
  pair_bursts (aw_of (fst (master_write c id cmd))) (w_of (fst (master_write c id cmd))) = Some bursts /\
  ~ Forall (fun p => 0 <= fst p < 4) (all_bytes (m_lanes c) bursts).
Proof.
  exists {| m_lanes := 8; m_mbl := 256 |}, 0,
    {| wc_addr := 0; wc_data := [1;2;3;4;5;6;7;8]; wc_burst := FIXED; wc_size := 2; wc_side := no_side; wc_wuser := WInt 0 |}.
  eexists. split; [exists 3; cbn; lia|]. split; [reflexivity|]. split; [reflexivity|]. split; [reflexivity|].
  split; [repeat constructor; unfold is_byte; lia|]. split; [vm_compute; reflexivity|].
  intros H. rewrite Forall_forall in H.
  specialize (H (4, 5)). cbn [fst] in H. assert (0 <= 4 < 4) as []; [|lia]. apply H. vm_compute. tauto.
Qed.
Print Assumptions C26_fixed_write_refuted.

Example C26_nontrivial :
  let evs := fst (master_write {| m_lanes := 2; m_mbl := 256 |} 0
    {| wc_addr := 6; wc_data := [1;2;3;4;5]; wc_burst := FIXED; wc_size := 1; wc_side := no_side; wc_wuser := WInt 0 |}) in
  option_map (all_bytes 2) (pair_bursts (aw_of evs) (w_of evs)) = Some [(6,1);(7,2);(6,3);(7,4);(6,5)].
Proof. vm_compute. reflexivity. Qed.

(* ------------------------------------------------------------------ *)
(** * C28 *)

(** The response list of an operation without EXOKAY: the reported response is an error iff one
    of them is; all OKAY gives OKAY.  Write and read use the same rule. *)
Theorem C28_write_errors_reported_partial : forall bl bs resp users,
  mw_resp bl bs OKAY [] = Some (resp, users, []) ->
  Forall (fun b => b_resp b <> EXOKAY) bs ->
  rerr resp = existsb (fun b => rerr (b_resp b)) bs /\
  (Forall (fun b => b_resp b = OKAY) bs -> resp = OKAY) /\ users = map b_user bs.
Proof.
  intros bl bs resp users H Hx.
  assert (Hl : length bl = length bs).
  { revert bs Hx H. generalize OKAY at 1, (@nil Z). induction bl as [|x bl IH]; intros r u bs Hx H; cbn [mw_resp] in H.
    - injection H as _ _ ->. reflexivity.
    - destruct bs as [|b bs]; [discriminate|]. cbn [length]. f_equal. inversion Hx; subst. eapply IH; eauto. }
  pose proof (mw_resp_spec bl bs [] OKAY [] Hl) as HR. rewrite app_nil_r, H in HR. injection HR as -> ->.
  split; [|split; [|reflexivity]].
  - rewrite agg_err by now rewrite Forall_map. cbn [rerr orb]. clear. induction bs; cbn; [reflexivity|]. now rewrite IHbs.
  - intros Ho. rewrite agg_okay; [reflexivity|]. now rewrite Forall_map.
Qed.
Print Assumptions C28_write_errors_reported_partial.

Theorem C28_read_errors_reported_partial : forall c cmd bl rs data resp users,
  master_read_resp c cmd bl rs = Some (Ok (data, resp, users, [])) ->
  Forall (fun r => r_resp r <> EXOKAY) rs ->
  rerr resp = existsb (fun r => rerr (r_resp r)) rs /\
  (Forall (fun r => r_resp r = OKAY) rs -> resp = OKAY) /\ users = map r_user rs.
Proof.
  intros c cmd bl rs data resp users H Hx. unfold master_read_resp in H.
  destruct (mr_bursts _ _ _ _ _ _) as [[[st rest]|e]|] eqn:E; try discriminate.
  injection H as _ <- <- ->. apply mr_bursts_resp in E. cbn [mr_resp mr_user app] in E.
  destruct E as (used & E & -> & ->). rewrite app_nil_r in E. subst used.
  split; [|split; [|reflexivity]].
  - rewrite agg_err by now rewrite Forall_map. cbn [rerr orb]. clear. induction rs; cbn; [reflexivity|]. now rewrite IHrs.
  - intros Ho. rewrite agg_okay; [reflexivity|]. now rewrite Forall_map.
Qed.
Print Assumptions C28_read_errors_reported_partial.

Theorem C28_errors_reported_refuted : exists bl bs users,
  mw_resp bl bs OKAY [] = Some (EXOKAY, users, []) /\ In SLVERR (map b_resp bs).
Proof.
  exists [256; 1], [{| b_id := 0; b_resp := SLVERR; b_user := 0 |}; {| b_id := 0; b_resp := EXOKAY; b_user := 0 |}], [0; 0].
  split; [reflexivity|]. cbn. auto.
Qed.
Print Assumptions C28_errors_reported_refuted.

Example C28_nontrivial :
  mw_resp [2; 2; 2] (map (fun r => {| b_id := 1; b_resp := r; b_user := 0 |}) [OKAY; DECERR; OKAY]) OKAY []
  = Some (DECERR, [0;0;0], []).
Proof. reflexivity. Qed.

(* ------------------------------------------------------------------ *)
(** * C29 *)

(** Exactly the servable requests are queued (once), with the requested meaning; everything else
    raises ValueError and leaves queue and counter alone.  [ids] up to 2^id_width are accepted, one
    too many: see the refutation below. *)
Theorem C29_write_request_partial : forall c m a st,
  0 <= m -> ac_lanes c = 2 ^ m ->
  (wargs_ok (2 ^ ac_idw c) c a ->
     exists i cmd, write_args c a = Ok (i, cmd) /\
       call (write_args c a) st = (fst st + 1, snd st ++ [(i, cmd)], Ok tt) /\
       com_means c m (wa_com a) i (wc_burst cmd) (wc_size cmd) /\ 0 <= wc_size cmd <= m /\
       wc_addr cmd = g_addr (wa_com a) /\ wa_data a = DSeq (wc_data cmd) /\
       wc_side cmd = g_side (wa_com a) /\ wc_wuser cmd = wuser_means (wa_wuser a)) /\
  (~ wargs_ok (2 ^ ac_idw c) c a -> call (write_args c a) st = (st, Err ValueError)).
Proof.
  intros c m a st Hm HL. pose proof (write_args_spec c m a Hm HL) as H.
  destruct (write_args c a) as [[i cmd]|e]; cbn [call].
  - split; [|tauto]. intros _. exists i, cmd. split; [reflexivity|]. split; [reflexivity|]. tauto.
  - destruct H as [-> H]. split; [tauto|reflexivity].
Qed.
Print Assumptions C29_write_request_partial.

Theorem C29_read_request_partial : forall c m a st,
  0 <= m -> ac_lanes c = 2 ^ m ->
  (rargs_ok (2 ^ ac_idw c) c a ->
     exists i cmd, read_args c a = Ok (i, cmd) /\
       call (read_args c a) st = (fst st + 1, snd st ++ [(i, cmd)], Ok tt) /\
       com_means c m (ra_com a) i (rc_burst cmd) (rc_size cmd) /\ 0 <= rc_size cmd <= m /\
       rc_addr cmd = g_addr (ra_com a) /\ rc_len cmd = ra_len a /\ rc_side cmd = g_side (ra_com a)) /\
  (~ rargs_ok (2 ^ ac_idw c) c a -> call (read_args c a) st = (st, Err ValueError)).
Proof.
  intros c m a st Hm HL. pose proof (read_args_spec c m a Hm HL) as H.
  destruct (read_args c a) as [[i cmd]|e]; cbn [call].
  - split; [|tauto]. intros _. exists i, cmd. split; [reflexivity|]. split; [reflexivity|]. tauto.
  - destruct H as [-> H]. split; [tauto|reflexivity].
Qed.
Print Assumptions C29_read_request_partial.

(** An ID equal to 2^id_width does not fit the ID signal, but is queued. *)
Theorem C29_id_fits_refuted : exists c a i cmd,
  write_args c a = Ok (Some i, cmd) /\ ~ i < 2 ^ ac_idw c /\ ~ wargs_ok (2 ^ ac_idw c - 1) c a.
Proof.
  exists {| ac_aw := 16; ac_idw := 4; ac_lanes := 4; ac_pres := Build_present true true true true true true true |},
    {| wa_com := {| g_addr := 0; g_id := Some 16; g_burst := 1; g_size := None; g_side := no_side |};
       wa_data := DSeq [1]; wa_wuser := UInt 0 |}.
  eexists _, _. split; [vm_compute; reflexivity|]. split; [cbn; lia|].
  intros (d & _ & _ & (_ & _ & _ & H & _) & _). specialize (H 16 eq_refl). cbn in H. lia.
Qed.
Print Assumptions C29_id_fits_refuted.

Example C29_nontrivial :
  let c := {| ac_aw := 16; ac_idw := 4; ac_lanes := 4; ac_pres := Build_present false true true true true true false |} in
  let a := fun ad s l => {| wa_com := {| g_addr := ad; g_id := Some (-1); g_burst := 1; g_size := s; g_side :=
      {| s_lock := l; s_cache := 3; s_prot := 2; s_qos := 0; s_region := 0; s_user := 0 |} |};
      wa_data := DSeq [1;2;3]; wa_wuser := UInt 0 |} in
  (is_err (write_args c (a 65533 None 0)), is_err (write_args c (a 65534 None 0)),
   is_err (write_args c (a 0 (Some 3) 0)), is_err (write_args c (a 0 (Some 2) 1)))
  = (false, true, true, true).
Proof. vm_compute. reflexivity. Qed.
