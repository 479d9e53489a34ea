(** C90: WRAP writes of the AXI master. *)
From Coq Require Import ZArith Lia List Bool.
From Coq Require Import ZifyBool ZifyNat.
From Verif Require Import Py S_flat M_axi S_axi P_axi P_axislave P_axiop P_axicomp P_fixed.
Import ListNotations.
Open Scope Z_scope.

Lemma mod_beat nb q v j : 0 < nb -> 0 < q -> 0 <= j < nb -> (nb * v + j) mod (nb * q) = nb * (v mod q) + j.
Proof.
  intros Hn Hq Hj. symmetry. pose proof (Z.div_mod v q ltac:(lia)) as Hd. pose proof (Z.mod_pos_bound v q Hq) as Hm.
  apply (Z.mod_unique_pos _ _ (v / q)).
  - assert (nb * (v mod q) + nb <= nb * q); [|assert (0 <= nb * (v mod q)) by (apply Z.mul_nonneg_nonneg; lia); lia].
    replace (nb * (v mod q) + nb) with (nb * (v mod q + 1)) by ring. apply Z.mul_le_mono_nonneg_l; lia.
  - rewrite Hd at 1. ring.
Qed.

(** the byte of address [x], in beat [n], is on the lane of its wrapped address *)
Lemma wrap_key nb m q t A n x : 0 < nb -> 0 < m -> 0 < q -> nb * m = nb * q * t -> A mod nb = 0 -> 0 <= n ->
  A + n * nb <= x < A + n * nb + nb ->
  let c := nb * m in let wb := down c A in
  down (nb * q) (wb + (A - wb + n * nb) mod c) + x mod (nb * q) = wb + (x - wb) mod c.
Proof.
  intros Hnb Hm Hq Ht HA Hn Hx c wb.
  assert (HA' : A = nb * (A / nb)) by (pose proof (Z.div_mod A nb ltac:(lia)); lia).
  set (u := A / nb) in *. clearbody u. subst A.
  assert (Hwb : wb = nb * (m * (nb * u / c))) by (unfold wb; rewrite down_eq by (unfold c; nia); unfold c; ring).
  set (z := nb * u / c) in *. clearbody z. clearbody wb. subst wb.
  set (j := x - (nb * u + n * nb)). assert (Hj : 0 <= j < nb) by (unfold j; lia).
  assert (Hxe : x = nb * (u + n) + j) by (unfold j; ring). clearbody j. subst x. clear Hx HA.
  set (v := u + n - m * z).
  replace (nb * u - nb * (m * z) + n * nb) with (nb * v + 0) by (unfold v; ring).
  replace (nb * (u + n) + j - nb * (m * z)) with (nb * v + j) by (unfold v; ring).
  unfold c. rewrite !mod_beat by lia. rewrite Z.add_0_r.
  replace (nb * (m * z) + nb * (v mod m)) with (nb * (m * z + v mod m) + 0) by ring.
  unfold down. rewrite !mod_beat by lia.
  assert (Hmod : (u + n) mod q = (m * z + v mod m) mod q).
  { assert (Hmt : m = q * t) by nia.
    replace (u + n) with (m * z + v mod m + (t * (v / m)) * q).
    - apply Z_mod_plus_full.
    - pose proof (Z.div_mod v m ltac:(lia)) as Hd. unfold v in Hd at 1.
      replace (t * (v / m) * q) with (m * (v / m)) by (rewrite Hmt at 1; ring). lia. }
  rewrite Hmod. ring.
Qed.

Section Wrap.
  Variables (c : mcfg) (A size : Z) (sd : side) (id : Z) (D : list Z) (wu : wuser_t) (m t : Z).
  Let L := m_lanes c.
  Let len := zlen D.
  Hypothesis HG : bus_ok (m_lanes c) size.
  Hypothesis HA : 0 <= A.
  Hypothesis HD : are_bytes D.
  Hypothesis Hal : A mod 2 ^ size = 0.
  Hypothesis Hm : 0 < m.
  Hypothesis Hlm : zlen D = 2 ^ size * m.
  Hypothesis Ht : 2 ^ size * m = m_lanes c * t.
  Hypothesis Hmb : m <= m_mbl c /\ m <= 256.
  Hypothesis H4k : A mod 4096 + 2 ^ size * m <= 4096.

  Notation C := (og_C A len size).
  Notation off := (og_off A len size).
  Let wb := down (2 ^ size * m) A.
  Let wrap (p : Z * Z) := (wb + (fst p - wb) mod (2 ^ size * m), snd p).

  Lemma wr_C : C = m.
  Proof.
    destruct (bus_ok_facts _ _ HG) as (q & p & Hnb & Hq & HL & Hp & Hs & HL0).
    unfold og_C, cycles_of, num_bytes. rewrite Hal. unfold len. rewrite Hlm.
    symmetry. apply (Z.div_unique _ _ m (2 ^ size - 1)); lia.
  Qed.
  Lemma wr_bl : og_bl c A len size WRAP 0 = m.
  Proof.
    destruct (bus_ok_facts _ _ HG) as (q & p & Hnb & Hq & HL & Hp & Hs & HL0).
    unfold og_bl. change (og_C A len size) with C. rewrite wr_C. unfold burst_len, og_cur, max_burst_len. cbn [Z.eqb]. rewrite land_4095.
    replace (Z.min (m - 0) (Z.min (Z.max (Z.max (Z.min (m_mbl c) 256) 1) 1) 256)) with m by lia.
    rewrite Z.min_l by lia. symmetry. apply (Z.div_unique _ _ m (2 ^ size - 1)); lia.
  Qed.
  Lemma wr_ba k : og_ba A size k = A + k * 2 ^ size.
  Proof.
    destruct (bus_ok_facts _ _ HG) as (q & p & Hnb & Hq & HL & Hp & Hs & HL0).
    unfold og_ba, og_u. pose proof (Z.div_mod A (2 ^ size) ltac:(lia)). lia.
  Qed.

  Lemma wr_beat k last : 0 <= k < m ->
    strobed L (down L (axi_beat_addr (og_ax c A len size WRAP sd id 0) k)) (og_w c A len size D wu k last) =
    map wrap (addressed (A + off k) (zslice D (off k) (off (k + 1)))).
  Proof.
    destruct (bus_ok_facts _ _ HG) as (q & p & Hnb & Hq & HL & Hp & Hs & HL0).
    assert (Hlen : 0 <= len) by apply zlen_nonneg.
    intros Hk. rewrite (strobed_into L _ (og_ba A size k)) by (unfold L; lia).
    assert (HkC : 0 <= k < C) by (rewrite wr_C; lia).
    pose proof (og_strobed c A len size q p Hnb Hq HL Hp HA Hlen D wu HD eq_refl k last HkC) as HS.
    fold L in HS. rewrite HS. clear HS.
    apply map_ext_in. intros [x b] Hin. apply in_combine_l in Hin. apply in_zrange in Hin.
    destruct (og_off_lt c A len size Hnb HA Hlen k HkC) as [Ho1 Ho2].
    pose proof (og_off_mono c A len size Hnb HA Hlen k HkC) as Hmo.
    rewrite zslice_length in Hin by (fold len; lia).
    assert (Hx : A + k * 2 ^ size <= x < A + k * 2 ^ size + 2 ^ size).
    { rewrite Ho1, Ho2 in Hin. unfold og_lo, og_hi in Hin. rewrite wr_ba in Hin. lia. }
    unfold into_word, wrap. cbn [fst snd]. f_equal.
    unfold axi_beat_addr. cbn [og_ax ax_burst ax_size ax_addr ax_len og_cur Z.eqb].
    rewrite wr_bl. replace (m - 1 + 1) with m by lia.
    replace (down (2 ^ size) A) with A by (unfold down; lia).
    fold wb. unfold L. rewrite HL. rewrite HL in Ht.
    exact (wrap_key (2 ^ size) m q t A k x Hnb Hm Hq Ht Hal ltac:(lia) Hx).
  Qed.

  Lemma wr_burst n0 : forall n, 0 <= n -> n + Z.of_nat n0 <= m ->
    burst_bytes L (og_ax c A len size WRAP sd id 0) n (og_beats c A len size D wu n n0) =
    map wrap (addressed (A + off n) (zslice D (off n) (off (n + Z.of_nat n0)))).
  Proof.
    destruct (bus_ok_facts _ _ HG) as (q & p & Hnb & Hq & HL & Hp & Hs & HL0).
    assert (Hlen : 0 <= len) by apply zlen_nonneg. pose proof wr_C as HC.
    induction n0 as [|n0 IH]; intros n Hn Hle.
    - cbn [og_beats burst_bytes]. rewrite Z.add_0_r, zslice_empty by lia. now rewrite addressed_nil.
    - cbn [og_beats burst_bytes]. rewrite wr_beat by lia. rewrite IH by lia. rewrite <- map_app. f_equal.
      pose proof (og_off_mono c A len size Hnb HA Hlen n ltac:(lia)) as Hmo.
      pose proof (og_off_mono2 c A len size Hnb HA Hlen (n + 1) n0 ltac:(lia) ltac:(lia)) as Hmo2.
      replace (n + 1 + Z.of_nat n0) with (n + Z.of_nat (S n0)) in * by lia.
      rewrite (zslice_split D (off n) (off (n + 1)) (off (n + Z.of_nat (S n0)))) by lia.
      rewrite addressed_app, zslice_length by (fold len; lia).
      match goal with |- _ = _ ++ addressed ?a _ => match goal with |- _ ++ addressed ?b _ = _ =>
        replace a with b by lia end end. reflexivity.
  Qed.

  Lemma wr_write :
    let evs := fst (master_write c id (og_cmd A size WRAP sd D wu)) in
    snd (master_write c id (og_cmd A size WRAP sd D wu)) = Ok tt /\
    exists a ws, pair_bursts (aw_of evs) (w_of evs) = Some [(a, ws)] /\
      ax_burst a = WRAP /\ ax_addr a = A /\ ax_size a = size /\ beats a = m /\ last_ok ws /\
      all_bytes L [(a, ws)] = map wrap (addressed A D).
  Proof.
    destruct (bus_ok_facts _ _ HG) as (q & p & Hnb & Hq & HL & Hp & Hs & HL0).
    assert (Hlen : 0 <= len) by apply zlen_nonneg. pose proof wr_C as HC. pose proof wr_bl as Hbl.
    rewrite (master_write_gen c A len size WRAP sd id q p) by first [assumption|reflexivity].
    cbn [fst snd]. split; [reflexivity|].
    pose proof (og_gen_lengths c A len size WRAP sd id p Hnb Hp D wu (Z.to_nat C) 0 ltac:(lia)) as Hlens.
    rewrite aw_of_flatten, w_of_flatten.
    rewrite (pair_bursts_gen _ Hlens).
    assert (Hg : og_gen c A len size WRAP sd id D wu (Z.to_nat C) 0 =
                 [(og_ax c A len size WRAP sd id 0, og_beats c A len size D wu 0 (Z.to_nat m))]).
    { replace (Z.to_nat C) with (S (Z.to_nat (m - 1))) by lia. cbn [og_gen]. rewrite Hbl. change (og_C A len size) with C.
      replace (0 <? C) with true by lia. f_equal. destruct (Z.to_nat (m - 1)); cbn [og_gen]; [reflexivity|].
      replace (0 + m <? C) with false by lia. reflexivity. }
    rewrite Hg. do 2 eexists. split; [reflexivity|].
    cbn [og_ax ax_burst ax_addr ax_size og_cur Z.eqb]. repeat (split; [reflexivity|]).
    split; [unfold beats; cbn [og_ax ax_len]; lia|]. split; [apply og_beats_last; lia|].
    unfold all_bytes. cbn [flat_map fst snd]. rewrite app_nil_r.
    rewrite (wr_burst (Z.to_nat m) 0) by lia. rewrite Z.add_0_l, Z2Nat.id by lia.
    replace (off m) with (off C) by (now rewrite HC). rewrite (og_off_C c A len size Hnb Hlen), (og_off_0 c A len size Hnb Hlen), Z.add_0_r.
    rewrite zslice_all by (unfold len; lia). reflexivity.
  Qed.
End Wrap.

(** A WRAP write of [m] full beats from an aligned address, that wraps at a multiple of the bus width,
    fits in one burst of the master and whose addresses, without wrapping, would not cross a 4 KB
    boundary, is one burst and writes each byte to its wrapped address.
    Missing: the cases refuted below. *)
Theorem C90_wrap_write_partial : forall c id A size sd D wu m,
  bus_ok (m_lanes c) size -> 0 <= A -> are_bytes D ->
  A mod 2 ^ size = 0 -> 0 < m -> zlen D = 2 ^ size * m -> zlen D mod m_lanes c = 0 ->
  m <= m_mbl c -> m <= 256 -> A mod 4096 + zlen D <= 4096 ->
  let cmd := {| wc_addr := A; wc_data := D; wc_burst := WRAP; wc_size := size; wc_side := sd; wc_wuser := wu |} in
  let evs := fst (master_write c id cmd) in
  let base := A - A mod zlen D in
  snd (master_write c id cmd) = Ok tt /\
  exists a ws, pair_bursts (aw_of evs) (w_of evs) = Some [(a, ws)] /\
    ax_burst a = WRAP /\ ax_addr a = A /\ ax_size a = size /\ beats a = m /\ last_ok ws /\
    all_bytes (m_lanes c) [(a, ws)] = map (fun p => (base + (fst p - base) mod zlen D, snd p)) (addressed A D).
Proof.
  intros c id A size sd D wu m HG HA HD Hal Hm Hl Hw Hb1 Hb2 H4.
  destruct (bus_ok_facts _ _ HG) as (q & p & Hnb & Hq & HL & Hp & Hs & HL0).
  assert (Ht : 2 ^ size * m = m_lanes c * (zlen D / m_lanes c))
    by (rewrite <- Hl; pose proof (Z.div_mod (zlen D) (m_lanes c) ltac:(lia)); lia).
  rewrite Hl in H4 |- *. exact (wr_write c A size sd id D wu m _ HG HA HD Hal Hm Hl Ht (conj Hb1 Hb2) H4).
Qed.
Print Assumptions C90_wrap_write_partial.

(** Two legal WRAP writes that go elsewhere.
    Four beats of four bytes at 0xff8, a container that ends at the 4 KB boundary: the master splits
    the burst there, and the second half goes to 0x1000 and up instead of 0xff0.
    Two beats of one byte at 1 on a four byte bus: the second byte is strobed on lane 2 instead of lane 0. *)
Theorem C90_wrap_write_refuted : exists c id cmd bursts,
  let D := wc_data cmd in
  let base := wc_addr cmd - wc_addr cmd mod zlen D in
  bus_ok (m_lanes c) (wc_size cmd) /\ m_lanes c = 2 ^ wc_size cmd /\ m_mbl c = 256 /\ are_bytes D /\
  wc_burst cmd = WRAP /\ wc_addr cmd mod 2 ^ wc_size cmd = 0 /\ zlen D = 2 ^ wc_size cmd * 4 /\
  pair_bursts (aw_of (fst (master_write c id cmd))) (w_of (fst (master_write c id cmd))) = Some bursts /\
  length bursts = 2%nat /\
  ~ Forall (fun p => base <= fst p < base + zlen D) (all_bytes (m_lanes c) bursts).
Proof.
  exists {| m_lanes := 4; m_mbl := 256 |}, 0,
    {| wc_addr := 4088; wc_data := [1;2;3;4;5;6;7;8;9;10;11;12;13;14;15;16]; wc_burst := WRAP; wc_size := 2;
       wc_side := {| s_lock := 0; s_cache := 3; s_prot := 2; s_qos := 0; s_region := 0; s_user := 0 |}; wc_wuser := WInt 0 |}.
  eexists. cbn zeta. split; [exists 2; cbn; lia|]. split; [reflexivity|]. split; [reflexivity|].
  split; [repeat constructor; unfold is_byte; lia|]. split; [reflexivity|]. split; [reflexivity|]. split; [reflexivity|].
  split; [vm_compute; reflexivity|]. split; [reflexivity|].
  intros H. rewrite Forall_forall in H. specialize (H (4096, 9)).
  assert (Hin : 4080 <= 4096 < 4096) by (apply H; vm_compute; tauto). lia.
Qed.
Print Assumptions C90_wrap_write_refuted.

Theorem C90_wrap_narrow_refuted : exists c id cmd bursts,
  let D := wc_data cmd in
  let base := wc_addr cmd - wc_addr cmd mod zlen D in
  bus_ok (m_lanes c) (wc_size cmd) /\ m_mbl c = 256 /\ are_bytes D /\
  wc_burst cmd = WRAP /\ wc_addr cmd mod 2 ^ wc_size cmd = 0 /\ zlen D = 2 ^ wc_size cmd * 2 /\
  pair_bursts (aw_of (fst (master_write c id cmd))) (w_of (fst (master_write c id cmd))) = Some bursts /\
  length bursts = 1%nat /\
  ~ Forall (fun p => base <= fst p < base + zlen D) (all_bytes (m_lanes c) bursts).
Proof.
  exists {| m_lanes := 4; m_mbl := 256 |}, 0,
    {| wc_addr := 1; wc_data := [7; 8]; wc_burst := WRAP; wc_size := 0;
       wc_side := {| s_lock := 0; s_cache := 3; s_prot := 2; s_qos := 0; s_region := 0; s_user := 0 |}; wc_wuser := WInt 0 |}.
  eexists. cbn zeta. split; [exists 2; cbn; lia|]. split; [reflexivity|].
  split; [repeat constructor; unfold is_byte; lia|]. split; [reflexivity|]. split; [reflexivity|]. split; [reflexivity|].
  split; [vm_compute; reflexivity|]. split; [reflexivity|].
  intros H. rewrite Forall_forall in H. specialize (H (2, 8)).
  assert (Hin : 0 <= 2 < 2) by (apply H; vm_compute; tauto). lia.
Qed.
Print Assumptions C90_wrap_narrow_refuted.

(** two byte beats on a four byte bus: eight bytes from 0x106 wrap at 0x108 *)
Example C90_nontrivial :
  let evs := fst (master_write {| m_lanes := 4; m_mbl := 256 |} 0
    {| wc_addr := 262; wc_data := [1;2;3;4;5;6;7;8]; wc_burst := WRAP; wc_size := 1;
       wc_side := {| s_lock := 0; s_cache := 3; s_prot := 2; s_qos := 0; s_region := 0; s_user := 0 |}; wc_wuser := WInt 0 |}) in
  option_map (all_bytes 4) (pair_bursts (aw_of evs) (w_of evs)) =
  Some [(262,1);(263,2);(256,3);(257,4);(258,5);(259,6);(260,7);(261,8)].
Proof. vm_compute. reflexivity. Qed.
