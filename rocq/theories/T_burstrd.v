(** C91: FIXED and WRAP reads of the AXI master through the AXI slave. *)
From Coq Require Import ZArith Lia List Bool.
From Coq Require Import ZifyBool ZifyNat.
From Verif Require Import M_sparse P_sparse M_memory P_memory P_axiram Py S_flat M_axi S_axi P_axi P_axislave P_axiop P_axicomp M_liteeng M_axieng P_readany T_readany T_wrap.
Import ListNotations.
Open Scope Z_scope.

Lemma as_expected_refl l : as_expected l l = Some true.
Proof. induction l as [|b l IH]; cbn; [reflexivity|]. now rewrite eqb_reflx. Qed.

Lemma lasts_of m : forall n e, e - n = Z.of_nat m ->
  map (fun j => e - j =? 1) (zseq n m) = match m with O => [] | S k => repeat false k ++ [true] end.
Proof.
  induction m as [|m IH]; intros n e H; cbn [zseq map]; [reflexivity|]. rewrite (IH (n + 1) e) by lia.
  destruct m as [|m].
  - replace (e - n =? 1) with true by lia. reflexivity.
  - replace (e - n =? 1) with false by lia. reflexivity.
Qed.

Lemma r_beats_last L phi f a : 0 <= ax_len a ->
  map r_last (map (r_beat L phi f a) (zrange 0 (beats a))) = repeat false (Z.to_nat (ax_len a)) ++ [true].
Proof.
  intros H. rewrite map_map. cbn [r_beat r_last]. unfold zrange. rewrite (lasts_of _ 0 (beats a)) by (unfold beats; lia).
  unfold beats. replace (Z.to_nat (ax_len a + 1 - 0)) with (S (Z.to_nat (ax_len a))) by lia. reflexivity.
Qed.

Lemma lane_of_word g w L i : 0 <= i < L -> (forall x, is_byte (g x)) ->
  lane_byte (le_int (map g (zrange w (w + L)))) i = g (w + i).
Proof.
  intros Hi Hg. rewrite lane_byte_le_int; [|apply Forall_forall; intros b Hb; apply in_map_iff in Hb; destruct Hb as (x & <- & _); apply Hg|lia].
  unfold znth. unfold zrange. replace (Z.to_nat (w + L - w)) with (Z.to_nat L) by lia.
  assert (K : forall m w i, (i < m)%nat -> nth i (map g (zseq w m)) 0 = g (w + Z.of_nat i)).
  { clear. induction m as [|m IH]; intros w i H; [lia|]. destruct i as [|i]; cbn [zseq map nth]; [f_equal; lia|].
    rewrite IH by lia. f_equal. lia. }
  rewrite K by lia. f_equal. lia.
Qed.

Section Flat.
  Context {T : Type}.
  Variables (L lo hi : Z) (phi : Z -> Z) (inv : T -> Prop) (view : T -> flat).
  Variable tw : T -> Z -> list Z -> T * res unit.
  Variable tr : T -> Z -> Z -> T * res (list Z).
  Hypothesis Hft : flat_target L lo hi phi inv view tw tr.

  (** what the slave answers, and that the master takes it *)
  Lemma burst_read c id cmd t r0 : m_lanes c = L -> bus_ok L (rc_size cmd) -> 0 <= rc_len cmd -> 0 <= rc_addr cmd -> inv t ->
    (forall a, In a (master_read c id cmd) -> ar_fits L lo hi a) ->
    let A := rc_addr cmd in let nb := 2 ^ rc_size cmd in
    let ars := master_read c id cmd in
    let rs := flat_map (fun a => map (r_beat L phi (view t) a) (zrange 0 (beats a))) ars in
    exists t', slave_read tr L ars t = (t', rs, Ok tt) /\ inv t' /\ view t' =f view t /\
      master_read_resp c cmd (bursts_of ars) rs =
        Some (Ok (map (fun x => lane_byte (r_data (nth (Z.to_nat (x / nb - A / nb)) rs r0)) (x mod L)) (zrange A (A + rc_len cmd)),
                  OKAY, map r_user rs, [])) /\
      (forall x, A <= x < A + rc_len cmd -> 0 <= x / nb - A / nb < zlen rs).
  Proof.
    intros Hc HG Hlen HA Hi Hfit A nb ars rs. subst L.
    destruct (bus_ok_facts _ _ HG) as (_ & _ & _ & _ & _ & _ & _ & HL0).
    destruct (slave_read_flat (m_lanes c) lo hi phi inv view tw tr Hft HL0 ars (view t) t Hi (feq_refl _)
      ltac:(apply Forall_forall; exact Hfit)) as (t' & E & Hi' & Hv). fold rs in E.
    exists t'. split; [exact E|]. split; [exact Hi'|]. split; [exact Hv|].
    destruct (C89_read_data c id cmd rs r0 HG HA Hlen) as (H1 & H2). fold A nb ars in H1, H2.
    assert (Hw : map r_last rs = flat_map (fun a => repeat false (Z.to_nat (ax_len a)) ++ [true]) ars).
    { unfold rs. fold ars in Hfit. clear - Hfit. induction ars as [|a l IH]; [reflexivity|]. cbn [flat_map]. rewrite map_app.
      rewrite r_beats_last by (destruct (Hfit a (or_introl eq_refl)) as (_ & H & _); exact H).
      f_equal. apply IH. intros b Hb. apply Hfit. now right. }
    assert (Hn : length (flat_map (fun a => repeat false (Z.to_nat (ax_len a)) ++ [true]) ars) = length rs)
      by (rewrite <- Hw; apply map_length).
    rewrite Hw, as_expected_refl, Hn, firstn_all, skipn_all in H1.
    split; [|intros x Hx; specialize (H2 x Hx); rewrite Hn in H2; exact H2].
    rewrite H1. do 4 f_equal. f_equal.
    assert (Ho : Forall (fun r => r = OKAY) (map r_resp rs)).
    { apply Forall_forall. intros r Hr. apply in_map_iff in Hr. destruct Hr as (x & <- & Hx). unfold rs in Hx.
      apply in_flat_map in Hx. destruct Hx as (a & _ & Hx). apply in_map_iff in Hx. now destruct Hx as (j & <- & _). }
    clear - Ho. induction Ho as [|r l -> Ho IH]; [reflexivity|exact IH].
  Qed.
End Flat.

(** A FIXED read of any legal beat size, address and length through a slave on a byte memory, split into
    any number of bursts: the byte of address [x] is the memory's byte in the bus word of the start
    address, on the lane of [x]; nothing else is read, and the memory stays as it is. *)
Theorem C91_fixed_read_exact : forall T L lo hi phi (inv : T -> Prop) view tw tr,
  flat_target L lo hi phi inv view tw tr ->
  forall c id cmd t,
  m_lanes c = L -> bus_ok L (rc_size cmd) -> rc_burst cmd = FIXED -> 0 <= rc_len cmd -> 0 <= rc_addr cmd ->
  lo mod L = 0 -> hi mod L = 0 -> lo <= rc_addr cmd < hi -> inv t ->
  let ars := master_read c id cmd in
  let A := rc_addr cmd in
  Forall (fun a => ax_burst a = FIXED /\ ax_addr a = A) ars /\
  exists t' rs users,
    slave_read tr L ars t = (t', rs, Ok tt) /\ inv t' /\ view t' =f view t /\
    master_read_resp c cmd (bursts_of ars) rs =
      Some (Ok (map (fun x => view t (phi (A - A mod L + x mod L))) (zrange A (A + rc_len cmd)), OKAY, users, [])).
Proof.
  intros T L lo hi phi inv view tw tr Hft c id [A len bt size sd] t Hc HG Hbt Hlen HA Hlo Hhi Hr Hi ars A0.
  unfold rc_addr, rc_len, rc_size, rc_burst in *. subst A0 bt.
  destruct (bus_ok_facts _ _ HG) as (q & p & Hnb & Hq & HL & Hp & Hs & HL0).
  assert (Hin : forall a, In a ars -> exists k, 0 <= k < og_C A len size /\ a = og_ax c A len size FIXED sd id k).
  { intros a Ha. unfold ars in Ha.
    change {| rc_addr := A; rc_len := len; rc_burst := FIXED; rc_size := size; rc_side := sd |} with (og_rcmd A len size FIXED sd) in Ha.
    rewrite (master_read_gen c A len size FIXED sd id p Hnb Hp Hlen) in Ha.
    exact (og_ars_in c A len size FIXED sd id p Hnb Hp _ 0 a ltac:(lia) Ha). }
  assert (HF : forall a, In a ars -> ax_burst a = FIXED /\ ax_addr a = A)
    by (intros a Ha; destruct (Hin a Ha) as (k & _ & ->); now split).
  split; [apply Forall_forall; exact HF|].
  assert (Hw : lo <= down L A /\ down L A + L <= hi).
  { rewrite down_eq by lia. pose proof (Z.div_mod A L ltac:(lia)). pose proof (Z.mod_pos_bound A L HL0).
    pose proof (Z.div_mod lo L ltac:(lia)). pose proof (Z.div_mod hi L ltac:(lia)).
    assert (lo / L <= A / L) by (apply Z.div_le_mono; lia).
    assert (A / L < hi / L) by (apply Z.div_lt_upper_bound; lia). nia. }
  set (r0 := {| r_id := 0; r_data := 0; r_resp := OKAY; r_last := false; r_user := 0 |}).
  destruct (burst_read L lo hi phi inv view tw tr Hft c id {| rc_addr := A; rc_len := len; rc_burst := FIXED; rc_size := size; rc_side := sd |}
    t r0 Hc HG Hlen HA Hi) as (t' & E & Hi' & Hv & HR & Hx).
  { intros a Ha. fold ars in Ha. destruct (Hin a Ha) as (k & Hk & ->).
    pose proof (og_bl_range c A len size FIXED p Hnb Hp k Hk) as (Hb & _).
    split; [cbn; lia|]. split; [cbn [og_ax ax_len]; lia|]. split; [exists q; cbn; auto|].
    split; [split; [cbn [og_ax ax_size]; nia|discriminate]|]. intros j _. exact Hw. }
  fold ars in E, HR, Hx. set (rs := flat_map _ ars) in *. unfold rc_addr, rc_len, rc_size in HR, Hx.
  exists t', rs, (map r_user rs). split; [exact E|]. split; [exact Hi'|]. split; [exact Hv|]. rewrite HR.
  do 5 f_equal. apply map_ext_in. intros x Hxr. apply in_zrange in Hxr. specialize (Hx x Hxr).
  set (k := x / 2 ^ size - A / 2 ^ size) in *.
  assert (Hnth : In (nth (Z.to_nat k) rs r0) rs) by (apply nth_In; unfold zlen in Hx; lia).
  unfold rs in Hnth at 2. apply in_flat_map in Hnth. destruct Hnth as (a & Ha & Hj). apply in_map_iff in Hj. destruct Hj as (j & <- & _).
  destruct (HF a Ha) as [Ha1 Ha2]. cbn [r_beat r_data]. unfold axi_beat_addr. rewrite Ha1, Ha2.
  apply (lane_of_word (fun y => view t (phi y)) (down L A) L (x mod L) (Z.mod_pos_bound x L HL0)).
  intros y. apply (ft_bytes _ _ _ _ _ _ _ _ Hft); exact Hi.
Qed.
Print Assumptions C91_fixed_read_exact.

(** A WRAP read under the conditions of C90_wrap_write_partial: the bytes of the wrapped addresses.
    Missing: as there; two of the missing cases are refuted below. *)
Theorem C91_wrap_read_partial : forall T L lo hi phi (inv : T -> Prop) view tw tr,
  flat_target L lo hi phi inv view tw tr ->
  forall c id cmd t m,
  m_lanes c = L -> bus_ok L (rc_size cmd) -> rc_burst cmd = WRAP -> 0 <= rc_addr cmd ->
  let A := rc_addr cmd in let n := rc_len cmd in let base := A - A mod n in
  A mod 2 ^ rc_size cmd = 0 -> 0 < m -> n = 2 ^ rc_size cmd * m -> n mod L = 0 ->
  m <= m_mbl c -> m <= 256 -> A mod 4096 + n <= 4096 ->
  lo <= base -> base + n <= hi -> inv t ->
  let ars := master_read c id cmd in
  exists t' rs users,
    slave_read tr L ars t = (t', rs, Ok tt) /\ inv t' /\ view t' =f view t /\ length ars = 1%nat /\
    master_read_resp c cmd (bursts_of ars) rs =
      Some (Ok (map (fun x => view t (phi (base + (x - base) mod n))) (zrange A (A + n)), OKAY, users, [])).
Proof.
  intros T L lo hi phi inv view tw tr Hft c id [A len bt size sd] t m Hc HG Hbt HA A0 n base Hal Hm Hn HnL Hb1 Hb2 H4 Hlo Hhi Hi ars.
  unfold rc_addr, rc_len, rc_size, rc_burst in *. subst A0 n bt.
  destruct (bus_ok_facts _ _ HG) as (q & p & Hnb & Hq & HL & Hp & Hs & HL0).
  assert (Hlen : 0 < len) by (rewrite Hn; apply Z.mul_pos_pos; lia).
  assert (Ht : 2 ^ size * m = L * (len / L)) by (pose proof (Z.div_mod len L ltac:(lia)); lia).
  assert (HC : og_C A len size = m).
  { unfold og_C, cycles_of, num_bytes. rewrite Hal, Hn. symmetry. apply (Z.div_unique _ _ m (2 ^ size - 1)); lia. }
  assert (Hbl : og_bl c A len size WRAP 0 = m).
  { unfold og_bl. rewrite HC. unfold burst_len, og_cur, max_burst_len. cbn [Z.eqb]. rewrite land_4095.
    replace (Z.min (m - 0) (Z.min (Z.max (Z.max (Z.min (m_mbl c) 256) 1) 1) 256)) with m by lia.
    rewrite Z.min_l by lia. symmetry. apply (Z.div_unique _ _ m (2 ^ size - 1)); lia. }
  set (a := og_ax c A len size WRAP sd id 0).
  assert (Hars : ars = [a]).
  { unfold ars. change {| rc_addr := A; rc_len := len; rc_burst := WRAP; rc_size := size; rc_side := sd |} with (og_rcmd A len size WRAP sd).
    rewrite (master_read_gen c A len size WRAP sd id p Hnb Hp ltac:(lia)). rewrite HC.
    replace (Z.to_nat m) with (S (Z.to_nat (m - 1))) by lia. cbn [og_ars]. rewrite HC, Hbl.
    replace (0 <? m) with true by lia. f_equal. destruct (Z.to_nat (m - 1)); cbn [og_ars]; [reflexivity|].
    rewrite HC. replace (0 + m <? m) with false by lia. reflexivity. }
  assert (Hbt : beats a = m) by (unfold beats, a; cbn [og_ax ax_len]; lia).
  assert (Hbase : base = down (2 ^ size * m) A) by (unfold base, down; now rewrite Hn).
  assert (Hba : forall k x, 0 <= k -> A + k * 2 ^ size <= x < A + k * 2 ^ size + 2 ^ size ->
    down L (axi_beat_addr a k) + x mod L = base + (x - base) mod len).
  { intros k x Hk Hx. unfold axi_beat_addr, a. cbn [og_ax ax_burst ax_size ax_addr ax_len og_cur Z.eqb].
    rewrite Hbl. replace (m - 1 + 1) with m by lia. replace (down (2 ^ size) A) with A by (unfold down; lia).
    rewrite Hbase, Hn, HL. rewrite HL in Ht.
    exact (wrap_key (2 ^ size) m q (len / (2 ^ size * q)) A k x Hnb Hm Hq Ht Hal Hk Hx). }
  assert (Hwd : forall k, 0 <= k -> lo <= down L (axi_beat_addr a k) /\ down L (axi_beat_addr a k) + L <= hi).
  { intros k Hk. pose proof (Hba k (A + k * 2 ^ size) Hk ltac:(lia)) as E.
    pose proof (Z.mod_pos_bound (A + k * 2 ^ size) L HL0) as M1.
    pose proof (Z.mod_pos_bound (A + k * 2 ^ size - base) len Hlen) as M2.
    assert (G : exists z, base + len * z = L * ((len / L) * (A / len + z)) /\ z = 0).
    { exists 0. split; [|reflexivity]. replace (L * (len / L * (A / len + 0))) with (L * (len / L) * (A / len)) by ring.
      rewrite <- Ht, <- Hn. unfold base. pose proof (Z.div_mod A len ltac:(lia)). lia. }
    destruct G as (z & G & ->). rewrite Z.mul_0_r, !Z.add_0_r in G.
    set (d := down L (axi_beat_addr a k)) in *.
    assert (Hd : d = L * (axi_beat_addr a k / L)) by (unfold d; apply down_eq; lia).
    set (g := len / L * (A / len)) in *. set (e := axi_beat_addr a k / L) in *.
    assert (Hl2 : len = L * (len / L)) by lia. set (h := len / L) in *. clearbody g e h.
    assert (Hge : g < e + 1) by (apply (Z.mul_lt_mono_pos_l L); [exact HL0|]; lia).
    assert (Heg : e < g + h) by (apply (Z.mul_lt_mono_pos_l L); [exact HL0|]; lia).
    assert (L * g <= L * e) by (apply Z.mul_le_mono_nonneg_l; lia).
    assert (L * (e + 1) <= L * (g + h)) by (apply Z.mul_le_mono_nonneg_l; lia). lia. }
  set (r0 := {| r_id := 0; r_data := 0; r_resp := OKAY; r_last := false; r_user := 0 |}).
  destruct (burst_read L lo hi phi inv view tw tr Hft c id {| rc_addr := A; rc_len := len; rc_burst := WRAP; rc_size := size; rc_side := sd |}
    t r0 Hc HG ltac:(cbn; lia) HA Hi) as (t' & E & Hi' & Hv & HR & Hx).
  { intros b Hb. fold ars in Hb. rewrite Hars in Hb. destruct Hb as [<-|[]].
    split; [cbn; lia|]. split; [unfold a; cbn [og_ax ax_len]; lia|]. split; [exists q; cbn; auto|].
    split; [split; [unfold a; cbn [og_ax ax_size]; clear - HL Hnb Hq; nia|discriminate]|]. intros j Hj. apply Hwd. lia. }
  fold ars in E, HR, Hx. rewrite Hars in E, HR, Hx |- *. cbn [flat_map] in E, HR, Hx. rewrite app_nil_r, Hbt in E, HR, Hx.
  unfold rc_addr, rc_len, rc_size in HR, Hx.
  eexists t', _, _. split; [exact E|]. split; [exact Hi'|]. split; [exact Hv|]. split; [reflexivity|]. rewrite HR.
  do 5 f_equal. apply map_ext_in. intros x Hxr. apply in_zrange in Hxr. specialize (Hx x Hxr).
  set (k := x / 2 ^ size - A / 2 ^ size) in *. rewrite zlen_map, zlen_zrange in Hx by lia.
  assert (Hnth : nth (Z.to_nat k) (map (r_beat L phi (view t) a) (zrange 0 m)) r0 = r_beat L phi (view t) a k).
  { assert (K : forall mm w i, (i < mm)%nat -> nth i (map (r_beat L phi (view t) a) (zseq w mm)) r0 = r_beat L phi (view t) a (w + Z.of_nat i)).
    { clear. induction mm as [|mm IH]; intros w i H; [lia|]. destruct i as [|i]; cbn [zseq map nth]; [f_equal; lia|].
      rewrite IH by lia. f_equal. lia. }
    unfold zrange. rewrite K by lia. f_equal. lia. }
  rewrite Hnth. cbn [r_beat r_data].
  rewrite (lane_of_word (fun y => view t (phi y)) (down L (axi_beat_addr a k)) L (x mod L) (Z.mod_pos_bound x L HL0))
    by (intros y; apply (ft_bytes _ _ _ _ _ _ _ _ Hft); exact Hi).
  do 2 f_equal. apply Hba; [lia|].
  pose proof (Z.div_mod A (2 ^ size) ltac:(lia)) as D1. pose proof (Z.div_mod x (2 ^ size) ltac:(lia)) as D2.
  pose proof (Z.mod_pos_bound x (2 ^ size) Hnb) as D3.
  replace (k * 2 ^ size) with (2 ^ size * (x / 2 ^ size) - 2 ^ size * (A / 2 ^ size)) by (unfold k; ring). lia.
Qed.
Print Assumptions C91_wrap_read_partial.

(** a RAM with 10 to 25 at 0 to 15. FIXED: six bytes from 6 by halves of a four byte bus, in two bursts of
    at most two beats: the lanes of the word at 4. WRAP: eight bytes from 6, wrapping at 8 to 0. *)
Example C91_nontrivial :
  let sd := {| s_lock := 0; s_cache := 3; s_prot := 2; s_qos := 0; s_region := 0; s_user := 0 |} in
  let c := {| m_lanes := 4; m_mbl := 2 |} in
  let cw := {| m_lanes := 4; m_mbl := 256 |} in
  let fx := {| rc_addr := 6; rc_len := 6; rc_burst := FIXED; rc_size := 1; rc_side := sd |} in
  let wr := {| rc_addr := 6; rc_len := 8; rc_burst := WRAP; rc_size := 1; rc_side := sd |} in
  let m := fst (sm_run (sm_init 16) [SWrite 0 [10;11;12;13;14;15;16;17;18;19;20;21;22;23;24;25]]) in
  let run c cmd :=
    let ars := master_read c 3 cmd in
    let '(_, rs, _) := slave_read ram_read 4 ars m in
    (map ax_addr ars, master_read_resp c cmd (bursts_of ars) rs) in
  run c fx = ([6; 6], Some (Ok ([16;17;14;15;16;17], OKAY, [0;0;0], []))) /\
  run cw wr = ([6], Some (Ok ([16;17;10;11;12;13;14;15], OKAY, [0;0;0;0], []))).
Proof. vm_compute. split; reflexivity. Qed.

(** Two legal WRAP reads that return other bytes, as the writes of C90: one whose container ends at a 4 KB
    boundary is split there and reads on behind it, and one whose container is narrower than the bus takes
    its second byte from lane 2 instead of lane 0. [wanted] is the list of the wrapped addresses' bytes. *)
Theorem C91_wrap_read_refuted : exists c id cmd m got,
  let A := rc_addr cmd in let n := rc_len cmd in let base := A - A mod n in
  let ars := master_read c id cmd in
  let '(_, rs, e) := slave_read ram_read (m_lanes c) ars m in
  let wanted := map (fun x => sm_read m (base + (x - base) mod n) 1) (zrange A (A + n)) in
  bus_ok (m_lanes c) (rc_size cmd) /\ m_lanes c = 2 ^ rc_size cmd /\ m_mbl c = 256 /\
  rc_burst cmd = WRAP /\ A mod 2 ^ rc_size cmd = 0 /\ n = 2 ^ rc_size cmd * 4 /\ length ars = 2%nat /\
  e = Ok tt /\ master_read_resp c cmd (bursts_of ars) rs = Some (Ok (got, OKAY, zeros 4, [])) /\
  map (fun b => Ok [b]) got <> wanted.
Proof.
  exists {| m_lanes := 4; m_mbl := 256 |}, 0,
    {| rc_addr := 4088; rc_len := 16; rc_burst := WRAP; rc_size := 2;
       rc_side := {| s_lock := 0; s_cache := 3; s_prot := 2; s_qos := 0; s_region := 0; s_user := 0 |} |},
    (fst (sm_run (sm_init 8192) [SWrite 4080 [1;2;3;4;5;6;7;8;9;10;11;12;13;14;15;16;17;18;19;20;21;22;23;24]])),
    [9;10;11;12;13;14;15;16;17;18;19;20;21;22;23;24].
  vm_compute. split; [exists 2; repeat split; discriminate|]. repeat (split; [reflexivity|]). discriminate.
Qed.
Print Assumptions C91_wrap_read_refuted.

Theorem C91_wrap_narrow_refuted : exists c id cmd m got,
  let A := rc_addr cmd in let n := rc_len cmd in let base := A - A mod n in
  let ars := master_read c id cmd in
  let '(_, rs, e) := slave_read ram_read (m_lanes c) ars m in
  let wanted := map (fun x => sm_read m (base + (x - base) mod n) 1) (zrange A (A + n)) in
  bus_ok (m_lanes c) (rc_size cmd) /\ m_mbl c = 256 /\
  rc_burst cmd = WRAP /\ A mod 2 ^ rc_size cmd = 0 /\ n = 2 ^ rc_size cmd * 2 /\ length ars = 1%nat /\
  e = Ok tt /\ master_read_resp c cmd (bursts_of ars) rs = Some (Ok (got, OKAY, zeros 2, [])) /\
  map (fun b => Ok [b]) got <> wanted.
Proof.
  exists {| m_lanes := 4; m_mbl := 256 |}, 0,
    {| rc_addr := 1; rc_len := 2; rc_burst := WRAP; rc_size := 0;
       rc_side := {| s_lock := 0; s_cache := 3; s_prot := 2; s_qos := 0; s_region := 0; s_user := 0 |} |},
    (fst (sm_run (sm_init 16) [SWrite 0 [10;11;12;13]])), [11;12].
  vm_compute. split; [exists 2; repeat split; discriminate|]. repeat (split; [reflexivity|]). discriminate.
Qed.
Print Assumptions C91_wrap_narrow_refuted.
