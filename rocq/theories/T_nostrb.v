(** C80: writes on buses without byte strobes (wstrb is optional, axi_channels.py 38, axil_channels.py 37). *)
From Coq Require Import ZArith Lia List Bool.
From Coq Require Import ZifyBool ZifyNat.
From Verif Require Import Py S_flat M_sparse S_sparse M_memory P_memory M_axi S_axi P_axi P_axislave P_axiop P_axiram P_axicomp M_axil S_axil P_axil S_nostrb P_nostrb.
Import ListNotations.
Open Scope Z_scope.

(** AXI-Lite: the words touched by the operation hold its bytes and zeros, nothing else changes. *)
Theorem C80_lite : forall T L lo hi phi (inv : T -> Prop) view tw tr,
  flat_target L lo hi phi inv view tw tr -> (forall x, lo <= x < hi -> phi x = x) -> lo mod L = 0 -> hi mod L = 0 -> 0 < L ->
  forall cmd t, are_bytes (lc_data cmd) -> lo <= lc_addr cmd -> lc_addr cmd + zlen (lc_data cmd) <= hi -> inv t ->
  let evs := fst (lite_write L cmd) in
  exists t' bs, lite_slave_write tw L false (law_of evs) (lw_of evs) t = (t', bs, Ok ([], [])) /\ inv t' /\
    view t' =f unstrobed L L (lc_addr cmd) (lc_data cmd) (view t) /\ lite_write_resp bs = OKAY.
Proof. intros T L lo hi phi inv view tw tr H Hphi Hlo Hhi HL cmd t. exact (lite_unstrobed L lo hi phi inv view tw tr H Hphi Hlo Hhi cmd t HL). Qed.
Print Assumptions C80_lite.

(** AXI: likewise, but each beat decides about its whole bus word. *)
Theorem C80_axi : forall T L lo hi phi (inv : T -> Prop) view tw tr,
  flat_target L lo hi phi inv view tw tr -> (forall x, lo <= x < hi -> phi x = x) -> lo mod L = 0 -> hi mod L = 0 ->
  forall c id cmd t,
  m_lanes c = L -> bus_ok L (wc_size cmd) -> wc_burst cmd = INCR -> are_bytes (wc_data cmd) ->
  0 <= wc_addr cmd -> lo <= wc_addr cmd -> wc_addr cmd + zlen (wc_data cmd) <= hi -> inv t ->
  let evs := fst (master_write c id cmd) in
  exists t' bs users,
    slave_write tw L false (aw_of evs) (w_of evs) t = (t', bs, Ok []) /\ inv t' /\
    view t' =f unstrobed L (2 ^ wc_size cmd) (wc_addr cmd) (wc_data cmd) (view t) /\
    Forall (fun b => b_id b = id) bs /\
    mw_resp (bursts_of (aw_of evs)) bs OKAY [] = Some (OKAY, users, []).
Proof. intros T L lo hi phi inv view tw tr H Hphi Hlo Hhi c id cmd t. exact (write_unstrobed L lo hi phi inv view tw tr H Hphi Hlo Hhi c id cmd t). Qed.
Print Assumptions C80_axi.

(** In beats of full width: the bytes of the operation, zeros in the rest of the words it touches, and the old contents elsewhere. *)
Theorem C80_full : forall L A D f x, 0 < L ->
  unstrobed L L A D f x =
  if (A <=? x) && (x <? A + zlen D) then znth 0 D (x - A)
  else if (down L A <=? x) && (x <? down L (A + zlen D - 1) + L) && (0 <? A mod L + zlen D) then 0 else f x.
Proof.
  intros L A D f x HL. unfold unstrobed, beat_byte. pose proof (zlen_nonneg D) as Hn. set (n := zlen D) in *. set (e := A + n - 1).
  assert (HA : down L A <= A < down L A + L /\ down L e <= e < down L e + L /\ down L x <= x < down L x + L).
  { unfold down. pose proof (Z.mod_pos_bound A L HL). pose proof (Z.mod_pos_bound e L HL). pose proof (Z.mod_pos_bound x L HL). lia. }
  pose proof (Z.mod_pos_bound A L HL) as Hr.
  destruct (0 <? A mod L + n) eqn:E0; cbn [andb].
  2:{ assert (n = 0) by lia. rewrite andb_false_r. replace ((A <=? x) && (x <? A + n)) with false by lia. reflexivity. }
  rewrite andb_true_r. destruct ((down L A <=? x) && (x <? down L e + L)) eqn:E1.
  - assert (Hm : Z.min (down L e) (down L x + L - L) = down L x).
    { assert (down L x <= down L e); [|lia]. rewrite !down_eq in * by lia. assert (x / L <= e / L); [|apply Z.mul_le_mono_nonneg_l; lia].
      assert (x / L < e / L + 1); [|lia]. apply (Z.mul_lt_mono_pos_l L); [lia|]. rewrite Z.mul_add_distr_l. lia. }
    rewrite Hm. replace ((Z.max A (down L x) <=? x) && (x <? Z.min (A + n) (down L x + L))) with ((A <=? x) && (x <? A + n)) by lia. reflexivity.
  - replace ((A <=? x) && (x <? A + n)) with false by lia. reflexivity.
Qed.
Print Assumptions C80_full.

(** So a write of whole bus words in beats of full width is exact, as with strobes. *)
Theorem C80_exact : forall L A D f, 0 < L -> A mod L = 0 -> zlen D mod L = 0 -> unstrobed L L A D f =f put (fun x => x) f (addressed A D).
Proof.
  intros L A D f HL HA HD x. rewrite put_id_addressed. rewrite C80_full by auto. unfold wr.
  assert (EA : down L A = A) by (unfold down; lia).
  assert (EE : 0 < zlen D -> down L (A + zlen D - 1) + L = A + zlen D).
  { intros Hp. pose proof (Z.div_mod A L ltac:(lia)). pose proof (Z.div_mod (zlen D) L ltac:(lia)). rewrite down_eq by lia.
    assert (E : (A + zlen D - 1) / L = A / L + zlen D / L - 1); [|rewrite E; nia]. symmetry. apply Z.div_unique_pos with (L - 1); nia. }
  pose proof (zlen_nonneg D). destruct ((A <=? x) && (x <? A + zlen D)) eqn:E; auto.
  destruct (Z.eq_dec (zlen D) 0) as [E0|E0]; [|rewrite EE by lia]; rewrite EA.
  - rewrite HA, E0. cbn [Z.add Z.ltb Z.compare]. now rewrite andb_false_r.
  - rewrite E. reflexivity.
Qed.
Print Assumptions C80_exact.

(** AxiLiteRam and AxiRam without wstrb, for operations inside the RAM. *)
Theorem C80_ram : forall size L m, 0 < size -> size mod L = 0 -> sm_reachable size m ->
  (forall cmd, 0 < L -> are_bytes (lc_data cmd) -> 0 <= lc_addr cmd -> lc_addr cmd + zlen (lc_data cmd) <= size ->
     let evs := fst (lite_write L cmd) in
     exists m' bs, lite_slave_write ram_write L false (law_of evs) (lw_of evs) m = (m', bs, Ok ([], [])) /\ sm_reachable size m' /\
       (forall x, 0 <= x < size -> peek m' x = unstrobed L L (lc_addr cmd) (lc_data cmd) (peek m) x) /\ lite_write_resp bs = OKAY) /\
  (forall c id cmd, m_lanes c = L -> bus_ok L (wc_size cmd) -> wc_burst cmd = INCR -> are_bytes (wc_data cmd) ->
     0 <= wc_addr cmd -> wc_addr cmd + zlen (wc_data cmd) <= size ->
     let evs := fst (master_write c id cmd) in
     exists m' bs users, slave_write ram_write L false (aw_of evs) (w_of evs) m = (m', bs, Ok []) /\ sm_reachable size m' /\
       (forall x, 0 <= x < size -> peek m' x = unstrobed L (2 ^ wc_size cmd) (wc_addr cmd) (wc_data cmd) (peek m) x) /\
       mw_resp (bursts_of (aw_of evs)) bs OKAY [] = Some (OKAY, users, [])).
Proof.
  intros size L m Hs Hm Hr.
  assert (Hphi : forall x, 0 <= x < size -> x mod size = x) by (intros; now apply Z.mod_small).
  assert (H0 : 0 mod L = 0) by apply Zmod_0_l. split.
  - intros cmd HL HD HA He. destruct (C80_lite _ _ _ _ _ _ _ _ _ (ram_flat L size 0 size HL Hs Hm) Hphi H0 Hm HL cmd m HD HA He Hr) as (m' & bs & E & Hr' & Hv & Hb).
    exists m', bs. auto.
  - intros c id cmd Hc HG Hbt HD HA He. destruct (bus_ok_facts _ _ HG) as (q & p & Hnb & Hq & HL & _ & _ & HL0).
    destruct (C80_axi _ _ _ _ _ _ _ _ _ (ram_flat L size 0 size HL0 Hs Hm) Hphi H0 Hm c id cmd m Hc HG Hbt HD HA HA He Hr) as (m' & bs & us & E & Hr' & Hv & _ & Hb).
    exists m', bs, us. auto.
Qed.
Print Assumptions C80_ram.

Definition nines : sparse := fst (sm_run (sm_init 16) [SWrite 0 (repeat 9 16)]).
Definition nside : side := {| s_lock := 0; s_cache := 3; s_prot := 2; s_qos := 0; s_region := 0; s_user := 0 |}.
Definition ncmd (a size : Z) (d : list Z) : wcmd :=
  {| wc_addr := a; wc_data := d; wc_burst := INCR; wc_size := size; wc_side := nside; wc_wuser := WInt 0 |}.
(** memory after a write of an AXI master on a bus of 4 byte lanes *)
Definition after (sp : bool) (cmd : wcmd) : list Z :=
  let evs := fst (master_write {| m_lanes := 4; m_mbl := 256 |} 0 cmd) in
  let '(m', _, _) := slave_write ram_write 4 sp (aw_of evs) (w_of evs) nines in map (peek m') (zrange 0 16).
Definition lafter (sp : bool) (a : Z) (d : list Z) : list Z :=
  let evs := fst (lite_write 4 {| lc_addr := a; lc_data := d; lc_prot := 2 |}) in
  let '(m', _, _) := lite_slave_write ram_write 4 sp (law_of evs) (lw_of evs) nines in map (peek m') (zrange 0 16).

Example C80_nontrivial :
  after false (ncmd 2 2 [1; 2; 3; 4; 5]) = [0; 0; 1; 2; 3; 4; 5; 0; 9; 9; 9; 9; 9; 9; 9; 9] /\
  after true (ncmd 2 2 [1; 2; 3; 4; 5]) = [9; 9; 1; 2; 3; 4; 5; 9; 9; 9; 9; 9; 9; 9; 9; 9] /\
  after false (ncmd 4 2 [1; 2; 3; 4; 5; 6; 7; 8]) = after true (ncmd 4 2 [1; 2; 3; 4; 5; 6; 7; 8]) /\
  lafter false 5 [1; 2; 3; 4] = [9; 9; 9; 9; 0; 1; 2; 3; 4; 0; 0; 0; 9; 9; 9; 9] /\
  map (unstrobed 4 4 5 [1; 2; 3; 4] (fun _ => 9)) (zrange 0 16) = lafter false 5 [1; 2; 3; 4] /\
  map (unstrobed 4 2 3 [1; 2; 3] (fun _ => 9)) (zrange 0 16) = after false (ncmd 3 1 [1; 2; 3]).
Proof. vm_compute. repeat split. Qed.

(** Narrow beats lose data even in a write of whole, aligned bus words, and a write of no bytes at an unaligned address clears a word;
    all are answered with OKAY (C80_ram). *)
Theorem C80_narrow_refuted :
  after false (ncmd 4 1 [1; 2; 3; 4]) = [9; 9; 9; 9; 0; 0; 3; 4; 9; 9; 9; 9; 9; 9; 9; 9] /\
  after false (ncmd 4 0 [1; 2; 3; 4]) = [9; 9; 9; 9; 0; 0; 0; 4; 9; 9; 9; 9; 9; 9; 9; 9] /\
  after false (ncmd 5 2 []) = [9; 9; 9; 9; 0; 0; 0; 0; 9; 9; 9; 9; 9; 9; 9; 9] /\ lafter false 5 [] = after false (ncmd 5 2 []).
Proof. vm_compute. repeat split. Qed.
Print Assumptions C80_narrow_refuted.
