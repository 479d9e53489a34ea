(** Property theorems for the AXI-Lite data path: C33, and the AXI-Lite parts of C27, C28, C29. *)
From Coq Require Import ZArith Lia List Bool.
From Coq Require Import ZifyBool ZifyNat.
From Verif Require Import Py S_flat M_sparse S_sparse M_memory P_memory M_axi S_axi P_axi P_axislave P_axiop P_axiram
  P_axicomp M_axil S_axil P_axil.
Import ListNotations.
Open Scope Z_scope.

(** C33: the transfers of a write.  Strobed lanes are exactly the requested bytes, each once, in order;
    unstrobed lanes carry 0; all but the first address are aligned, values fit their signals. *)
Theorem C33_write_words : forall L aw cmd,
  0 < L -> are_bytes (lc_data cmd) -> 0 <= lc_addr cmd -> lc_addr cmd + zlen (lc_data cmd) <= 2 ^ aw ->
  lc_addr cmd < 2 ^ aw ->
  let '(evs, r) := lite_write L cmd in
  r = Ok tt /\ zlen (law_of evs) = zlen (lw_of evs) /\
  lite_bytes L (law_of evs) (lw_of evs) = addressed (lc_addr cmd) (lc_data cmd) /\
  Forall (fun a => la_prot a = lc_prot cmd /\ 0 <= la_addr a < 2 ^ aw) (law_of evs) /\
  Forall (fun w => 0 <= lw_data w < 256 ^ L /\ 0 <= lw_strb w < 2 ^ L /\
    forall i, 0 <= i < L -> Z.testbit (lw_strb w) i = false -> lane_byte (lw_data w) i = 0) (lw_of evs) /\
  (forall k, 0 <= k < zlen (law_of evs) ->
     let a := la_addr (znth {| la_addr := 0; la_prot := 0 |} (law_of evs) k) in
     a = if k =? 0 then lc_addr cmd else down L (lc_addr cmd) + k * L).
Proof.
  intros L aw [A D prot]. cbn [lc_addr lc_data lc_prot]. intros HL HD HA Hend Htop.
  rewrite lite_write_spec by auto. rewrite law_of_pairs, lw_of_pairs.
  pose proof (zlen_nonneg D) as Hn. pose proof (lg_facts L A (zlen D) HL Hn) as (Hs & HAe & HC & _ & Hc).
  set (C := lite_cycles L A (zlen D)) in *.
  assert (Hadr : forall k, 0 <= k < C -> lite_addr L A k = if k =? 0 then A else down L A + k * L).
  { intros k Hk. unfold lite_addr. now rewrite div_mul_down by lia. }
  split; auto. split; [now rewrite !zlen_map|]. split; [now apply lite_bytes_spec|]. split; [|split].
  - apply Forall_forall. intros a Ha. apply in_map_iff in Ha. destruct Ha as (k & <- & Hk). apply in_zrange in Hk.
    cbn [lw_a la_prot la_addr]. split; auto. rewrite Hadr by lia.
    destruct (Z.eqb_spec k 0); [lia|]. specialize (Hc ltac:(lia)).
    rewrite down_eq by lia. assert (0 <= A / L) by (apply Z.div_pos; lia). nia.
  - apply Forall_forall. intros w Hw. apply in_map_iff in Hw. destruct Hw as (k & <- & Hk). apply in_zrange in Hk.
    now apply lw_w_fits.
  - intros k Hk. rewrite zlen_map, zlen_zrange in Hk.
    rewrite (znth_map _ 0) by (rewrite zlen_zrange; lia). unfold zrange. rewrite znth_zseq by lia.
    cbn [lw_a la_addr]. apply Hadr. lia.
Qed.
Print Assumptions C33_write_words.

Example C33_words_nontrivial :
  lite_write 4 {| lc_addr := 6; lc_data := [1; 2; 3; 4; 5; 6; 7]; lc_prot := 2 |} =
  ([LAW {| la_addr := 6; la_prot := 2 |}; LW {| lw_data := 1 * 2 ^ 16 + 2 * 2 ^ 24; lw_strb := 12 |};
    LAW {| la_addr := 8; la_prot := 2 |}; LW {| lw_data := 3 + 4 * 2 ^ 8 + 5 * 2 ^ 16 + 6 * 2 ^ 24; lw_strb := 15 |};
    LAW {| la_addr := 12; la_prot := 2 |}; LW {| lw_data := 7; lw_strb := 1 |}], Ok tt).
Proof. vm_compute. reflexivity. Qed.

(** C33 on any byte-storing target. *)
Theorem C33_write_exact : forall T L lo hi phi (inv : T -> Prop) view tw tr,
  flat_target L lo hi phi inv view tw tr -> 0 < L ->
  forall cmd t, are_bytes (lc_data cmd) -> lo <= lc_addr cmd -> lc_addr cmd + zlen (lc_data cmd) <= hi -> inv t ->
  let evs := fst (lite_write L cmd) in
  exists t' bs, lite_slave_write tw L true (law_of evs) (lw_of evs) t = (t', bs, Ok ([], [])) /\ inv t' /\
    view t' =f put phi (view t) (addressed (lc_addr cmd) (lc_data cmd)) /\
    zlen bs = lite_cycles L (lc_addr cmd) (zlen (lc_data cmd)) /\ lite_write_resp bs = OKAY.
Proof. intros T L lo hi phi inv view tw tr H HL cmd t. exact (lite_write_exact L lo hi phi inv view tw tr H HL cmd t). Qed.
Print Assumptions C33_write_exact.

Theorem C33_read_exact : forall T L lo hi phi (inv : T -> Prop) view tw tr,
  flat_target L lo hi phi inv view tw tr -> 0 < L -> lo mod L = 0 -> hi mod L = 0 ->
  forall cmd t, 0 <= lr_len cmd -> lo <= lr_addr cmd < hi -> lr_addr cmd + lr_len cmd <= hi -> inv t ->
  exists t' rs, lite_slave_read tr L (lite_read L cmd) t = (t', rs) /\ inv t' /\ view t' =f view t /\
    zlen rs = zlen (lite_read L cmd) /\
    lite_read_resp L cmd rs =
      (map (fun x => view t (phi x)) (zrange (lr_addr cmd) (lr_addr cmd + lr_len cmd)), OKAY).
Proof.
  intros T L lo hi phi inv view tw tr H HL Hlo Hhi cmd t.
  exact (lite_read_exact L lo hi phi inv view tw tr H HL Hlo Hhi cmd t).
Qed.
Print Assumptions C33_read_exact.

(** AxiLiteRam of [size] bytes: byte a+i of the operation is location (a+i) mod size. *)
Theorem C33_ram_write_exact : forall size L cmd m,
  0 < size -> 0 < L -> size mod L = 0 -> sm_reachable size m -> are_bytes (lc_data cmd) ->
  zlen (lc_data cmd) <= size ->
  let evs := fst (lite_write L cmd) in
  exists m' bs, lite_slave_write ram_write L true (law_of evs) (lw_of evs) m = (m', bs, Ok ([], [])) /\
    sm_reachable size m' /\ lite_write_resp bs = OKAY /\
    (forall i, 0 <= i < zlen (lc_data cmd) -> peek m' ((lc_addr cmd + i) mod size) = znth 0 (lc_data cmd) i) /\
    (forall x, (forall i, 0 <= i < zlen (lc_data cmd) -> x <> (lc_addr cmd + i) mod size) -> peek m' x = peek m x).
Proof.
  intros size L cmd m Hs HL Hm Hr HD Hlen evs.
  pose proof (ram_flat L size (lc_addr cmd) (lc_addr cmd + zlen (lc_data cmd)) HL Hs Hm) as Hft.
  destruct (lite_write_exact _ _ _ _ _ _ _ _ Hft HL cmd m HD ltac:(lia) ltac:(lia) Hr)
    as (m' & bs & E & Hr' & Hv & _ & Hresp).
  exists m', bs. split; [exact E|]. split; [exact Hr'|]. split; [exact Hresp|]. split.
  - intros i Hi. rewrite Hv. apply (put_hit (fun x => x mod size)); [|exact Hi].
    intros j k Hj Hk Hjk. cbv beta in Hjk.
    pose proof (Z.div_mod (lc_addr cmd + j) size ltac:(lia)) as E1.
    pose proof (Z.div_mod (lc_addr cmd + k) size ltac:(lia)) as E2.
    rewrite Hjk in E1. set (u := (lc_addr cmd + j) / size) in *. set (v := (lc_addr cmd + k) / size) in *.
    assert (j - k = size * (u - v)) by lia. clear - H Hj Hk Hlen Hs. destruct (Z.lt_trichotomy u v) as [|[|]]; nia.
  - intros x Hx. rewrite Hv. now apply (put_miss (fun x => x mod size)).
Qed.
Print Assumptions C33_ram_write_exact.

Theorem C33_ram_read_exact : forall size L cmd m,
  0 < size -> 0 < L -> size mod L = 0 -> sm_reachable size m -> 0 <= lr_len cmd -> 0 <= lr_addr cmd ->
  exists rs, lite_slave_read ram_read L (lite_read L cmd) m = (m, rs) /\
    lite_read_resp L cmd rs =
      (map (fun x => peek m (x mod size)) (zrange (lr_addr cmd) (lr_addr cmd + lr_len cmd)), OKAY).
Proof.
  intros size L cmd m Hs HL Hm Hr Hlen HA.
  set (hi := L * (lr_addr cmd + lr_len cmd + 1)).
  pose proof (ram_flat L size 0 hi HL Hs Hm) as Hft.
  assert (lr_addr cmd + lr_len cmd + 1 <= hi) by (unfold hi; nia).
  destruct (lite_read_exact _ _ _ _ _ _ _ _ Hft HL (Z.mod_0_l L ltac:(lia))
     ltac:(unfold hi; rewrite Z.mul_comm; apply Z.mod_mul; lia) cmd m Hlen ltac:(lia) ltac:(lia) Hr)
    as (m' & rs & E & _ & _ & _ & Hresp).
  exists rs. split; [|exact Hresp]. rewrite E. f_equal.
  assert (Hst : forall l t, fst (lite_slave_read ram_read L l t) = t).
  { induction l as [|a l IH]; intros t; cbn [lite_slave_read]; [reflexivity|].
    unfold lite_sr. destruct (ram_read t _ _) as [t1 r] eqn:E1. injection E1 as E1 _. rewrite <- E1.
    destruct r; pose proof (IH t) as Hi; destruct (lite_slave_read ram_read L l t); exact Hi. }
  pose proof (Hst (lite_read L cmd) m) as H2. rewrite E in H2. exact H2.
Qed.
Print Assumptions C33_ram_read_exact.

Theorem C33_ram_roundtrip : forall size L cmd prot k m,
  0 < size -> 0 < L -> size mod L = 0 -> sm_reachable size m -> are_bytes (lc_data cmd) ->
  zlen (lc_data cmd) <= size -> 0 <= lc_addr cmd + k * size ->
  let evs := fst (lite_write L cmd) in
  let rcm := {| lr_addr := lc_addr cmd + k * size; lr_len := zlen (lc_data cmd); lr_prot := prot |} in
  exists m' bs rs, lite_slave_write ram_write L true (law_of evs) (lw_of evs) m = (m', bs, Ok ([], [])) /\
    lite_slave_read ram_read L (lite_read L rcm) m' = (m', rs) /\
    lite_read_resp L rcm rs = (lc_data cmd, OKAY).
Proof.
  intros size L cmd prot k m Hs HL Hm Hr HD Hlen HA2 evs rcm.
  destruct (C33_ram_write_exact size L cmd m Hs HL Hm Hr HD Hlen) as (m' & bs & E & Hr' & _ & Hin & _).
  destruct (C33_ram_read_exact size L rcm m' Hs HL Hm Hr') as (rs & E2 & Hres); try assumption; try apply zlen_nonneg.
  exists m', bs, rs. split; [exact E|]. split; [exact E2|]. rewrite Hres. f_equal. cbn [lr_addr lr_len rcm].
  pose proof (zlen_nonneg (lc_data cmd)).
  apply (nth_ext_z 0); rewrite zlen_map, zlen_zrange; [lia|].
  intros i Hi. rewrite (znth_map _ 0) by (rewrite zlen_zrange; lia).
  unfold zrange. rewrite znth_zseq by lia.
  replace (lc_addr cmd + k * size + i) with (lc_addr cmd + i + k * size) by ring.
  rewrite Z.mod_add by lia. apply Hin. lia.
Qed.
Print Assumptions C33_ram_roundtrip.

(** 7 bytes at address 10 of a 12 byte RAM behind a 3 byte bus *)
Example C33_nontrivial :
  let cmd := {| lc_addr := 10; lc_data := [1;2;3;4;5;6;7]; lc_prot := 2 |} in
  let evs := fst (lite_write 3 cmd) in
  let '(m, bs, _) := lite_slave_write ram_write 3 true (law_of evs) (lw_of evs) (fst (sm_write (sm_init 12) 0 (repeat 9 12))) in
  let rc := {| lr_addr := 9; lr_len := 12; lr_prot := 2 |} in
  (zlen bs, lite_read_resp 3 rc (snd (lite_slave_read ram_read 3 (lite_read 3 rc) m))) =
  (3, ([9; 1; 2; 3; 4; 5; 6; 7; 9; 9; 9; 9], OKAY)).
Proof. vm_compute. reflexivity. Qed.

(** C33 fails without a wstrb signal: a partial write zeroes the rest of the word (the code warns). *)
Theorem C33_no_wstrb_refuted : exists cmd m m' bs,
  let evs := fst (lite_write 4 cmd) in
  sm_reachable 8 m /\ lite_slave_write ram_write 4 false (law_of evs) (lw_of evs) m = (m', bs, Ok ([], [])) /\
  lite_write_resp bs = OKAY /\ zlen (lc_data cmd) = 1 /\ lc_addr cmd = 1 /\ peek m 2 = 9 /\ peek m' 2 = 0.
Proof.
  exists {| lc_addr := 1; lc_data := [5]; lc_prot := 2 |}, (fst (sm_run (sm_init 8) [SWrite 0 (repeat 9 8)])).
  eexists. eexists. cbv zeta. split; [now exists [SWrite 0 (repeat 9 8)]|].
  split; [vm_compute; reflexivity|]. vm_compute. auto 10.
Qed.
Print Assumptions C33_no_wstrb_refuted.

(* ------------------------------------------------------------------ *)
(** C27 for AXI-Lite: one response per word, SLVERR exactly if a target call of the word raised. *)
Theorem C27_lite_slave_write : forall T (tw : T -> Z -> list Z -> T * res unit) L sp pairs t resta restw,
  0 < L -> Forall (fun p => 0 <= lw_data (snd p) < 256 ^ L) pairs -> resta = [] \/ restw = [] ->
  exists t' ans,
    lite_slave_write (log_write tw) L sp (map fst pairs ++ resta) (map snd pairs ++ restw) (t, []) =
      ((t', concat ans), map (fun x => if existsb failed x then SLVERR else OKAY) ans, Ok (resta, restw)) /\
    Forall2 (fun p x => lite_calls L sp (fst p) (snd p) x) pairs ans.
Proof. intros T tw L sp pairs t ra rw HL Hp Hr. exact (lite_slave_write_any tw L HL sp pairs t [] ra rw Hp Hr). Qed.
Print Assumptions C27_lite_slave_write.

Theorem C27_lite_slave_read : forall T (tr : T -> Z -> Z -> T * res (list Z)) L ars t, 0 < L ->
  exists t' ans,
    lite_slave_read (log_read tr) L ars (t, []) =
      ((t', ans), map (fun x => {| lr_data := match snd x with Ok d => le_int d | Err _ => 0 end;
                                   lr_resp := if is_err (snd x) then SLVERR else OKAY |}) ans) /\
    map fst ans = map (fun a => (down L (la_addr a), L)) ars.
Proof. intros T tr L ars t HL. exact (lite_slave_read_any tr L HL ars t []). Qed.
Print Assumptions C27_lite_slave_read.

Example C27_lite_nontrivial :
  let tw := fun (t : list (Z * list Z)) a d => if a =? 3 then (t, Err ValueError) else (t ++ [(a, d)], Ok tt) in
  lite_slave_write tw 4 true [{| la_addr := 1; la_prot := 0 |}; {| la_addr := 4; la_prot := 0 |}]
     [{| lw_data := 67305985; lw_strb := 11 |}; {| lw_data := 5; lw_strb := 1 |}] [] =
  ([(0, [1; 2]); (4, [5])], [SLVERR; OKAY], Ok ([], [])).
Proof. vm_compute. reflexivity. Qed.

(** C28 for AXI-Lite *)
Theorem C28_lite_errors_reported_partial : forall L cmd bs rs,
  Forall (fun b => b <> EXOKAY) bs -> Forall (fun r => lr_resp r <> EXOKAY) rs ->
  rerr (lite_write_resp bs) = existsb rerr bs /\ (Forall (fun b => b = OKAY) bs -> lite_write_resp bs = OKAY) /\
  rerr (snd (lite_read_resp L cmd rs)) = existsb (fun r => rerr (lr_resp r)) rs /\
  (Forall (fun r => lr_resp r = OKAY) rs -> snd (lite_read_resp L cmd rs) = OKAY).
Proof.
  intros L cmd bs rs Hb Hr. unfold lite_read_resp. rewrite lite_read_loop_resp. unfold lite_write_resp.
  split; [|split; [|split]].
  - rewrite agg_err by auto. reflexivity.
  - intros. now rewrite agg_okay.
  - rewrite agg_err by now rewrite Forall_map. cbn [rerr orb]. clear. induction rs; cbn; [reflexivity|]. now rewrite IHrs.
  - intros. rewrite agg_okay; auto. now rewrite Forall_map.
Qed.
Print Assumptions C28_lite_errors_reported_partial.
Example C28_lite_nontrivial : lite_write_resp [OKAY; DECERR; OKAY] = DECERR.
Proof. reflexivity. Qed.

(* ------------------------------------------------------------------ *)
(** C29 for AXI-Lite: exactly the servable requests become commands, with the requested meaning *)
Theorem C29_lite_write_request : forall aw pp addr data prot,
  let ok := 0 <= addr < 2 ^ aw /\ (exists d, data = inl d /\ addr + zlen d <= 2 ^ aw /\ are_bytes d) /\ (pp = true \/ prot = 2) in
  (ok -> exists d, data = inl d /\
     lite_write_args aw pp addr data prot = Ok {| lc_addr := addr; lc_data := d; lc_prot := prot |}) /\
  (~ ok -> lite_write_args aw pp addr data prot = Err ValueError).
Proof.
  intros aw pp addr data prot ok. unfold lite_write_args, ok. clear ok.
  assert (Hb : forall d, forallb is_byteb d = true <-> are_bytes d).
  { intros d. unfold are_bytes. rewrite forallb_forall, Forall_forall. unfold is_byteb, is_byte.
    split; intros H x Hx; specialize (H x Hx); lia. }
  split.
  - intros (H1 & (d & -> & H2 & H3) & H4). exists d. split; auto.
    replace ((addr <? 0) || (2 ^ aw <=? addr)) with false by lia. replace (2 ^ aw <? addr + zlen d) with false by lia.
    replace (negb pp && negb (prot =? 2)) with false by (destruct H4; subst; [reflexivity|]; rewrite andb_false_r; reflexivity).
    now rewrite (proj2 (Hb d) H3).
  - intros H. destruct ((addr <? 0) || (2 ^ aw <=? addr)) eqn:E1; auto. destruct data as [d|z]; auto.
    destruct (2 ^ aw <? addr + zlen d) eqn:E2; auto. destruct (negb pp && negb (prot =? 2)) eqn:E3; auto.
    destruct (forallb is_byteb d) eqn:E4; auto. exfalso. apply H. split; [lia|]. split.
    + exists d. split; auto. split; [lia|]. now apply Hb.
    + destruct pp; auto. right. cbn in E3. lia.
Qed.
Print Assumptions C29_lite_write_request.

Theorem C29_lite_read_request : forall aw pp addr len prot,
  let ok := 0 <= addr < 2 ^ aw /\ 0 <= len /\ addr + len <= 2 ^ aw /\ (pp = true \/ prot = 2) in
  (ok -> lite_read_args aw pp addr len prot = Ok {| lr_addr := addr; lr_len := len; lr_prot := prot |}) /\
  (~ ok -> lite_read_args aw pp addr len prot = Err ValueError).
Proof.
  intros aw pp addr len prot ok. unfold lite_read_args, ok. clear ok. split.
  - intros (H1 & H2 & H3 & H4). replace ((addr <? 0) || (2 ^ aw <=? addr)) with false by lia.
    replace (len <? 0) with false by lia. replace (2 ^ aw <? addr + len) with false by lia.
    destruct H4; subst; [reflexivity|]. change (2 =? 2) with true. now rewrite andb_false_r.
  - intros H. destruct ((addr <? 0) || (2 ^ aw <=? addr)) eqn:E1; auto. destruct (len <? 0) eqn:E2; auto.
    destruct (2 ^ aw <? addr + len) eqn:E3; auto. destruct (negb pp && negb (prot =? 2)) eqn:E4; auto.
    exfalso. apply H. split; [lia|]. split; [lia|]. split; [lia|]. destruct pp; auto. right. cbn in E4. lia.
Qed.
Print Assumptions C29_lite_read_request.

Example C29_lite_nontrivial :
  lite_write_args 4 false 14 (inl [1; 2]) 2 = Ok {| lc_addr := 14; lc_data := [1; 2]; lc_prot := 2 |} /\
  lite_write_args 4 false 14 (inl [1; 2; 3]) 2 = Err ValueError /\ lite_read_args 4 false 0 16 0 = Err ValueError.
Proof. vm_compute. auto. Qed.
