(** Proofs: a master whose slave's target has holes (C72): errors of the bus reach neither the users of an address space nor those of the word accessors. *)
From Coq Require Import ZArith Lia List Bool.
From Coq Require Import ZifyBool ZifyNat.
From Verif Require Import Py S_flat M_sparse S_sparse P_sparse M_memory P_memory M_buddy S_aspace P_aspace P_aspacer.
From Verif Require Import M_axi M_axiargs S_axi P_axi P_axislave P_axiop P_axicomp P_axiread P_axiargs P_axiram P_axisframe M_axil P_axil
  M_liteeng M_axieng S_axieng M_sys S_sys P_sys P_syswr P_sysrd M_astgt S_astgt P_astsys.
From Verif Require Import M_aspace M_busreg S_busreg P_twin P_busreg.
Import ListNotations.
Open Scope Z_scope.

(** ** the write task on a target, without the log *)
Section Unlog.
Context {T : Type} (tw : T -> Z -> list Z -> T * res unit) (L : Z).
Hypothesis HL : 0 < L.
Notation lw := (log_write tw).

Lemma beat_unlog s w t log : sw_beat tw L true s w t = (fst (fst (sw_beat lw L true s w (t, log))), snd (sw_beat lw L true s w (t, log))).
Proof.
  unfold sw_beat. destruct (to_bytes _ _ _) as [data|e]; [|reflexivity]. cbv zeta. rewrite (perform_unlog tw _ t log).
  destruct (sw_perform lw (t, log) _) as [[t1 l1] r]. cbn [fst snd]. destruct (Bool.eqb _ _); reflexivity.
Qed.
Lemma beats_unlog todo : forall s ws t log,
  let x := sw_beats lw L true todo s ws (t, log) in
  sw_beats tw L true todo s ws t = (fst (fst x), snd x) /\
  exists new, snd (fst x) = log ++ new /\ Forall (call_ok L) new /\ replays tw t new (fst (fst x)).
Proof.
  induction todo as [|todo IH]; intros s ws t log; cbn [sw_beats].
  - cbn. split; [reflexivity|]. exists []. rewrite app_nil_r. cbn. auto.
  - destruct ws as [|w ws]; [cbn; split; [reflexivity|]; exists []; rewrite app_nil_r; cbn; auto|].
    rewrite (beat_unlog s w t log). pose proof (sw_beat_log tw {| m_lanes := L; m_mbl := 0 |} s w t log HL) as K. cbn [m_lanes] in K.
    destruct (sw_beat lw L true s w (t, log)) as [[t1 l1] r]. cbn [fst snd]. destruct K as (new & -> & K1 & K2).
    destruct r as [s'|e]; [|cbn; split; [reflexivity|]; exists new; auto].
    destruct (IH s' ws t1 (log ++ new)) as (E & nw & E1 & E2 & E3). cbv zeta. rewrite E. split; [reflexivity|].
    exists (new ++ nw). rewrite E1, app_assoc. split; [reflexivity|]. split; [now apply Forall_app|]. eapply replays_app; eauto.
Qed.
Lemma write_unlog aws : forall ws t log,
  let x := slave_write lw L true aws ws (t, log) in
  slave_write tw L true aws ws t = (fst (fst (fst x)), snd (fst x), snd x) /\
  exists new, snd (fst (fst x)) = log ++ new /\ Forall (call_ok L) new /\ replays tw t new (fst (fst (fst x))).
Proof.
  induction aws as [|a aws IH]; intros ws t log; cbn [slave_write].
  - cbn. split; [reflexivity|]. exists []. rewrite app_nil_r. cbn. auto.
  - unfold sw_burst. destruct (sl_start L a) as [s|e]; [|cbn; split; [reflexivity|]; exists []; rewrite app_nil_r; cbn; auto].
    destruct (beats_unlog (Z.to_nat (ss_left s)) s ws t log) as (E & new & E1 & E2 & E3).
    destruct (sw_beats lw L true _ s ws (t, log)) as [[t1 l1] r]. cbn [fst snd] in *. rewrite E. subst l1.
    destruct r as [[[b ws']|e]|]; [|cbn; split; [reflexivity|]; exists new; auto|cbn; split; [reflexivity|]; exists new; auto].
    destruct (IH ws' t1 (log ++ new)) as (F & nw & F1 & F2 & F3). cbv zeta. rewrite F.
    destruct (slave_write lw L true aws ws' (t1, log ++ new)) as [[[t2 l2] bs] r2]. cbn [fst snd] in *. split; [reflexivity|].
    exists (new ++ nw). rewrite F1, app_assoc. split; [reflexivity|]. split; [now apply Forall_app|]. eapply replays_app; eauto.
Qed.
End Unlog.

Section UnlogRd.
Context {T : Type} (tr : T -> Z -> Z -> T * res (list Z)) (L : Z).
Notation lr := (log_read tr).
Lemma rbeats_unlog todo : forall s t log,
  let x := sr_beats lr L todo s (t, log) in
  sr_beats tr L todo s t = (fst (fst x), snd x) /\ exists new, snd (fst x) = log ++ new /\ rreplays tr t new (fst (fst x)).
Proof.
  induction todo as [|todo IH]; intros s t log; cbn [sr_beats].
  - cbn. split; [reflexivity|]. exists []. rewrite app_nil_r. cbn. auto.
  - unfold sr_beat. change (lr (t, log) (ss_cur s / L * L) L) with (let '(t', r) := tr t (ss_cur s / L * L) L in ((t', log ++ [(ss_cur s / L * L, L, r)]), r)).
    destruct (tr t (ss_cur s / L * L) L) as [t1 r] eqn:Et.
    assert (K : forall data resp, let s' := {| ss_id := ss_id s; ss_nb := ss_nb s; ss_left := ss_left s - 1; ss_burst := ss_burst s; ss_lo := ss_lo s; ss_hi := ss_hi s; ss_cur := sl_next s; ss_resp := ss_resp s |} in
      let rr := {| r_id := ss_id s; r_data := le_int data; r_resp := resp; r_last := ss_left s =? 1; r_user := 0 |} in
      let x := (let '(t'', rs) := sr_beats lr L todo s' (t1, log ++ [(ss_cur s / L * L, L, r)]) in (t'', rr :: rs)) in
      (let '(t'', rs) := sr_beats tr L todo s' t1 in (t'', rr :: rs)) = (fst (fst x), snd x) /\
      exists new, snd (fst x) = log ++ new /\ rreplays tr t new (fst (fst x))).
    { intros data resp s' rr. destruct (IH s' t1 (log ++ [(ss_cur s / L * L, L, r)])) as (E & nw & E1 & E2).
      rewrite E. destruct (sr_beats lr L todo s' _) as [[t2 l2] rs]. cbn [fst snd] in *. split; [reflexivity|].
      exists ((ss_cur s / L * L, L, r) :: nw). rewrite E1, <- app_assoc. split; [reflexivity|]. cbn [rreplays]. rewrite Et. auto. }
    destruct r as [d|e]; apply K.
Qed.
Lemma read_unlog ars : forall t log,
  let x := slave_read lr L ars (t, log) in
  slave_read tr L ars t = (fst (fst (fst x)), snd (fst x), snd x) /\
  exists new, snd (fst (fst x)) = log ++ new /\ rreplays tr t new (fst (fst (fst x))).
Proof.
  induction ars as [|a ars IH]; intros t log; cbn [slave_read].
  - cbn. split; [reflexivity|]. exists []. rewrite app_nil_r. cbn. auto.
  - destruct (sl_start L a) as [s|e]; [|cbn; split; [reflexivity|]; exists []; rewrite app_nil_r; cbn; auto].
    destruct (rbeats_unlog (Z.to_nat (ss_left s)) s t log) as (E & new & E1 & E3).
    destruct (sr_beats lr L _ s (t, log)) as [[t1 l1] rs]. cbn [fst snd] in *. rewrite E. subst l1.
    destruct (IH t1 (log ++ new)) as (F & nw & F1 & F3). cbv zeta. rewrite F.
    destruct (slave_read lr L ars (t1, log ++ new)) as [[[t2 l2] bs] r2]. cbn [fst snd] in *. split; [reflexivity|].
    exists (new ++ nw). rewrite F1, app_assoc. split; [reflexivity|]. eapply rreplays_app; eauto.
Qed.
End UnlogRd.

Lemma aw_gen (gen : list (axc * list wch)) : aw_of (flat_map (fun b => EvAW (fst b) :: map EvW (snd b)) gen) = map fst gen.
Proof. apply aw_of_flatten. Qed.
Lemma w_gen (gen : list (axc * list wch)) : w_of (flat_map (fun b => EvAW (fst b) :: map EvW (snd b)) gen) = flat_map snd gen.
Proof. apply w_of_flatten. Qed.

(** an AXI write on any target: the calls it made *)
Lemma axi_wr_calls {T} (tw : T -> Z -> list Z -> T * res unit) c o u t : write_legal (m_lanes c) o ->
  let evs := fst (master_write c u (snd o)) in
  exists t' bs cs users, slave_write tw (m_lanes c) true (aw_of evs) (w_of evs) t = (t', bs, Ok []) /\
    mw_resp (bursts_of (aw_of evs)) bs OKAY [] = Some (if existsb failed cs then SLVERR else OKAY, users, []) /\
    Forall (call_ok (m_lanes c)) cs /\ replays tw t cs t' /\
    incl (calls_bytes cs) (addressed (wc_addr (snd o)) (wc_data (snd o))) /\
    (existsb failed cs = false -> calls_bytes cs = addressed (wc_addr (snd o)) (wc_data (snd o))) /\
    spared (m_lanes c) cs (addressed (wc_addr (snd o)) (wc_data (snd o))).
Proof.
  intros Hok evs. destruct (op_gen tw c o u Hok) as (gen & Eg & Hg & Hid & Hby & HL). unfold w_sends in Eg. fold evs in Eg.
  rewrite Eg, aw_gen, w_gen.
  destruct (slave_write_any tw (fun (x : T) (_ _ : Z) => (x, Ok [])) (m_lanes c) HL true gen t [] [] Hg) as (t' & ans & E & HA). rewrite app_nil_r in E.
  destruct (write_unlog tw (m_lanes c) HL (map fst gen) (flat_map snd gen) t []) as (F & new & F1 & F2 & F3).
  rewrite E in F, F1, F3. cbn [fst snd app] in *. subst new. set (cs := flat_map (fun x => concat (fst x)) ans) in *.
  assert (Hlen : length gen = length ans) by (clear - HA; induction HA; cbn; congruence).
  assert (Hresp : fold_left agg_resp (map b_resp (map snd ans)) OKAY = if existsb failed cs then SLVERR else OKAY).
  { rewrite agg_slv.
    - replace (existsb rerr (map b_resp (map snd ans))) with (existsb failed cs); [reflexivity|].
      unfold cs. clear - HA. induction HA as [|p x gen ans [_ Hx] HA IH]; [reflexivity|]. cbn [flat_map map existsb]. rewrite existsb_app, IH, Hx. cbn [b_resp].
      now destruct (existsb failed (concat (fst x))).
    - clear - HA. induction HA as [|p x gen ans [_ Hx] HA IH]; cbn [map]; constructor; auto. rewrite Hx. cbn [b_resp]. destruct (existsb failed _); auto. }
  assert (Hcs : incl (calls_bytes cs) (all_bytes (m_lanes c) gen) /\ (existsb failed cs = false -> calls_bytes cs = all_bytes (m_lanes c) gen) /\
                spared (m_lanes c) cs (all_bytes (m_lanes c) gen)).
  { unfold cs. clear - HA HL. induction HA as [|[a ws] x gen ans [Hlg _] HA (I1 & I2 & I3)]; [split; [intros ? []|split; [reflexivity|apply spared_nil]]|].
    cbn [fst snd] in Hlg. rewrite eff_w_true in Hlg. unfold all_bytes in *. cbn [flat_map fst snd]. rewrite calls_bytes_app.
    destruct (logged_bytes _ _ _ _ _ Hlg) as [J1 J2]. split; [|split].
    - apply incl_app; [apply incl_appl|apply incl_appr]; auto.
    - rewrite existsb_app. intros Hf. apply orb_false_iff in Hf as [F1 F2]. now rewrite (J2 F1), (I2 F2).
    - apply spared_app; auto. now apply logged_spared. }
  rewrite Hby in Hcs. exists t', (map snd ans), cs, (map b_user (map snd ans)). split; [exact F|]. split; [|tauto].
  rewrite <- Hresp. rewrite <- (app_nil_r (map snd ans)) at 1. rewrite mw_resp_spec; [reflexivity|]. unfold bursts_of. rewrite !map_length. exact Hlen.
Qed.

Lemma axi_rd_calls {T} (tr : T -> Z -> Z -> T * res (list Z)) c o u t : read_legal (m_lanes c) o ->
  exists t' rs cs, slave_read tr (m_lanes c) (master_read c u (snd o)) t = (t', rs, Ok tt) /\
    fetched c (o, u) (rs, cs) /\ rreplays tr t cs t'.
Proof.
  intros Hok. destruct (op_ar tr c o u Hok) as (HL & Hb & Hid). unfold r_sends in Hb.
  destruct (slave_read_any (fun (x : T) (_ : Z) (_ : list Z) => (x, Ok tt)) tr (m_lanes c) HL (master_read c u (snd o)) t [] Hb) as (t' & ans & E & HA).
  destruct (read_unlog tr (m_lanes c) (master_read c u (snd o)) t []) as (F & new & F1 & F3).
  rewrite E in F, F1, F3. cbn [fst snd app] in *. subst new.
  exists t'. eexists. exists (concat ans). split; [exact F|]. split; [|exact F3].
  apply (rans_fetched tr c o u); auto. exists ans. auto.
Qed.

(** ** a target with holes *)
Section Part.
Context {T : Type} (lo hi : Z) (mp : Z -> bool) (phi : Z -> Z) (inv : T -> Prop) (view : T -> flat)
  (tw : T -> Z -> list Z -> T * res unit) (tr : T -> Z -> Z -> T * res (list Z)) (b : bus).
Hypothesis Hpt : part_target (bus_lanes b) lo hi mp phi inv view tw tr.
Hypothesis Hmp : of_words (bus_lanes b) mp.
Hypothesis Hfit : bus_fits lo hi b.

Lemma bus_wr_part t a d : inv t -> are_bytes d -> lo <= a < hi -> a + zlen d <= hi ->
  exists t' r, bus_wr tw b t a d = (t', Ok r) /\ inv t' /\ view t' =f put phi (view t) (kept mp (addressed a d)) /\
    (r = part_resp mp a (zlen d) \/ exists L aw pp, b = BusApb L aw pp false /\ r = OKAY).
Proof.
  destruct Hfit as ((HL & Hg) & Hl1 & Hl2 & Hlo & Hhi). intros Hi Hd Ha Hb. pose proof (zlen_nonneg d) as Hz.
  assert (Hr : range_ok (2 ^ bus_aw b) a (zlen d) = true) by (unfold range_ok; lia).
  destruct b as [c mbl idw idr|L aw pp|L aw pp ep]; cbn [bus_lanes bus_aw] in *; unfold bus_wr.
  - destruct Hg as (m & HLm & Hm). rewrite (axi_wargs c m) by (auto; lia). rewrite Hr, (bytes_ok d Hd). cbn [andb].
    destruct (axi_wr_calls tw {| m_lanes := ac_lanes c; m_mbl := mbl |} (0, None, wcmd0 m a d) idw t)
      as (t' & bs & cs & users & E & E2 & Hc & Hrep & Hin & Hall & Hsp).
    { split; [exists m; cbn; auto with zarith|]. cbn. auto with zarith. }
    cbn [snd m_lanes wcmd0 wc_addr wc_data] in *. cbv zeta. unfold wcmd0 in *. rewrite E, E2.
    destruct (replays_part (ac_lanes c) lo hi mp phi inv view tw tr Hpt HL Hmp cs t t' Hi Hc) as (F & Hi' & Hv); auto.
    { apply Forall_forall. intros p Hp. apply Hin in Hp. apply in_addressed in Hp. lia. }
    destruct (op_part (ac_lanes c) mp HL Hmp a d cs F Hc Hin Hall Hsp) as [P1 P2].
    exists t'. eexists. split; [reflexivity|]. split; [exact Hi'|]. split; [unfold kept; now rewrite <- P2|]. left. unfold part_resp. rewrite P1. now destruct (forallb mp _).
  - rewrite lite_wargs, Hr, (bytes_ok d Hd). cbn [andb].
    destruct (lw_part L lo hi mp phi inv view tw tr Hpt HL Hmp {| lc_addr := a; lc_data := d; lc_prot := 2 |} t) as (t' & bs & E & Hi' & Hv & Hm');
      auto; try (cbn [lc_addr lc_data]; lia).
    cbv zeta in *. rewrite E, Hm'. exists t'. eexists. split; [reflexivity|]. auto.
  - rewrite lite_wargs, Hr, (bytes_ok d Hd). cbn [andb].
    destruct (lw_part L lo hi mp phi inv view tw tr Hpt HL Hmp {| lc_addr := a; lc_data := d; lc_prot := 2 |} t) as (t' & bs & E & Hi' & Hv & Hm');
      auto; try (cbn [lc_addr lc_data]; lia).
    cbv zeta in *. rewrite E, Hm'. exists t'. eexists. split; [reflexivity|]. split; auto. split; auto. destruct ep; eauto 8.
Qed.

Lemma bus_rd_part t a n : inv t -> 0 < n -> lo <= a < hi -> a + n <= hi ->
  exists t' r, bus_rd tr b t a n = (t', Ok (part_data mp phi (view t) a n, r)) /\ inv t' /\ view t' =f view t /\
    (r = part_resp mp a n \/ exists L aw pp, b = BusApb L aw pp false /\ r = OKAY).
Proof.
  destruct Hfit as ((HL & Hg) & Hl1 & Hl2 & Hlo & Hhi). intros Hi Hn Ha Hb.
  assert (Hr : range_ok (2 ^ bus_aw b) a n = true) by (unfold range_ok; lia).
  destruct b as [c mbl idw idr|L aw pp|L aw pp ep]; cbn [bus_lanes bus_aw] in *; unfold bus_rd.
  - destruct Hg as (m & HLm & Hm). rewrite (axi_rargs c m) by (auto; lia). rewrite Hr.
    assert (HG : bus_ok (ac_lanes c) (rc_size (rcmd0 m a n))) by (exists m; cbn; auto with zarith).
    destruct (axi_rd_calls tr {| m_lanes := ac_lanes c; m_mbl := mbl |} (0, None, rcmd0 m a n) idr t) as (t' & rs & cs & E & HF & Hrep).
    { split; [exact HG|]. cbn. auto with zarith. }
    destruct HF as (_ & F1 & F3). cbn [snd m_lanes] in *. cbv zeta. rewrite E.
    assert (Hrg : Forall (fun e : rcall => lo <= fst (fst e) /\ fst (fst e) + ac_lanes c <= hi /\ fst (fst e) mod ac_lanes c = 0 /\ snd (fst e) = ac_lanes c) cs).
    { pose proof (read_calls_range (ac_lanes c) (rcmd0 m a n) lo hi HG) as K. cbn [rcmd0 rc_addr rc_len] in K. specialize (K ltac:(lia) ltac:(lia) Hl1 Hl2 ltac:(lia) Hb).
      fold (rcmd0 m a n) in K. rewrite <- F1, Forall_map in K. exact K. }
    destruct (rreplays_part (ac_lanes c) lo hi mp phi inv view tw tr Hpt HL Hmp cs t t' Hi Hrg Hrep) as (HW & Hi' & Hv).
    destruct (part_reads (ac_lanes c) mp phi HL Hmp (view t) cs (read_calls (ac_lanes c) (rcmd0 m a n)) (fun x => x / 2 ^ m - a / 2 ^ m) a n F1 HW) as (P1 & P2 & P3).
    { intros x Hx. split; [assert (a / 2 ^ m <= x / 2 ^ m) by (apply Z.div_le_mono; [apply Z.pow_pos_nonneg|]; lia); lia|]. apply (read_calls_nth (ac_lanes c) (rcmd0 m a n)); auto; cbn; lia. }
    { intros e He. apply (read_calls_touch (ac_lanes c) (rcmd0 m a n)); auto; cbn; lia. }
    specialize (F3 P1). unfold read_returns in F3. cbn [snd rcmd0 rc_size rc_addr rc_len] in F3. fold (rcmd0 m a n) in F3. rewrite P3, P2 in F3.
    destruct (master_read_resp _ _ _ rs) as [[[[[d0 r0] u0] [|x0 l0]]|e0]|]; try discriminate. injection F3 as -> ->.
    exists t'. eexists. split; [reflexivity|]. split; [exact Hi'|]. split; [exact Hv|]. left. unfold part_resp. now destruct (forallb mp _).
  - rewrite lite_rargs, Hr.
    destruct (lr_part L lo hi mp phi inv view tw tr Hpt HL Hmp Hl1 Hl2 {| lr_addr := a; lr_len := n; lr_prot := 2 |} t) as (t' & rs & E & Hi' & Hv & Hm');
      auto; try (cbn [lr_addr lr_len]; lia).
    rewrite E, Hm'. exists t'. eexists. split; [reflexivity|]. auto.
  - rewrite lite_rargs, Hr.
    destruct (lr_part L lo hi mp phi inv view tw tr Hpt HL Hmp Hl1 Hl2 {| lr_addr := a; lr_len := n; lr_prot := 2 |} t) as (t' & rs & E & Hi' & Hv & Hm');
      auto; try (cbn [lr_addr lr_len]; lia).
    rewrite E, Hm'. cbn [fst snd lr_addr lr_len]. exists t'. eexists. split; [reflexivity|]. split; auto. split; auto. destruct ep; eauto 8.
Qed.
End Part.

(** ** any target: every call in range returns *)
Lemma bus_wr_range {T} (tw : T -> Z -> list Z -> T * res unit) b t a d : bus_good b ->
  if range_ok (2 ^ bus_aw b) a (zlen d) && forallb is_byteb d then exists t' r, bus_wr tw b t a d = (t', Ok r)
  else bus_wr tw b t a d = (t, Err ValueError).
Proof.
  intros (HL & Hg). destruct b as [c mbl idw idr|L aw pp|L aw pp ep]; cbn [bus_lanes bus_aw] in *; unfold bus_wr.
  - destruct Hg as (m & HLm & Hm). rewrite (axi_wargs c m) by (auto; lia). destruct (range_ok _ a (zlen d) && forallb is_byteb d) eqn:Hr; [|reflexivity].
    apply andb_true_iff in Hr as [Hr Hd]. apply forallb_bytes in Hd.
    destruct (axi_wr_calls tw {| m_lanes := ac_lanes c; m_mbl := mbl |} (0, None, wcmd0 m a d) idw t) as (t' & bs & cs & users & E & E2 & _).
    { split; [exists m; cbn; auto with zarith|]. unfold range_ok in Hr. cbn. split; auto. split; auto. lia. }
    cbn [snd m_lanes] in *. cbv zeta. rewrite E, E2. eauto.
  - rewrite lite_wargs. destruct (_ && _); [|reflexivity]. cbv zeta. destruct (lite_slave_write _ _ _ _ _ _) as [[t' bs] r]. eauto.
  - rewrite lite_wargs. destruct (_ && _); [|reflexivity]. cbv zeta. destruct (lite_slave_write _ _ _ _ _ _) as [[t' bs] r]. eauto.
Qed.

Lemma beat_bytes_len w i j : i <= j -> zlen (beat_bytes w i j) = j - i.
Proof. intros. unfold beat_bytes. rewrite zlen_map, zlen_zrange; lia. Qed.
Lemma lite_len L cmd : 0 < L -> 0 <= lr_len cmd -> forall rs k data r, 0 <= k -> k + zlen rs = lite_cycles L (lr_addr cmd) (lr_len cmd) ->
  (rs = [] -> lite_cycles L (lr_addr cmd) (lr_len cmd) = 0) ->
  zlen (fst (lite_read_loop L cmd (lite_cycles L (lr_addr cmd) (lr_len cmd)) k rs data r)) = zlen data + (lr_len cmd - lg_off L (lr_addr cmd) k).
Proof.
  intros HL Hn. set (A := lr_addr cmd). set (n := lr_len cmd). set (C := lite_cycles L A n).
  induction rs as [|x rs IH]; intros k data r Hk Hc H0; cbn [lite_read_loop].
  - cbn [fst]. specialize (H0 eq_refl). change (zlen (@nil lrd)) with 0 in Hc.
    destruct (lg_facts L A n HL Hn) as (_ & _ & _ & Hz & _). fold C in Hz. unfold lg_off. replace (k =? 0) with true by lia. lia.
  - rewrite zlen_cons in Hc. pose proof (zlen_nonneg rs) as Hz.
    destruct (lg_cycle L A n HL Hn k) as (H1 & H2 & H3 & H4 & H5 & H6 & H7 & H8 & H9 & _); [fold C; lia|].
    fold C in H1, H2, H3, H6, H7. fold A n C.
    destruct (Z.eqb_spec k (C - 1)) as [E|E].
    + assert (rs = []) as -> by (destruct rs; auto; rewrite zlen_cons in Hc; pose proof (zlen_nonneg rs); lia).
      cbn [lite_read_loop fst]. rewrite zlen_app, beat_bytes_len by lia. lia.
    + rewrite IH; [|lia|lia|intros ->; change (zlen (@nil lrd)) with 0 in Hc; lia]. rewrite zlen_app, beat_bytes_len by lia. lia.
Qed.
Lemma lite_slave_read_len {T} (tr : T -> Z -> Z -> T * res (list Z)) L ars : forall t, zlen (snd (lite_slave_read tr L ars t)) = zlen ars.
Proof.
  induction ars as [|a ars IH]; intros t; cbn [lite_slave_read]; [reflexivity|]. destruct (lite_sr tr L a t) as [t1 r]. 
  specialize (IH t1). destruct (lite_slave_read tr L ars t1) as [t2 rs]. cbn [snd] in *. rewrite !zlen_cons. lia.
Qed.
Lemma lite_resp_len {T} (tr : T -> Z -> Z -> T * res (list Z)) L cmd t : 0 < L -> 0 <= lr_len cmd ->
  zlen (fst (lite_read_resp L cmd (snd (lite_slave_read tr L (lite_read L cmd) t)))) = lr_len cmd.
Proof.
  intros HL Hn. unfold lite_read_resp. destruct (lg_facts L (lr_addr cmd) (lr_len cmd) HL Hn) as (_ & _ & HC & _).
  assert (Hl : zlen (snd (lite_slave_read tr L (lite_read L cmd) t)) = lite_cycles L (lr_addr cmd) (lr_len cmd)).
  { rewrite lite_slave_read_len. unfold lite_read. rewrite zlen_map, zlen_zrange; lia. }
  rewrite lite_len; auto; try lia.
  - unfold lg_off. cbn [Z.eqb]. change (zlen (@nil Z)) with 0. lia.
  - intros E. rewrite E in Hl. change (zlen (@nil lrd)) with 0 in Hl. lia.
Qed.

Lemma bus_rd_range {T} (tr : T -> Z -> Z -> T * res (list Z)) b t a n : bus_good b ->
  if range_ok (2 ^ bus_aw b) a n then exists t' d r, bus_rd tr b t a n = (t', Ok (d, r)) /\ zlen d = n
  else bus_rd tr b t a n = (t, Err ValueError).
Proof.
  intros (HL & Hg). destruct b as [c mbl idw idr|L aw pp|L aw pp ep]; cbn [bus_lanes bus_aw] in *; unfold bus_rd.
  - destruct Hg as (m & HLm & Hm). rewrite (axi_rargs c m) by (auto; lia). destruct (range_ok _ a n) eqn:Hr; [|reflexivity].
    set (mc := {| m_lanes := ac_lanes c; m_mbl := mbl |}). assert (HG : bus_ok (m_lanes mc) m) by (exists m; cbn; auto with zarith).
    assert (Ha : 0 <= a /\ 0 <= n) by (unfold range_ok in Hr; lia).
    destruct (op_ar tr mc (0, None, rcmd0 m a n) idr) as (_ & Hb & _); [split; [exact HG|]; cbn; auto with zarith|]. unfold r_sends in Hb. cbn [snd] in Hb.
    destruct (slave_read_any (fun (x : T) (_ : Z) (_ : list Z) => (x, Ok tt)) tr (m_lanes mc) HL (master_read mc idr (rcmd0 m a n)) t [] Hb) as (t' & ans & E & HA).
    destruct (read_unlog tr (m_lanes mc) (master_read mc idr (rcmd0 m a n)) t []) as (F & _). rewrite E in F. cbn [fst snd] in F.
    cbv zeta. cbn [m_lanes mc] in F. rewrite F. clear F E.
    set (rs := flat_map _ _). set (ars := master_read mc idr (rcmd0 m a n)) in *.
    assert (Hp : map (fun r => (r_id r, r_last r)) rs = flat_map (fun a => map (pair (ax_id a)) (r_epat a)) ars).
    { apply (rans_pat mc ars rs (concat ans) Hb). exists ans. auto. }
    assert (Hlast : map r_last rs = flat_map r_epat ars).
    { apply (f_equal (map snd)) in Hp. rewrite map_map in Hp. cbn [snd] in Hp. etransitivity; [exact Hp|]. clear. induction ars as [|x l IH]; [reflexivity|].
      cbn [flat_map]. rewrite map_app, IH, map_map. cbn [snd]. now rewrite map_id. }
    pose proof (op_read mc a n m dflt_side idr HG ltac:(lia)) as Eo. unfold og_rcmd in Eo. fold (rcmd0 m a n) in Eo. fold ars in Eo.
    set (r0 := {| r_id := 0; r_data := 0; r_resp := OKAY; r_last := false; r_user := 0 |}).
    destruct (op_read_any mc a n m dflt_side idr HG ltac:(lia) ltac:(lia) rs r0) as (_ & users & HR); [rewrite <- Eo; exact Hlast|].
    rewrite <- Eo in HR. unfold og_rcmd in HR. fold (rcmd0 m a n) in HR. rewrite HR. exists t'. do 2 eexists. split; [reflexivity|]. rewrite zlen_map, zlen_zrange; lia.
  - rewrite lite_rargs. destruct (range_ok _ a n) eqn:Hr; [|reflexivity].
    pose proof (lite_resp_len tr L {| lr_addr := a; lr_len := n; lr_prot := 2 |} t HL) as K. cbn [lr_len] in K. specialize (K ltac:(unfold range_ok in Hr; lia)).
    destruct (lite_slave_read tr L _ t) as [t' rs]. cbn [snd] in K. exists t'. destruct (lite_read_resp L _ rs) as [d r]. cbn [fst] in K. eauto.
  - rewrite lite_rargs. destruct (range_ok _ a n) eqn:Hr; [|reflexivity].
    pose proof (lite_resp_len tr L {| lr_addr := a; lr_len := n; lr_prot := 2 |} t HL) as K. cbn [lr_len] in K. specialize (K ltac:(unfold range_ok in Hr; lia)).
    destruct (lite_slave_read tr L _ t) as [t' rs]. cbn [snd] in K. exists t'. do 2 eexists. split; [reflexivity|]. exact K.
Qed.
