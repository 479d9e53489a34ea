(** End-to-end lemmas: AXI master against AXI slave on a flat target. *)
From Coq Require Import ZArith Lia List Bool.
From Coq Require Import ZifyBool ZifyNat.
From Verif Require Import Py S_flat M_axi S_axi P_axi P_axislave.
Import ListNotations.
Open Scope Z_scope.

Lemma bus_ok_facts L size : bus_ok L size ->
  exists q p, 0 < 2 ^ size /\ 0 < q /\ L = 2 ^ size * q /\ 4096 = 2 ^ size * p /\ 0 <= size < 8 /\ 0 < L.
Proof.
  intros (m & HL & Hs & Hm). exists (2 ^ (m - size)), (2 ^ (12 - size)).
  assert (0 < 2 ^ size) by (apply Z.pow_pos_nonneg; lia).
  assert (0 < 2 ^ (m - size)) by (apply Z.pow_pos_nonneg; lia).
  assert (L = 2 ^ size * 2 ^ (m - size)).
  { rewrite <- Z.pow_add_r by lia. rewrite HL. f_equal. lia. }
  assert (4096 = 2 ^ size * 2 ^ (12 - size)).
  { rewrite <- Z.pow_add_r by lia. replace (size + (12 - size)) with 12 by lia. reflexivity. }
  assert (0 < L) by (rewrite HL; apply Z.pow_pos_nonneg; lia).
  repeat split; auto; lia.
Qed.

Lemma legal_accepts L aw a : legal_incr L aw a -> accepts L a.
Proof.
  intros (Hb & Hs & Hnb & Hl & Ha & H4). split; [exact Hnb|]. intros _.
  pose proof (Z.pow_pos_nonneg 2 (ax_size a) ltac:(lia) ltac:(lia)) as Hp.
  assert (H4096 : 4096 = 2 ^ ax_size a * 2 ^ (12 - ax_size a)).
  { rewrite <- Z.pow_add_r by lia. replace (ax_size a + (12 - ax_size a)) with 12 by lia. reflexivity. }
  pose proof (Z.pow_pos_nonneg 2 (12 - ax_size a) ltac:(lia) ltac:(lia)) as Hq.
  pose proof (down_down (2 ^ ax_size a) (2 ^ (12 - ax_size a)) (ax_addr a) Hp Hq) as Hdd.
  rewrite <- H4096 in Hdd. set (nb := 2 ^ ax_size a) in *.
  set (d := down nb (ax_addr a)) in *. rewrite <- Hdd in H4. unfold down in H4.
  set (t := nb * beats a). replace (beats a * nb) with t in H4 by (unfold t; ring).
  pose proof (Z.mod_pos_bound (d + t - 1) 4096 ltac:(lia)).
  pose proof (Z.mod_pos_bound d 4096 ltac:(lia)). lia.
Qed.

Lemma pow_above x : 0 <= x -> x < 2 ^ x.
Proof. intros. apply Z.pow_gt_lin_r; lia. Qed.

(** R beats of a burst list, beat by beat *)
Lemma beat_bytes_le_int l s e : are_bytes l -> 0 <= s <= e -> e <= zlen l ->
  beat_bytes (le_int l) s e = zslice l s e.
Proof.
  intros Hl Hse He. apply (nth_ext_z 0).
  - unfold beat_bytes. rewrite zlen_map, zlen_zrange, zslice_length by lia. lia.
  - intros i Hi. unfold beat_bytes in Hi |- *. rewrite zlen_map, zlen_zrange in Hi.
    rewrite (znth_map _ 0) by (rewrite zlen_zrange; lia).
    unfold zrange. rewrite znth_zseq by lia. rewrite znth_zslice by lia.
    rewrite <- (lane_byte_le_int l (s + i)) by (auto; lia).
    unfold lane_byte. rewrite Z.shiftr_div_pow2 by lia.
    change 255 with (Z.ones 8). rewrite Z.land_ones by lia.
    change (2 ^ 8) with 256. f_equal. f_equal. change 256 with (2 ^ 8).
    rewrite <- Z.pow_mul_r by lia. f_equal. lia.
Qed.

Lemma zslice_map_zrange (g : Z -> Z) w n s e : 0 <= s <= e -> e <= n ->
  zslice (map g (zrange w (w + n))) s e = map g (zrange (w + s) (w + e)).
Proof.
  intros Hs He. apply (nth_ext_z 0).
  - rewrite zslice_length by (rewrite ?zlen_map, ?zlen_zrange; lia).
    rewrite zlen_map, zlen_zrange. lia.
  - intros i Hi. rewrite zslice_length in Hi by (rewrite ?zlen_map, ?zlen_zrange; lia).
    rewrite znth_zslice by (rewrite ?zlen_map, ?zlen_zrange; lia).
    rewrite !(znth_map _ 0) by (rewrite ?zlen_zrange; lia).
    unfold zrange. rewrite !znth_zseq by lia. f_equal. lia.
Qed.

Section Op.
  Variables (c : mcfg) (A len size : Z) (sd : side) (id : Z).
  Hypothesis HG : bus_ok (m_lanes c) size.
  Hypothesis HA : 0 <= A.
  Hypothesis Hlen : 0 <= len.
  Let L := m_lanes c.

  Notation C := (og_C A len size).
  Notation ars := (og_ars c A len size INCR sd id (Z.to_nat C) 0).
  Notation ba := (og_ba A size).
  Notation lo := (og_lo A size).
  Notation u := (og_u A size).

  Section WithData.
    Variables (D : list Z) (wu : wuser_t).
    Hypothesis HD : are_bytes D.
    Hypothesis HDlen : zlen D = len.
    Notation gen := (og_gen c A len size INCR sd id D wu (Z.to_nat C) 0).

    Lemma C_nonneg : 0 <= C.
    Proof.
      destruct (bus_ok_facts _ _ HG) as (q & p & Hnb & Hq & HL & Hp & Hs & HL0).
      exact (proj1 (og_cycles c A len size Hnb Hlen)).
    Qed.

    Lemma op_write : master_write c id (og_cmd A size INCR sd D wu) = (flatten gen, Ok tt).
    Proof.
      destruct (bus_ok_facts _ _ HG) as (q & p & Hnb & Hq & HL & Hp & Hs & HL0).
      now apply master_write_gen with (q := q) (p := p).
    Qed.

    Lemma op_pair : pair_bursts (aw_of (flatten gen)) (w_of (flatten gen)) = Some gen.
    Proof.
      destruct (bus_ok_facts _ _ HG) as (q & p & Hnb & Hq & HL & Hp & Hs & HL0).
      rewrite aw_of_flatten, w_of_flatten. apply pair_bursts_gen.
      apply og_gen_lengths with (p := p); auto. lia.
    Qed.

    Lemma op_bursts aw : A < 2 ^ aw -> A + len <= 2 ^ aw ->
      Forall (fun b => legal_incr L aw (fst b) /\ beats (fst b) <= Z.max (Z.min (m_mbl c) 256) 1 /\
                ax_id (fst b) = id /\ ax_size (fst b) = size /\ ax_side (fst b) = sd /\
                zlen (snd b) = beats (fst b) /\ last_ok (snd b) /\
                Forall (fun w => 0 <= w_data w < 256 ^ L /\ 0 <= w_strb w < 2 ^ L) (snd b)) gen.
    Proof.
      destruct (bus_ok_facts _ _ HG) as (q & p & Hnb & Hq & HL & Hp & Hs & HL0).
      intros Haw1 Haw2. apply Forall_forall. intros [a ws] Hin.
      pose proof (og_gen_lengths c A len size INCR sd id p Hnb Hp D wu (Z.to_nat C) 0 ltac:(lia)) as Hlens.
      rewrite Forall_forall in Hlens. specialize (Hlens _ Hin). cbn [fst snd] in Hlens |- *.
      destruct (og_gen_in c A len size INCR sd id p Hnb Hp D wu _ 0 _ ltac:(lia) Hin) as (k & Hk & E).
      injection E as -> ->.
      pose proof (og_bl_range c A len size INCR p Hnb Hp k Hk) as (Hb1 & Hb2).
      split; [exact (og_legal c A len size INCR sd id q p Hnb Hq HL Hp HA Hlen k aw eq_refl Hs Hk Haw1 Haw2)|]. unfold beats in Hlens |- *. cbn [og_ax ax_len ax_id ax_size ax_side] in Hlens |- *.
      split; [lia|]. split; [reflexivity|]. split; [reflexivity|]. split; [reflexivity|].
      split; [unfold zlen; lia|]. split; [apply og_beats_last; lia|].
      apply Forall_forall. intros w Hw. apply (In_nth _ _ w) in Hw. destruct Hw as (j & Hj & Ej).
      rewrite og_beats_length in Hj. destruct (og_beats_nth c A len size D wu _ k j w Hj) as (last & En).
      rewrite Ej in En. rewrite En.
      apply (og_w_fits c A len size q p Hnb Hq HL Hp HA Hlen D wu HD HDlen). lia.
    Qed.

    Lemma op_bytes : all_bytes L gen = addressed A D.
    Proof.
      destruct (bus_ok_facts _ _ HG) as (q & p & Hnb & Hq & HL & Hp & Hs & HL0).
      pose proof C_nonneg.
      rewrite (og_gen_bytes c A len size INCR sd id q p) by first [assumption|reflexivity|lia].
      assert (og_off A len size 0 = 0) as ->.
      { unfold og_off. pose proof (og_A c A len size Hnb). unfold og_ba. rewrite Z.add_0_r. lia. }
      rewrite Z.add_0_r. rewrite zslice_all by lia. reflexivity.
    Qed.

    Lemma op_chain : chained A (map fst gen) /\
      (0 < len -> chain_end A (map fst gen) = down (2 ^ size) (A + len - 1) + 2 ^ size) /\
      (len = 0 -> A mod 2 ^ size = 0 -> gen = []).
    Proof.
      destruct (bus_ok_facts _ _ HG) as (q & p & Hnb & Hq & HL & Hp & Hs & HL0).
      pose proof (og_cycles c A len size Hnb Hlen) as (HC & HC2 & HC3 & HC4).
      rewrite og_gen_fst. split; [|split].
      - exact (og_chained c A len size INCR sd id p Hnb Hp (Z.to_nat C) eq_refl 0 ltac:(lia)).
      - intros Hl. rewrite (og_chain_end c A len size INCR sd id p Hnb Hp); auto; try lia.
        + now apply (og_ba_C c).
      - intros Hl Hm. assert (C = 0) as ->; [|reflexivity]. apply HC4. split; [exact Hl|].
        pose proof (Z.div_mod A (2 ^ size) ltac:(lia)). unfold og_u. lia.
    Qed.

    Lemma op_user : map w_user (flat_map snd gen) = map (wuser_at wu) (zrange 0 (zlen (flat_map snd gen))).
    Proof.
      destruct (bus_ok_facts _ _ HG) as (q & p & Hnb & Hq & HL & Hp & Hs & HL0).
      pose proof C_nonneg.
      pose proof (og_gen_user c A len size INCR sd id p Hnb Hp D wu (Z.to_nat C) 0 ltac:(lia) ltac:(lia)) as Hu.
      replace (zlen (flat_map snd gen)) with C; [exact Hu|].
      apply (f_equal zlen) in Hu. rewrite !zlen_map, zlen_zrange in Hu. lia.
    Qed.

    (** every strobed lane is in the beat's container; the others carry 0 *)
    Lemma op_lanes a ws j i : In (a, ws) gen -> 0 <= j < zlen ws -> 0 <= i < L ->
      let w := znth {| w_data := 0; w_strb := 0; w_last := false; w_user := 0 |} ws j in
      let word := down L (axi_beat_addr a j) in
      let cont := down (2 ^ size) (axi_beat_addr a j) in
      if Z.testbit (w_strb w) i then cont <= word + i < cont + 2 ^ size
      else lane_byte (w_data w) i = 0.
    Proof.
      destruct (bus_ok_facts _ _ HG) as (q & p & Hnb & Hq & HL & Hp & Hs & HL0).
      intros Hin Hj Hi. cbn zeta.
      destruct (og_gen_in c A len size INCR sd id p Hnb Hp D wu _ 0 _ ltac:(lia) Hin) as (k & Hk & E).
      injection E as -> ->. unfold zlen in Hj. rewrite og_beats_length in Hj.
      pose proof (og_bl_range c A len size INCR p Hnb Hp k Hk) as (Hb1 & Hb2).
      unfold znth. destruct (og_beats_nth c A len size D wu (Z.to_nat (og_bl c A len size INCR k)) k (Z.to_nat j)
        {| w_data := 0; w_strb := 0; w_last := false; w_user := 0 |} ltac:(lia)) as (last & ->).
      rewrite Z2Nat.id by lia.
      pose proof (og_w_lanes c A len size q p Hnb Hq HL Hp HA Hlen D wu HD HDlen (k + j) last i ltac:(lia) Hi) as Hw.
      destruct (Z.testbit _ i); [|exact Hw].
      assert (Hcont : down (2 ^ size) (axi_beat_addr (og_ax c A len size INCR sd id k) j) = ba (k + j)).
      { destruct (og_bl_4k c A len size INCR p Hnb Hp k Hk ltac:(discriminate)) as (g & _ & Hcur & _).
        assert (Hd : down (2 ^ size) (og_cur A size INCR k) = ba k).
        { unfold og_ba in Hcur |- *.
          pose proof (down_within (2 ^ size) 1 (u + k) _ Hnb ltac:(lia) Hcur) as Hd.
          rewrite Z.mul_1_r, Z.div_1_r in Hd. exact Hd. }
        unfold axi_beat_addr. cbn [og_ax ax_burst ax_addr ax_size].
        destruct (Z.eqb_spec j 0) as [->|Hne].
        - now rewrite Z.add_0_r.
        - rewrite Hd. unfold og_ba.
          replace (2 ^ size * (u + k) + j * 2 ^ size) with (2 ^ size * (u + k + j)) by ring.
          rewrite down_mul. f_equal. lia. }
      rewrite Hcont.
      rewrite (og_word c A len size INCR sd id q p) by (auto; lia). exact Hw.
    Qed.
  End WithData.

  (** ** reads *)
  Lemma op_read : master_read c id (og_rcmd A len size INCR sd) = ars.
  Proof.
    destruct (bus_ok_facts _ _ HG) as (q & p & Hnb & Hq & HL & Hp & Hs & HL0).
    now apply master_read_gen with (p := p).
  Qed.

  Lemma op_ars aw : A < 2 ^ aw -> A + len <= 2 ^ aw ->
    Forall (fun a => legal_incr L aw a /\ beats a <= Z.max (Z.min (m_mbl c) 256) 1 /\
                ax_id a = id /\ ax_size a = size /\ ax_side a = sd) ars.
  Proof.
    destruct (bus_ok_facts _ _ HG) as (q & p & Hnb & Hq & HL & Hp & Hs & HL0).
    intros Haw1 Haw2. apply Forall_forall. intros a Hin.
    destruct (og_ars_in c A len size INCR sd id p Hnb Hp _ 0 _ ltac:(lia) Hin) as (k & Hk & ->).
    pose proof (og_bl_range c A len size INCR p Hnb Hp k Hk) as (Hb1 & Hb2).
    split; [exact (og_legal c A len size INCR sd id q p Hnb Hq HL Hp HA Hlen k aw eq_refl Hs Hk Haw1 Haw2)|]. unfold beats. cbn [og_ax ax_len ax_id ax_size ax_side].
    split; [lia|]. auto.
  Qed.

  Lemma op_ars_chain : chained A ars /\
    (0 < len -> chain_end A ars = down (2 ^ size) (A + len - 1) + 2 ^ size) /\
    (len = 0 -> A mod 2 ^ size = 0 -> ars = []).
  Proof.
    destruct (bus_ok_facts _ _ HG) as (q & p & Hnb & Hq & HL & Hp & Hs & HL0).
    pose proof (og_cycles c A len size Hnb Hlen) as (HC & HC2 & HC3 & HC4).
    split; [|split].
    - exact (og_chained c A len size INCR sd id p Hnb Hp (Z.to_nat C) eq_refl 0 ltac:(lia)).
    - intros Hl. rewrite (og_chain_end c A len size INCR sd id p Hnb Hp); auto; try lia.
      + now apply (og_ba_C c).
    - intros Hl Hm. assert (C = 0) as ->; [|reflexivity]. apply HC4. split; [exact Hl|].
      pose proof (Z.div_mod A (2 ^ size) ltac:(lia)). unfold og_u. lia.
  Qed.

  (** the bus words touched lie in any word-aligned range that holds the operation *)
  Lemma op_words l h k n : l mod L = 0 -> h mod L = 0 -> l <= A < h -> A + len <= h ->
    0 <= k < C -> 0 <= n < og_bl c A len size INCR k ->
    l <= down L (axi_beat_addr (og_ax c A len size INCR sd id k) n) /\
    down L (axi_beat_addr (og_ax c A len size INCR sd id k) n) + L <= h.
  Proof.
    destruct (bus_ok_facts _ _ HG) as (q & p & Hnb & Hq & HL & Hp & Hs & HL0).
    intros Hl Hh HAl HAh Hk Hn. unfold L.
    rewrite (og_word c A len size INCR sd id q p) by (auto; lia).
    pose proof (og_bl_range c A len size INCR p Hnb Hp k Hk) as (Hb1 & Hb2).
    set (k' := k + n). assert (Hk' : 0 <= k' < C) by lia. clearbody k'.
    pose proof (og_A c A len size Hnb) as HAu.
    pose proof (og_cycles c A len size Hnb Hlen) as (HC & HC2 & HC3 & HC4). specialize (HC3 ltac:(lia)).
    pose proof (Z.mod_pos_bound (ba k') L HL0) as Hm.
    assert (Hlk : l <= lo k' /\ lo k' < h).
    { clear - HAu HC3 Hk' HAl HAh Hnb. unfold og_lo, og_ba. split; [lia|]. apply Z.max_lub_lt; [lia|].
      assert (2 ^ size * (u + k') <= 2 ^ size * (u + (C - 1))) by (apply Z.mul_le_mono_nonneg_l; lia).
      replace (2 ^ size * (u + (C - 1))) with (2 ^ size * (u + C) - 2 ^ size) in * by ring. lia. }
    pose proof (og_lo_range c A len size Hnb HA k' Hk') as Hlr.
    assert (Hsame : down (m_lanes c) (ba k') = down (m_lanes c) (lo k')).
    { rewrite HL. unfold og_ba in *. rewrite !(down_within (2 ^ size) q (u + k')); auto; lia. }
    rewrite Hsame. fold L. clear Hm. set (x := lo k') in *.
    pose proof (Z.div_mod l L ltac:(unfold L; lia)). pose proof (Z.div_mod h L ltac:(unfold L; lia)).
    pose proof (Z.div_mod x L ltac:(unfold L; lia)).
    pose proof (Z.mod_pos_bound x L ltac:(unfold L; lia)) as Hm. rewrite down_eq by (unfold L; lia).
    assert (HL0' : 0 < L) by exact HL0.
    assert (l / L <= x / L) by (apply Z.div_le_mono; lia).
    assert (L * (x / L) < L * (h / L)) by lia.
    assert (x / L < h / L) by (apply (Z.mul_lt_mono_pos_l L); auto).
    split.
    - replace l with (L * (l / L)) by lia. apply Z.mul_le_mono_nonneg_l; lia.
    - replace h with (L * (h / L)) by lia.
      replace (L * (x / L) + L) with (L * (x / L + 1)) by ring. apply Z.mul_le_mono_nonneg_l; lia.
  Qed.

  Section Answer.
    Variable g : Z -> Z.
    Hypothesis Hg : forall x, is_byte (g x).

    Definition mr_at (k : Z) : mrst :=
      {| mr_co := 2 ^ size * ((u + k) mod (L / 2 ^ size)); mr_data := map g (zrange A (lo k));
         mr_resp := OKAY; mr_user := zeros k; mr_first := k =? 0 |}.

    Lemma zeros_snoc k : 0 <= k -> zeros (k + 1) = zeros k ++ [0].
    Proof.
      intros. unfold zeros. replace (Z.to_nat (k + 1)) with (Z.to_nat k + 1)%nat by lia.
      now rewrite repeat_app.
    Qed.

    Lemma mr_beat_at k r lastk : 0 <= k < C -> r_last r = lastk -> r_resp r = OKAY -> r_user r = 0 ->
      r_data r = le_int (map g (zrange (down L (ba k)) (down L (ba k) + L))) ->
      mr_beat L A size lastk r (mr_at k) = Ok (mr_at (k + 1)).
    Proof.
      destruct (bus_ok_facts _ _ HG) as (q & p & Hnb & Hq & HL & Hp & Hs & HL0).
      assert (Hqd : L / 2 ^ size = q) by (unfold L; rewrite HL, Z.mul_comm; apply Z.div_mul; lia).
      intros Hk Hla Hre Hus Hda. unfold mr_beat. rewrite Hla, eqb_reflx, Hre, Hus, Hda.
      unfold mr_at. cbn [mr_co mr_data mr_resp mr_user mr_first]. rewrite Hqd. unfold num_bytes.
      pose proof (og_start c A len size q Hnb Hq HL k Hk) as Hst. fold L in Hst.
      rewrite Hst. f_equal.
      pose proof (og_co_next c A len size q Hnb Hq HL k) as Hco. fold L in Hco. rewrite Hco.
      pose proof (og_lo_range c A len size Hnb HA k Hk) as Hlr.
      destruct (og_mod c A size q Hnb Hq HL k (lo k) Hlr) as (Hm & Hm1 & Hm2). fold L in Hm, Hm1, Hm2.
      pose proof (og_A c A len size Hnb) as HAu.
      assert (Hsame : down L (ba k) = down L (lo k)).
      { unfold L. rewrite HL. unfold og_ba in *. rewrite !(down_within (2 ^ size) q (u + k)); auto; lia. }
      assert (Hzl : zlen (map g (zrange (down L (ba k)) (down L (ba k) + L))) = L).
      { rewrite zlen_map, zlen_zrange. unfold L. lia. }
      assert (Hdl : lo k = down L (lo k) + lo k mod L) by (unfold down; lia).
      f_equal.
      - rewrite beat_bytes_le_int; [|apply Forall_forall; intros x Hx; apply in_map_iff in Hx; destruct Hx as (y & <- & _); apply Hg|lia|rewrite Hzl; lia].
        rewrite zslice_map_zrange by lia. rewrite Hsame, <- Hdl.
        replace (down L (lo k) + (2 ^ size * ((u + k) mod q) + 2 ^ size)) with (lo (k + 1)).
        + rewrite <- map_app. f_equal. symmetry. apply zrange_split.
          clear - Hlr HAu Hnb. unfold og_lo, og_ba in Hlr |- *. replace (2 ^ size * (u + (k + 1))) with (2 ^ size * (u + k) + 2 ^ size) by ring. lia.
        + assert (lo (k + 1) = ba k + 2 ^ size); [|clear - H Hm Hdl; lia].
          clear - Hlr HAu Hnb. unfold og_lo, og_ba in Hlr |- *. replace (2 ^ size * (u + (k + 1))) with (2 ^ size * (u + k) + 2 ^ size) by ring. lia.
      - now rewrite zeros_snoc by lia.
      - replace (k + 1 =? 0) with false by lia. reflexivity.
    Qed.

    (** an R beat that answers beat k of the operation *)
    Definition r_for (k : Z) (r : rch) : Prop :=
      r_resp r = OKAY /\ r_user r = 0 /\
      r_data r = le_int (map g (zrange (down L (ba k)) (down L (ba k) + L))).

    Lemma mr_burst_at m : forall k rs rest, 0 <= k -> k + Z.of_nat m <= C ->
      length rs = m ->
      (forall j, (j < m)%nat -> exists r, nth_error rs j = Some r /\ r_for (k + Z.of_nat j) r /\
                                          r_last r = Nat.eqb (S j) m) ->
      mr_burst L A size m (rs ++ rest) (mr_at k) = Some (Ok (mr_at (k + Z.of_nat m), rest)).
    Proof.
      induction m; intros k rs rest Hk Hkm Hrs HR.
      - destruct rs; [|discriminate]. cbn. now rewrite Z.add_0_r.
      - destruct rs as [|r rs]; [discriminate|]. injection Hrs as Hrs. cbn [mr_burst app].
        destruct (HR O ltac:(lia)) as (r' & E & (H1 & H2 & H3) & H4). injection E as <-.
        rewrite Z.add_0_r in H3.
        rewrite (mr_beat_at k r (Nat.eqb m 0)); auto; [|lia|].
        2:{ rewrite H4. destruct m; reflexivity. }
        rewrite (IHm (k + 1) rs rest); auto; [f_equal; f_equal; f_equal; f_equal; lia|lia|lia|].
        intros j Hj. destruct (HR (S j) ltac:(lia)) as (r' & E & Hf & Hla). exists r'.
        split; [exact E|]. replace (k + 1 + Z.of_nat j) with (k + Z.of_nat (S j)) by lia.
        split; [exact Hf|]. rewrite Hla. reflexivity.
    Qed.

    Notation answer f := (fun a => map (r_beat L (fun x => x) f a) (zrange 0 (beats a))).

    Lemma mr_bursts_at fuel : forall k, 0 <= k -> k <= C -> C - k <= Z.of_nat fuel ->
      mr_bursts L A size (bursts_of (og_ars c A len size INCR sd id fuel k))
        (flat_map (answer g) (og_ars c A len size INCR sd id fuel k)) (mr_at k) =
      Some (Ok (mr_at C, [])).
    Proof.
      destruct (bus_ok_facts _ _ HG) as (q & p & Hnb & Hq & HL & Hp & Hs & HL0).
      induction fuel; intros k Hk HkC Hf.
      - cbn. replace k with C by lia. reflexivity.
      - cbn [og_ars]. destruct (Z.ltb_spec k C).
        2:{ cbn. replace k with C by lia. reflexivity. }
        pose proof (og_bl_range c A len size INCR p Hnb Hp k ltac:(lia)) as (Hb1 & _).
        set (bl := og_bl c A len size INCR k) in *.
        cbn [bursts_of map flat_map mr_bursts]. fold (bursts_of (og_ars c A len size INCR sd id fuel (k + bl))).
        assert (Hbt : ax_len (og_ax c A len size INCR sd id k) + 1 = bl)
          by (cbn [og_ax ax_len]; fold bl; lia).
        assert (Hbt' : beats (og_ax c A len size INCR sd id k) = bl) by exact Hbt.
        rewrite Hbt, Hbt'.
        rewrite (mr_burst_at (Z.to_nat bl) k).
        + replace (k + Z.of_nat (Z.to_nat bl)) with (k + bl) by lia. apply IHfuel; lia.
        + lia.
        + lia.
        + now rewrite map_length, zrange_length, Z.sub_0_r.
        + intros j Hj. exists (r_beat L (fun x => x) g (og_ax c A len size INCR sd id k) (Z.of_nat j)).
          split.
          * rewrite nth_error_map. rewrite (nth_error_nth' _ 0) by (rewrite zrange_length; lia).
            unfold zrange. rewrite zseq_nth by lia. reflexivity.
          * unfold r_for, r_beat. cbn [r_resp r_user r_data r_last]. unfold L.
            rewrite (og_word c A len size INCR sd id q p) by (auto; lia). rewrite Hbt'.
            split; [auto|]. destruct (Nat.eqb_spec (S j) (Z.to_nat bl)); lia.
    Qed.

    Lemma op_read_resp :
      master_read_resp c (og_rcmd A len size INCR sd) (bursts_of ars)
        (flat_map (answer g) ars) =
      Some (Ok (map g (zrange A (A + len)), OKAY, zeros C, [])).
    Proof.
      destruct (bus_ok_facts _ _ HG) as (q & p & Hnb & Hq & HL & Hp & Hs & HL0).
      pose proof (og_cycles c A len size Hnb Hlen) as (HC & HC2 & HC3 & HC4).
      pose proof (og_A c A len size Hnb) as HAu.
      unfold master_read_resp. cbn [og_rcmd rc_addr rc_size rc_len].
      rewrite (og_co_0 c A len size q Hnb Hq HL). fold L.
      replace {| mr_co := 2 ^ size * ((u + 0) mod q); mr_data := []; mr_resp := OKAY; mr_user := []; mr_first := true |}
        with (mr_at 0).
      2:{ unfold mr_at. assert (L / 2 ^ size = q) as -> by (unfold L; rewrite HL, Z.mul_comm; apply Z.div_mul; lia).
          rewrite zrange_empty; [reflexivity|]. unfold og_lo, og_ba. rewrite Z.add_0_r. lia. }
      rewrite mr_bursts_at by lia. unfold mr_at. cbn [mr_data mr_resp mr_user].
      do 5 f_equal.
      replace (zrange A (lo C)) with (zrange A (A + (lo C - A))) by (f_equal; lia).
      rewrite zslice_map_zrange by (unfold og_lo, og_ba; lia). now rewrite Z.add_0_r.
    Qed.
  End Answer.
End Op.
