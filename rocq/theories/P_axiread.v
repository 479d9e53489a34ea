(** What the AXI master returns for a read whose R beats carry any data and any responses. *)
From Coq Require Import ZArith Lia List Bool.
From Coq Require Import ZifyBool ZifyNat.
From Verif Require Import Py S_flat M_axi S_axi P_axi P_axislave P_axiop M_liteeng M_axieng.
Import ListNotations.
Open Scope Z_scope.

Lemma skipn_nth {X} n : forall (l : list X) x, nth_error l n = Some x -> skipn n l = x :: skipn (S n) l.
Proof. induction n; intros [|y l] x H; try discriminate; cbn in *; [congruence|]. now apply IHn. Qed.

Lemma skipn_plus {X} a b : forall l : list X, skipn a (skipn b l) = skipn (a + b) l.
Proof.
  induction b as [|b IH]; intros l; [now rewrite Nat.add_0_r|]. rewrite Nat.add_succ_r. destruct l as [|x l]; cbn; [now destruct a|apply IH].
Qed.

Section Op.
  Variables (c : mcfg) (A len size : Z) (sd : side) (id : Z).
  Hypothesis HG : bus_ok (m_lanes c) size.
  Hypothesis HA : 0 <= A.
  Hypothesis Hlen : 0 <= len.
  Notation L := (m_lanes c).

  Notation C := (og_C A len size).
  Notation ars := (og_ars c A len size INCR sd id (Z.to_nat C) 0).
  Notation ba := (og_ba A size).
  Notation lo := (og_lo A size).
  Notation u := (og_u A size).

  Variable rs : list rch.
  Variable r0 : rch.
  (** the byte of address x, taken from the beat of its container *)
  Definition lane_of (x : Z) : Z := Z.land (Z.shiftr (r_data (nth (Z.to_nat (x / 2 ^ size - u)) rs r0)) (x mod L * 8)) 255.

  Definition mrg (k : Z) : mrst :=
    {| mr_co := 2 ^ size * ((u + k) mod (L / 2 ^ size)); mr_data := map lane_of (zrange A (lo k));
       mr_resp := fold_left agg_resp (map r_resp (firstn (Z.to_nat k) rs)) OKAY;
       mr_user := map r_user (firstn (Z.to_nat k) rs); mr_first := k =? 0 |}.

  Lemma firstn_snoc {X} n : forall (l : list X) x, nth_error l n = Some x -> firstn (S n) l = firstn n l ++ [x].
  Proof. induction n; intros [|y l] x H; try discriminate; cbn in *; [congruence|]. f_equal. now apply IHn. Qed.

  Lemma mrg_beat k r : 0 <= k < C -> nth_error rs (Z.to_nat k) = Some r ->
    mr_beat L A size (r_last r) r (mrg k) = Ok (mrg (k + 1)).
  Proof.
    destruct (bus_ok_facts _ _ HG) as (q & p & Hnb & Hq & HL & Hp & Hs & HL0).
    assert (Hqd : L / 2 ^ size = q) by (rewrite HL, Z.mul_comm; apply Z.div_mul; lia).
    intros Hk Hr. unfold mr_beat. rewrite eqb_reflx.
    unfold mrg. cbn [mr_co mr_data mr_resp mr_user mr_first]. rewrite Hqd. unfold num_bytes.
    rewrite (og_start c A len size q Hnb Hq HL k Hk). f_equal.
    rewrite (og_co_next c A len size q Hnb Hq HL k).
    pose proof (og_lo_range c A len size Hnb HA k Hk) as Hlr.
    destruct (og_mod c A size q Hnb Hq HL k (lo k) Hlr) as (Hm & Hm1 & Hm2).
    pose proof (og_A c A len size Hnb) as HAu.
    assert (Hn1 : lo (k + 1) = ba k + 2 ^ size).
    { clear - Hlr HAu Hnb. unfold og_lo, og_ba in Hlr |- *. replace (2 ^ size * (u + (k + 1))) with (2 ^ size * (u + k) + 2 ^ size) by ring. lia. }
    assert (HA0 : A <= lo k) by (unfold og_lo; lia).
    replace (Z.to_nat (k + 1)) with (S (Z.to_nat k)) by lia. rewrite (firstn_snoc _ _ _ Hr), !map_app, fold_left_app.
    f_equal; try reflexivity; [|lia].
    rewrite (zrange_split A (lo k) (lo (k + 1))) by lia. rewrite map_app. f_equal.
    unfold beat_bytes.
    assert (Hst : zrange (lo k mod L) (2 ^ size * ((u + k) mod q) + 2 ^ size) = map (fun x => x - (lo k - lo k mod L)) (zrange (lo k) (lo (k + 1)))).
    { unfold zrange. replace (2 ^ size * ((u + k) mod q) + 2 ^ size - lo k mod L) with (lo (k + 1) - lo k) by lia.
      generalize (Z.to_nat (lo (k + 1) - lo k)) as m. intros m. clear.
      assert (H : forall a b, zseq a m = map (fun x => x - (b - a)) (zseq b m)).
      { induction m as [|m IH]; intros a b; cbn [zseq map]; [reflexivity|]. f_equal; [lia|]. rewrite (IH (a + 1) (b + 1)).
        apply map_ext. intros x. lia. }
      apply H. }
    rewrite Hst, map_map. apply map_ext_in. intros x Hx. apply in_zrange in Hx.
    unfold lane_of.
    assert (Hxk : ba k <= x < ba k + 2 ^ size) by lia.
    assert (Hdiv : x / 2 ^ size = u + k).
    { unfold og_ba in Hxk. symmetry. apply (Z.div_unique x (2 ^ size) (u + k) (x - 2 ^ size * (u + k))); lia. }
    rewrite Hdiv. replace (u + k - u) with k by lia. rewrite (nth_error_nth _ _ _ Hr).
    destruct (og_mod c A size q Hnb Hq HL k x Hxk) as (Hmx & _ & _).
    do 3 f_equal. lia.
  Qed.

  Lemma mrg_burst m : forall k, 0 <= k -> k + Z.of_nat m <= C ->
    (forall j, (j < m)%nat -> exists r, nth_error rs (Z.to_nat k + j) = Some r /\ r_last r = Nat.eqb (S j) m) ->
    mr_burst L A size m (skipn (Z.to_nat k) rs) (mrg k) =
      Some (Ok (mrg (k + Z.of_nat m), skipn (Z.to_nat (k + Z.of_nat m)) rs)).
  Proof.
    induction m; intros k Hk Hkm HR.
    - cbn [mr_burst]. now rewrite Z.add_0_r.
    - cbn [mr_burst]. destruct (HR O ltac:(lia)) as (r & E & Hl). rewrite Nat.add_0_r in E. rewrite (skipn_nth _ _ _ E).
      replace (Nat.eqb m 0) with (r_last r) by (rewrite Hl; destruct m; reflexivity).
      rewrite (mrg_beat k r) by (auto; lia). replace (S (Z.to_nat k)) with (Z.to_nat (k + 1)) by lia. rewrite (IHm (k + 1)).
      + now replace (k + 1 + Z.of_nat m) with (k + Z.of_nat (S m)) by lia.
      + lia.
      + lia.
      + intros j Hj. destruct (HR (S j) ltac:(lia)) as (r' & E' & Hl'). exists r'. split; [|exact Hl'].
        replace (Z.to_nat (k + 1) + j)%nat with (Z.to_nat k + S j)%nat by lia. exact E'.
  Qed.

  Lemma mrg_bursts fuel : forall k, 0 <= k -> k <= C -> C - k <= Z.of_nat fuel ->
    map r_last (skipn (Z.to_nat k) rs) = flat_map r_epat (og_ars c A len size INCR sd id fuel k) ->
    mr_bursts L A size (bursts_of (og_ars c A len size INCR sd id fuel k)) (skipn (Z.to_nat k) rs) (mrg k) =
    Some (Ok (mrg C, [])).
  Proof.
    destruct (bus_ok_facts _ _ HG) as (q & p & Hnb & Hq & HL & Hp & Hs & HL0).
    induction fuel; intros k Hk HkC Hf Hl.
    - cbn [og_ars flat_map] in Hl. apply map_eq_nil in Hl. rewrite Hl. cbn. replace k with C by lia. reflexivity.
    - cbn [og_ars] in *. destruct (Z.ltb_spec k C).
      2:{ cbn [flat_map] in Hl. apply map_eq_nil in Hl. rewrite Hl. cbn. replace k with C by lia. reflexivity. }
      pose proof (og_bl_range c A len size INCR p Hnb Hp k ltac:(lia)) as (Hb1 & Hb2).
      set (bl := og_bl c A len size INCR k) in *.
      cbn [bursts_of map mr_bursts]. fold (bursts_of (og_ars c A len size INCR sd id fuel (k + bl))).
      assert (Hbt : ax_len (og_ax c A len size INCR sd id k) + 1 = bl) by (cbn [og_ax ax_len]; fold bl; lia).
      rewrite Hbt. cbn [flat_map] in Hl. unfold r_epat at 1 in Hl.
      replace (Z.to_nat (ax_len (og_ax c A len size INCR sd id k))) with (pred (Z.to_nat bl)) in Hl by lia.
      set (m := Z.to_nat bl) in *.
      assert (Hmb : (0 < m)%nat /\ bl = Z.of_nat m) by (unfold m; lia). destruct Hmb as [Hm Hmb].
      assert (Hlen1 : length (repeat false (pred m) ++ [true]) = m) by (rewrite app_length, repeat_length; cbn; lia).
      rewrite (mrg_burst m k); [|lia|lia|].
      + rewrite <- Hmb. apply IHfuel; [lia|lia|lia|].
        replace (Z.to_nat (k + bl)) with (m + Z.to_nat k)%nat by lia.
        rewrite <- skipn_plus, <- skipn_map, Hl, skipn_app, Hlen1, Nat.sub_diag.
        rewrite skipn_all2 by lia. reflexivity.
      + intros j Hj. assert (Hn : nth_error (map r_last (skipn (Z.to_nat k) rs)) j = Some (Nat.eqb (S j) m)).
        { rewrite Hl, nth_error_app1 by lia. destruct (Nat.eqb_spec (S j) m) as [He|He].
          - rewrite nth_error_app2 by (rewrite repeat_length; lia). rewrite repeat_length. replace (j - pred m)%nat with 0%nat by lia. reflexivity.
          - rewrite nth_error_app1 by (rewrite repeat_length; lia).
            rewrite (nth_error_nth' _ false) by (rewrite repeat_length; lia). now rewrite nth_repeat. }
        rewrite nth_error_map in Hn. destruct (nth_error (skipn (Z.to_nat k) rs) j) as [r|] eqn:E; [|discriminate]. cbn in Hn. injection Hn as Hn.
        exists r. split; [|exact Hn]. rewrite <- E. clear. generalize (Z.to_nat k) as n. intros n. revert rs. induction n as [|n IH]; intros [|x l]; cbn; auto. now destruct j.
  Qed.

  Lemma op_read_any : map r_last rs = flat_map r_epat ars ->
    length rs = Z.to_nat C /\
    exists users, master_read_resp c (og_rcmd A len size INCR sd) (bursts_of ars) rs =
      Some (Ok (map lane_of (zrange A (A + len)), fold_left agg_resp (map r_resp rs) OKAY, users, [])).
  Proof.
    destruct (bus_ok_facts _ _ HG) as (q & p & Hnb & Hq & HL & Hp & Hs & HL0).
    pose proof (og_cycles c A len size Hnb Hlen) as (HC & HC2 & HC3 & HC4).
    pose proof (og_A c A len size Hnb) as HAu. intros Hl.
    assert (Hln : length rs = Z.to_nat C).
    { rewrite <- (map_length r_last rs), Hl.
      assert (K : forall fuel k, 0 <= k <= C -> C - k <= Z.of_nat fuel -> length (flat_map r_epat (og_ars c A len size INCR sd id fuel k)) = Z.to_nat (C - k)).
      { induction fuel; intros k Hk Hf; cbn [og_ars]; [cbn; lia|]. destruct (Z.ltb_spec k C); [|cbn; lia].
        pose proof (og_bl_range c A len size INCR p Hnb Hp k ltac:(lia)) as (Hb1 & Hb2). cbn [flat_map]. rewrite app_length, IHfuel by lia.
        unfold r_epat. rewrite app_length, repeat_length. cbn [og_ax ax_len length]. lia. }
      rewrite K by lia. f_equal. lia. }
    split; [exact Hln|]. exists (map r_user rs).
    unfold master_read_resp. cbn [og_rcmd rc_addr rc_size rc_len].
    rewrite (og_co_0 c A len size q Hnb Hq HL).
    replace {| mr_co := 2 ^ size * ((u + 0) mod q); mr_data := []; mr_resp := OKAY; mr_user := []; mr_first := true |}
      with (mrg 0).
    2:{ unfold mrg. assert (L / 2 ^ size = q) as -> by (rewrite HL, Z.mul_comm; apply Z.div_mul; lia).
        rewrite zrange_empty; [reflexivity|]. unfold og_lo, og_ba. rewrite Z.add_0_r. lia. }
    pose proof (mrg_bursts (Z.to_nat C) 0 ltac:(lia) ltac:(lia) ltac:(lia) Hl) as HB. cbn [skipn Z.to_nat] in HB. rewrite HB.
    unfold mrg. cbn [mr_data mr_resp mr_user]. rewrite <- Hln, firstn_all.
    do 5 f_equal.
    replace (zrange A (lo C)) with (zrange A (A + (lo C - A))) by (f_equal; lia).
    rewrite zslice_map_zrange by (unfold og_lo, og_ba; lia). now rewrite Z.add_0_r.
  Qed.
End Op.
