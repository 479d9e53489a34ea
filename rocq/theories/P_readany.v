(** What the AXI master makes of the R beats of a read of any burst type: their data, their responses,
    and what it does when [rlast] is not where it is expected. *)
From Coq Require Import ZArith Lia List Bool.
From Coq Require Import ZifyBool ZifyNat.
From Verif Require Import Py S_flat M_axi S_axi P_axi P_axislave P_axiop M_liteeng M_axieng P_axiread.
Import ListNotations.
Open Scope Z_scope.

Section Any.
  Variables (c : mcfg) (A len size : Z) (bt : burst_t) (sd : side) (id : Z).
  Hypothesis HG : bus_ok (m_lanes c) size.
  Hypothesis HA : 0 <= A.
  Hypothesis Hlen : 0 <= len.
  Notation L := (m_lanes c).

  Notation C := (og_C A len size).
  Notation ars := (og_ars c A len size bt sd id (Z.to_nat C) 0).
  Notation lo := (og_lo A size).
  Notation u := (og_u A size).

  Variable rs : list rch.
  Variable r0 : rch.
  Notation mrgs := (mrg c A size rs r0).

  Lemma ra_bursts tl fuel : forall k, 0 <= k -> k <= C -> C - k <= Z.of_nat fuel ->
    map r_last (skipn (Z.to_nat k) rs) = flat_map r_epat (og_ars c A len size bt sd id fuel k) ++ tl ->
    mr_bursts L A size (bursts_of (og_ars c A len size bt sd id fuel k)) (skipn (Z.to_nat k) rs) (mrgs k) =
    Some (Ok (mrgs C, skipn (Z.to_nat C) rs)).
  Proof.
    destruct (bus_ok_facts _ _ HG) as (q & p & Hnb & Hq & HL & Hp & Hs & HL0).
    induction fuel; intros k Hk HkC Hf Hl.
    - cbn. replace k with C by lia. reflexivity.
    - cbn [og_ars] in *. destruct (Z.ltb_spec k C).
      2:{ cbn. replace k with C by lia. reflexivity. }
      pose proof (og_bl_range c A len size bt p Hnb Hp k ltac:(lia)) as (Hb1 & Hb2).
      set (bl := og_bl c A len size bt k) in *.
      cbn [bursts_of map mr_bursts]. fold (bursts_of (og_ars c A len size bt sd id fuel (k + bl))).
      assert (Hbt : ax_len (og_ax c A len size bt sd id k) + 1 = bl) by (cbn [og_ax ax_len]; fold bl; lia).
      rewrite Hbt. cbn [flat_map] in Hl. unfold r_epat at 1 in Hl. rewrite <- app_assoc in Hl.
      replace (Z.to_nat (ax_len (og_ax c A len size bt sd id k))) with (pred (Z.to_nat bl)) in Hl by lia.
      set (m := Z.to_nat bl) in *.
      assert (Hmb : (0 < m)%nat /\ bl = Z.of_nat m) by (unfold m; lia). destruct Hmb as [Hm Hmb].
      assert (Hlen1 : length (repeat false (pred m) ++ [true]) = m) by (rewrite app_length, repeat_length; cbn; lia).
      rewrite (mrg_burst c A len size HG HA rs r0 m k); [|lia|lia|].
      + rewrite <- Hmb. apply IHfuel; [lia|lia|lia|].
        replace (Z.to_nat (k + bl)) with (m + Z.to_nat k)%nat by lia.
        rewrite <- skipn_plus, <- skipn_map, Hl, skipn_app, Hlen1, Nat.sub_diag.
        rewrite skipn_all2 by lia. reflexivity.
      + intros j Hj. assert (Hn : nth_error (map r_last (skipn (Z.to_nat k) rs)) j = Some (Nat.eqb (S j) m)).
        { rewrite Hl, nth_error_app1 by lia. destruct (Nat.eqb_spec (S j) m) as [He|He].
          - rewrite nth_error_app2 by (rewrite repeat_length; lia). rewrite repeat_length. replace (j - pred m)%nat with 0%nat by lia. reflexivity.
          - rewrite nth_error_app1 by (rewrite repeat_length; lia).
            rewrite (nth_error_nth' _ false) by (rewrite repeat_length; lia). now rewrite nth_repeat. }
        rewrite nth_error_map in Hn. destruct (nth_error (skipn (Z.to_nat k) rs) j) as [r|] eqn:E; [|discriminate]. cbn in Hn. injection Hn as Hn.
        exists r. split; [|exact Hn]. rewrite <- E. clear. generalize (Z.to_nat k) as n. intros n. revert rs. induction n as [|n IH]; intros [|x l]; cbn; auto. now destruct j.
  Qed.


  Lemma ra_epat_len fuel : forall k, 0 <= k <= C -> C - k <= Z.of_nat fuel ->
    length (flat_map r_epat (og_ars c A len size bt sd id fuel k)) = Z.to_nat (C - k).
  Proof.
    destruct (bus_ok_facts _ _ HG) as (q & p & Hnb & Hq & HL & Hp & Hs & HL0).
    induction fuel; intros k Hk Hf; cbn [og_ars]; [cbn; lia|]. destruct (Z.ltb_spec k C); [|cbn; lia].
    pose proof (og_bl_range c A len size bt p Hnb Hp k ltac:(lia)) as (Hb1 & Hb2). cbn [flat_map]. rewrite app_length, IHfuel by lia.
    unfold r_epat. rewrite app_length, repeat_length. cbn [og_ax ax_len length]. lia.
  Qed.

  Lemma ra_read tl : map r_last rs = flat_map r_epat ars ++ tl ->
    (Z.to_nat C <= length rs)%nat /\
    master_read_resp c (og_rcmd A len size bt sd) (bursts_of ars) rs =
      Some (Ok (map (lane_of c A size rs r0) (zrange A (A + len)),
                fold_left agg_resp (map r_resp (firstn (Z.to_nat C) rs)) OKAY,
                map r_user (firstn (Z.to_nat C) rs), skipn (Z.to_nat C) rs)).
  Proof.
    destruct (bus_ok_facts _ _ HG) as (q & p & Hnb & Hq & HL & Hp & Hs & HL0).
    pose proof (og_cycles c A len size Hnb Hlen) as (HC & HC2 & HC3 & HC4).
    pose proof (og_A c A len size Hnb) as HAu. intros Hl.
    assert (Hln : (Z.to_nat C <= length rs)%nat).
    { rewrite <- (map_length r_last rs), Hl, app_length, ra_epat_len by lia. lia. }
    split; [exact Hln|].
    unfold master_read_resp. cbn [og_rcmd rc_addr rc_size rc_len].
    rewrite (og_co_0 c A len size q Hnb Hq HL).
    replace {| mr_co := 2 ^ size * ((u + 0) mod q); mr_data := []; mr_resp := OKAY; mr_user := []; mr_first := true |}
      with (mrgs 0).
    2:{ unfold mrg. assert (L / 2 ^ size = q) as -> by (rewrite HL, Z.mul_comm; apply Z.div_mul; lia).
        rewrite zrange_empty; [reflexivity|]. unfold og_lo, og_ba. rewrite Z.add_0_r. lia. }
    pose proof (ra_bursts tl (Z.to_nat C) 0 ltac:(lia) ltac:(lia) ltac:(lia) Hl) as HB. cbn [skipn Z.to_nat] in HB. rewrite HB.
    unfold mrg. cbn [mr_data mr_resp mr_user].
    do 5 f_equal.
    replace (zrange A (lo C)) with (zrange A (A + (lo C - A))) by (f_equal; lia).
    rewrite zslice_map_zrange by (unfold og_lo, og_ba; lia). now rewrite Z.add_0_r.
  Qed.
End Any.

(** ** [rlast] *)

(** the expected [rlast] values against those that came: [None] some are still to come, [Some true]
    all as expected, [Some false] one differs *)
Fixpoint as_expected (want got : list bool) : option bool :=
  match want, got with
  | [], _ => Some true
  | _, [] => None
  | w :: want', g :: got' => if Bool.eqb g w then as_expected want' got' else Some false
  end.

Fixpoint pat_of (m : nat) : list bool :=
  match m with O => [] | S m' => Nat.eqb m' 0 :: pat_of m' end.

Lemma pat_of_eq m : (0 < m)%nat -> pat_of m = repeat false (pred m) ++ [true].
Proof.
  induction m as [|[|m] IH]; intros H; [lia|reflexivity|]. cbn [pat_of pred repeat app] in *.
  rewrite IH by lia. reflexivity.
Qed.

Lemma mr_burst_pat lanes addr size P m : forall rs st,
  as_expected (pat_of m ++ P) (map r_last rs) =
  match mr_burst lanes addr size m rs st with
  | None => None | Some (Err _) => Some false
  | Some (Ok (_, rs')) => as_expected P (map r_last rs')
  end /\
  (forall e, mr_burst lanes addr size m rs st = Some (Err e) -> e = AssertionError).
Proof.
  induction m as [|m IH]; intros rs st; cbn [pat_of mr_burst app]; [split; [reflexivity|discriminate]|].
  destruct rs as [|r rs]; [split; [reflexivity|discriminate]|].
  cbn [map as_expected]. unfold mr_beat. destruct (Bool.eqb (r_last r) (Nat.eqb m 0)).
  - apply IH.
  - split; [reflexivity|]. intros e H. now injection H as <-.
Qed.

Lemma mr_bursts_pat lanes addr size bl : forall rs st,
  as_expected (flat_map (fun b => pat_of (Z.to_nat b)) bl) (map r_last rs) =
  match mr_bursts lanes addr size bl rs st with
  | None => None | Some (Err _) => Some false | Some (Ok _) => Some true
  end /\
  (forall e, mr_bursts lanes addr size bl rs st = Some (Err e) -> e = AssertionError).
Proof.
  induction bl as [|b bl IH]; intros rs st; cbn [flat_map mr_bursts].
  - split; [now destruct (map r_last rs)|discriminate].
  - destruct (mr_burst_pat lanes addr size (flat_map (fun b => pat_of (Z.to_nat b)) bl) (Z.to_nat b) rs st) as [H1 H2].
    rewrite H1. destruct (mr_burst lanes addr size (Z.to_nat b) rs st) as [[[st' rs']|e]|].
    + apply IH.
    + split; [reflexivity|exact H2].
    + split; [reflexivity|discriminate].
Qed.

Lemma as_expected_true want : forall got, as_expected want got = Some true -> exists tl, got = want ++ tl.
Proof.
  induction want as [|w want IH]; intros got H; [now exists got|].
  destruct got as [|g got]; [discriminate|]. cbn in H. destruct (Bool.eqb g w) eqn:E; [|discriminate].
  apply eqb_prop in E. subst g. destruct (IH _ H) as (tl & ->). now exists tl.
Qed.
