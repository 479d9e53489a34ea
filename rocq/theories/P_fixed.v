(** FIXED bursts of any beat size and alignment: every byte lands in the bus word of the start
    address, in the lane of its own (incrementing) address. *)
From Coq Require Import ZArith Lia List Bool.
From Coq Require Import ZifyBool ZifyNat.
From Verif Require Import Py S_flat M_axi S_axi P_axi P_axislave P_axiop P_axicomp.
Import ListNotations.
Open Scope Z_scope.

(** the byte lane of an address, moved to the bus word [word] *)
Definition into_word (L word : Z) (p : Z * Z) : Z * Z := (word + fst p mod L, snd p).

Lemma strobed_into L w0 x w : 0 < L ->
  strobed L w0 w = map (into_word L w0) (strobed L (down L x) w).
Proof.
  intros HL. unfold strobed. rewrite map_map. apply map_ext_in. intros i Hi.
  apply filter_In in Hi. destruct Hi as (Hi & _). apply in_zrange in Hi.
  unfold into_word. cbn [fst snd]. f_equal. f_equal.
  rewrite down_eq by lia. rewrite (Z.mul_comm L (x / L)), Z.add_comm, Z_mod_plus_full.
  symmetry. apply Z.mod_small. lia.
Qed.

Section FixedAny.
  Variables (c : mcfg) (A size : Z) (sd : side) (id : Z) (D : list Z) (wu : wuser_t).
  Let L := m_lanes c.
  Let len := zlen D.
  Hypothesis HG : bus_ok (m_lanes c) size.
  Hypothesis HA : 0 <= A.
  Hypothesis HD : are_bytes D.

  Notation C := (og_C A len size).
  Notation gen := (og_gen c A len size FIXED sd id D wu).
  Notation off := (og_off A len size).
  Notation into := (into_word L (down L A)).

  Lemma fixany_chunk k last : 0 <= k < C ->
    strobed L (down L A) (og_w c A len size D wu k last) =
    map into (addressed (A + off k) (zslice D (off k) (off (k + 1)))).
  Proof.
    destruct (bus_ok_facts _ _ HG) as (q & p & Hnb & Hq & HL & Hp & Hs & HL0).
    assert (Hlen : 0 <= len) by apply zlen_nonneg.
    intros Hk. rewrite (strobed_into L (down L A) (og_ba A size k)) by (unfold L; lia).
    f_equal. exact (og_strobed c A len size q p Hnb Hq HL Hp HA Hlen D wu HD eq_refl k last Hk).
  Qed.

  Lemma fixany_burst k0 : 0 <= k0 -> forall m n, 0 <= n -> k0 + n + Z.of_nat m <= C ->
    burst_bytes L (og_ax c A len size FIXED sd id k0) n (og_beats c A len size D wu (k0 + n) m) =
    map into (addressed (A + off (k0 + n)) (zslice D (off (k0 + n)) (off (k0 + n + Z.of_nat m)))).
  Proof.
    destruct (bus_ok_facts _ _ HG) as (q & p & Hnb & Hq & HL & Hp & Hs & HL0).
    assert (Hlen : 0 <= len) by apply zlen_nonneg.
    intros Hk0. induction m; intros n Hn Hm.
    - cbn [og_beats burst_bytes]. replace (k0 + n + Z.of_nat 0) with (k0 + n) by lia.
      rewrite zslice_empty by lia. now rewrite addressed_nil.
    - cbn [og_beats burst_bytes].
      replace (k0 + n + 1) with (k0 + (n + 1)) by lia.
      rewrite (IHm (n + 1)) by lia.
      unfold axi_beat_addr at 1. cbn [og_ax ax_burst ax_addr og_cur].
      rewrite fixany_chunk by lia. rewrite <- map_app. f_equal.
      pose proof (og_off_mono c A len size Hnb HA Hlen (k0 + n) ltac:(lia)) as Hmo.
      pose proof (og_off_mono2 c A len size Hnb HA Hlen (k0 + (n + 1)) m ltac:(lia) ltac:(lia)) as Hmo2.
      replace (k0 + (n + 1)) with (k0 + n + 1) in * by lia.
      replace (k0 + n + 1 + Z.of_nat m) with (k0 + n + Z.of_nat (S m)) in * by lia.
      rewrite (zslice_split D (off (k0 + n)) (off (k0 + n + 1)) (off (k0 + n + Z.of_nat (S m)))) by lia.
      rewrite addressed_app, zslice_length by (fold len; lia).
      match goal with |- _ = _ ++ addressed ?a _ => match goal with |- _ ++ addressed ?b _ = _ =>
        replace a with b by lia end end. reflexivity.
  Qed.

  Lemma fixany_gen fuel : forall k, 0 <= k <= C -> C - k <= Z.of_nat fuel ->
    all_bytes L (gen fuel k) = map into (addressed (A + off k) (zslice D (off k) len)).
  Proof.
    destruct (bus_ok_facts _ _ HG) as (q & p & Hnb & Hq & HL & Hp & Hs & HL0).
    assert (Hlen : 0 <= len) by apply zlen_nonneg.
    induction fuel; intros k Hk Hf; cbn [og_gen].
    - replace k with C by lia. rewrite (og_off_C c A len size Hnb Hlen), zslice_empty by lia. now rewrite addressed_nil.
    - destruct (Z.ltb_spec k C).
      2:{ replace k with C by lia. rewrite (og_off_C c A len size Hnb Hlen), zslice_empty by lia. now rewrite addressed_nil. }
      pose proof (og_bl_range c A len size FIXED p Hnb Hp k ltac:(lia)) as (Hb1 & _).
      unfold all_bytes. cbn [flat_map fst snd].
      fold (all_bytes L (gen fuel (k + og_bl c A len size FIXED k))).
      pose proof (fixany_burst k ltac:(lia) (Z.to_nat (og_bl c A len size FIXED k)) 0 ltac:(lia) ltac:(lia)) as HB.
      rewrite Z.add_0_r, Z2Nat.id in HB by lia. rewrite HB. rewrite IHfuel by lia.
      rewrite <- map_app. f_equal.
      pose proof (og_off_mono2 c A len size Hnb HA Hlen k (Z.to_nat (og_bl c A len size FIXED k)) ltac:(lia) ltac:(lia)) as Hmo.
      rewrite Z2Nat.id in Hmo by lia.
      rewrite (zslice_split D (off k) (off (k + og_bl c A len size FIXED k)) len) by lia.
      rewrite addressed_app, zslice_length by (fold len; lia).
      match goal with |- _ = _ ++ addressed ?a _ => match goal with |- _ ++ addressed ?b _ = _ =>
        replace a with b by lia end end. reflexivity.
  Qed.

  Lemma fixany_write :
    let evs := fst (master_write c id (og_cmd A size FIXED sd D wu)) in
    snd (master_write c id (og_cmd A size FIXED sd D wu)) = Ok tt /\
    exists bursts, pair_bursts (aw_of evs) (w_of evs) = Some bursts /\
      Forall (fun b => ax_burst (fst b) = FIXED /\ ax_addr (fst b) = A /\ ax_size (fst b) = size /\
                last_ok (snd b)) bursts /\
      all_bytes L bursts = map into (addressed A D).
  Proof.
    destruct (bus_ok_facts _ _ HG) as (q & p & Hnb & Hq & HL & Hp & Hs & HL0).
    assert (Hlen : 0 <= len) by apply zlen_nonneg.
    rewrite (master_write_gen c A len size FIXED sd id q p) by first [assumption|reflexivity].
    cbn [fst snd]. split; [reflexivity|]. exists (gen (Z.to_nat C) 0).
    rewrite aw_of_flatten, w_of_flatten.
    pose proof (og_gen_lengths c A len size FIXED sd id p Hnb Hp D wu (Z.to_nat C) 0 ltac:(lia)) as Hlens.
    split; [apply pair_bursts_gen; exact Hlens|]. split.
    - apply Forall_forall. intros [a ws] Hin.
      destruct (og_gen_in c A len size FIXED sd id p Hnb Hp D wu _ 0 _ ltac:(lia) Hin) as (k & Hk & E).
      injection E as -> ->. cbn [fst snd og_ax ax_burst ax_addr ax_size og_cur].
      pose proof (og_bl_range c A len size FIXED p Hnb Hp k Hk) as (Hb1 & _).
      repeat (split; [reflexivity|]). apply og_beats_last. lia.
    - pose proof (og_cycles c A len size Hnb Hlen) as (HC & _).
      rewrite fixany_gen by lia. rewrite (og_off_0 c A len size Hnb Hlen). rewrite Z.add_0_r. do 2 f_equal.
      apply zslice_all. unfold len. lia.
  Qed.
End FixedAny.
