(** C89: what AxiMaster.read makes of the R beats. *)
From Coq Require Import ZArith Lia List Bool.
From Coq Require Import ZifyBool ZifyNat.
From Verif Require Import Py S_flat M_axi S_axi P_axi P_axislave P_axiop M_liteeng M_axieng P_axiread P_readany.
Import ListNotations.
Open Scope Z_scope.

Lemma lane_byte_land d i : 0 <= i -> Z.land (Z.shiftr d (i * 8)) 255 = lane_byte d i.
Proof.
  intros Hi. unfold lane_byte. change 255 with (Z.ones 8). rewrite Z.land_ones by lia.
  rewrite Z.shiftr_div_pow2 by lia. rewrite Z.mul_comm, Z.pow_mul_r by lia. reflexivity.
Qed.

(** A read of any burst type, beat size, address and length, and any R beats, with any data on the
    lanes that are not addressed and any responses.
    As long as beats are missing, the read waits.  The first beat whose [rlast] is not what it should
    be, true on the last beat of each burst and false elsewhere, fails an assertion.  Otherwise the
    byte of address [x] is the one on lane [x mod L] of the beat of its [2^size] byte container,
    counted from the container of the start address; the response is the last one that is not OKAY;
    there is one user value per beat; and the beats after those of the read are left alone. *)
Theorem C89_read_data : forall c id cmd rs r0,
  bus_ok (m_lanes c) (rc_size cmd) -> 0 <= rc_addr cmd -> 0 <= rc_len cmd ->
  let L := m_lanes c in
  let A := rc_addr cmd in
  let nb := 2 ^ rc_size cmd in
  let ars := master_read c id cmd in
  let want := flat_map (fun a => repeat false (Z.to_nat (ax_len a)) ++ [true]) ars in
  let n := length want in
  master_read_resp c cmd (bursts_of ars) rs =
    match as_expected want (map r_last rs) with
    | None => None
    | Some false => Some (Err AssertionError)
    | Some true =>
        Some (Ok (map (fun x => lane_byte (r_data (nth (Z.to_nat (x / nb - A / nb)) rs r0)) (x mod L))
                    (zrange A (A + rc_len cmd)),
                  fold_left (fun acc r => match r with OKAY => acc | _ => r end) (map r_resp (firstn n rs)) OKAY,
                  map r_user (firstn n rs), skipn n rs))
    end /\
  (forall x, A <= x < A + rc_len cmd -> 0 <= x / nb - A / nb < Z.of_nat n).
Proof.
  intros c id [A len bt size sd] rs r0 HG HA Hlen L A' nb ars want n.
  unfold rc_addr, rc_len, rc_size in *. subst A'.
  change {| rc_addr := A; rc_len := len; rc_burst := bt; rc_size := size; rc_side := sd |} with (og_rcmd A len size bt sd) in *.
  destruct (bus_ok_facts _ _ HG) as (q & p & Hnb & Hq & HL & Hp & Hs & HL0).
  set (C := og_C A len size) in *.
  assert (Hars : ars = og_ars c A len size bt sd id (Z.to_nat C) 0)
    by exact (master_read_gen c A len size bt sd id p Hnb Hp Hlen).
  clearbody ars.
  pose proof (og_cycles c A len size Hnb Hlen) as (HC & HC2 & _ & _). fold C in HC, HC2.
  assert (Hn : n = Z.to_nat C).
  { unfold n, want. change (length (flat_map r_epat ars) = Z.to_nat C). rewrite Hars.
    rewrite (ra_epat_len c A len size bt sd id HG) by (fold C; lia). f_equal. fold C. lia. }
  split.
  2:{ intros x Hx. rewrite Hn, Z2Nat.id by lia. fold nb in Hnb, HC2. unfold og_u in HC2. fold nb in HC2.
      split; [pose proof (Z.div_le_mono A x nb Hnb ltac:(lia)); lia|].
      assert (x / nb < A / nb + C); [|lia]. apply Z.div_lt_upper_bound; lia. }
  assert (Hpat : flat_map (fun b => pat_of (Z.to_nat b)) (bursts_of ars) = want).
  { unfold want, bursts_of. rewrite !flat_map_concat_map, map_map. f_equal. apply map_ext_in. intros a Ha.
    assert (Hal : 0 <= ax_len a).
    { rewrite Hars in Ha. destruct (og_ars_in c A len size bt sd id p Hnb Hp _ 0 a ltac:(lia) Ha) as (k & Hk & ->).
      pose proof (og_bl_range c A len size bt p Hnb Hp k Hk). cbn [og_ax ax_len]. lia. }
    rewrite pat_of_eq by lia. do 2 f_equal. lia. }
  destruct (mr_bursts_pat L A size (bursts_of ars) rs
     {| mr_co := aligned_addr A size - word_addr L A;
        mr_data := []; mr_resp := OKAY; mr_user := []; mr_first := true |}) as [H1 H2].
  rewrite Hpat in H1.
  destruct (as_expected want (map r_last rs)) as [[|]|] eqn:E.
  - destruct (as_expected_true _ _ E) as (tl & Htl).
    unfold want in Htl. rewrite Hars in Htl. destruct (ra_read c A len size bt sd id HG HA Hlen rs r0 tl Htl) as (_ & HR).
    fold C in HR. rewrite <- Hars in HR. rewrite HR, Hn. do 4 f_equal. f_equal.
    + apply map_ext_in. intros x Hx. unfold lane_of. rewrite lane_byte_land by (apply Z.mod_pos_bound; exact HL0). reflexivity.
    + generalize (map r_resp (firstn (Z.to_nat C) rs)) as l. generalize OKAY as a.
      intros a l. revert a. induction l as [|r l IH]; intros a; [reflexivity|]. cbn [fold_left]. rewrite IH. f_equal.
      now destruct r.
  - unfold master_read_resp. cbn [og_rcmd rc_addr rc_size rc_len].
    fold L. destruct (mr_bursts L A size _ rs _) as [[[st rs']|e]|]; try discriminate. now rewrite (H2 e eq_refl).
  - unfold master_read_resp. cbn [og_rcmd rc_addr rc_size rc_len].
    fold L. destruct (mr_bursts L A size _ rs _) as [[[st rs']|e]|]; try discriminate. reflexivity.
Qed.
Print Assumptions C89_read_data.

(** two byte beats from address 5 on a four byte bus, FIXED; lanes that are not addressed carry 238 *)
Definition ra_cmd : rcmd :=
  {| rc_addr := 5; rc_len := 4; rc_burst := FIXED; rc_size := 1;
     rc_side := {| s_lock := 0; s_cache := 3; s_prot := 2; s_qos := 0; s_region := 0; s_user := 0 |} |}.
Definition ra_beat (d : list Z) (r : resp_t) (l : bool) (us : Z) : rch :=
  {| r_id := 0; r_data := le_int d; r_resp := r; r_last := l; r_user := us |}.

Example C89_nontrivial :
  let c := {| m_lanes := 4; m_mbl := 256 |} in
  let bl := bursts_of (master_read c 0 ra_cmd) in
  let x := ra_beat [238; 1; 238; 238] OKAY false 7 in
  let y := ra_beat [238; 238; 2; 3] SLVERR false 8 in
  let z := ra_beat [4; 238; 238; 238] OKAY true 9 in
  map (master_read_resp c ra_cmd bl) [[x; y; z; x]; [x; y]; [x; z; y]] =
  [Some (Ok ([1; 2; 3; 4], SLVERR, [7; 8; 9], [x])); None; Some (Err AssertionError)].
Proof. vm_compute. reflexivity. Qed.
