(** C26, every beat size and alignment: where the bytes of a FIXED write go. *)
From Coq Require Import ZArith Lia List Bool.
From Coq Require Import ZifyBool ZifyNat.
From Verif Require Import Py S_flat M_axi S_axi P_axi P_axislave P_axiop P_axicomp P_fixed.
Import ListNotations.
Open Scope Z_scope.

(** A FIXED write of any legal beat size, to any address: all bursts name the start address, and byte
    [i] of the data is strobed in the bus word of the start address, on the byte lane that address
    [A + i] would have in an INCR write. *)
Theorem C26_fixed_write_exact : forall c id A size sd D wu,
  bus_ok (m_lanes c) size -> 0 <= A -> are_bytes D ->
  let cmd := {| wc_addr := A; wc_data := D; wc_burst := FIXED; wc_size := size; wc_side := sd; wc_wuser := wu |} in
  let evs := fst (master_write c id cmd) in
  let L := m_lanes c in
  snd (master_write c id cmd) = Ok tt /\
  exists bursts, pair_bursts (aw_of evs) (w_of evs) = Some bursts /\
    Forall (fun b => ax_burst (fst b) = FIXED /\ ax_addr (fst b) = A /\ ax_size (fst b) = size /\
              last_ok (snd b)) bursts /\
    all_bytes L bursts = map (fun p => (A - A mod L + fst p mod L, snd p)) (addressed A D).
Proof. intros c id A size sd D wu H1 H2 H3. exact (fixany_write c A size sd id D wu H1 H2 H3). Qed.
Print Assumptions C26_fixed_write_exact.

Lemma in_addressed_fst A D x : In x (map fst (addressed A D)) <-> A <= x < A + zlen D.
Proof.
  revert A. induction D as [|d D IH]; intros A.
  - rewrite addressed_nil. change (zlen (@nil Z)) with 0. cbn [map In]. lia.
  - rewrite (addressed_app A [d] D : addressed A (d :: D) = _). rewrite map_app, in_app_iff, IH.
    change (zlen [d]) with 1. rewrite zlen_cons. pose proof (zlen_nonneg D).
    unfold addressed at 1. change (zlen [d]) with 1. rewrite zrange_cons by lia.
    rewrite zrange_empty by lia. cbn [combine map fst In]. lia.
Qed.

(** So a FIXED write keeps within the [2^size] bytes that its beats address exactly when the beats
    are as wide as the bus or all the data fits in one beat. *)
Theorem C26_fixed_write_correct_iff : forall c id A size sd D wu,
  bus_ok (m_lanes c) size -> 0 <= A -> are_bytes D ->
  let cmd := {| wc_addr := A; wc_data := D; wc_burst := FIXED; wc_size := size; wc_side := sd; wc_wuser := wu |} in
  let evs := fst (master_write c id cmd) in
  let base := A - A mod 2 ^ size in
  exists bursts, pair_bursts (aw_of evs) (w_of evs) = Some bursts /\
    (Forall (fun p => base <= fst p < base + 2 ^ size) (all_bytes (m_lanes c) bursts) <->
     m_lanes c = 2 ^ size \/ A + zlen D <= base + 2 ^ size).
Proof.
  intros c id A size sd D wu HG HA HD cmd evs base.
  destruct (C26_fixed_write_exact c id A size sd D wu HG HA HD) as (_ & bursts & Hp & _ & Hb).
  exists bursts. split; [exact Hp|]. rewrite Hb. clear Hb Hp bursts evs cmd.
  destruct (bus_ok_facts _ _ HG) as (q & p & Hnb & Hq & HL & _ & _ & HL0).
  set (L := m_lanes c) in *. set (nb := 2 ^ size) in *.
  pose proof (Z.div_mod A nb ltac:(lia)) as HdA. pose proof (Z.mod_pos_bound A nb Hnb) as HmA.
  pose proof (Z.div_mod A L ltac:(lia)) as HdL. pose proof (Z.mod_pos_bound A L HL0) as HmL.
  assert (Hbase : base = nb * (A / nb)) by (unfold base; lia).
  rewrite Forall_map, Forall_forall. cbn [fst]. split.
  - intros H. destruct (Z.le_gt_cases (A + zlen D) (base + nb)) as [|Hgt]; [now right|]. left.
    assert (Hin : In (base + nb) (map fst (addressed A D))) by (apply in_addressed_fst; lia).
    apply in_map_iff in Hin. destruct Hin as ([x b] & Hx & Hin). cbn in Hx. subst x.
    specialize (H _ Hin). cbn [fst] in H.
    assert (Hm : (base + nb) mod L = nb * ((A / nb + 1) mod q)).
    { rewrite Hbase, HL. replace (nb * (A / nb) + nb) with (nb * (A / nb + 1)) by ring.
      apply Z.mul_mod_distr_l; lia. }
    assert (HmAq : A - A mod L = nb * (q * (A / nb / q))).
    { rewrite Z.div_div by lia. rewrite <- HL.
      transitivity (L * (A / L)); [lia|]. rewrite HL at 1. ring. }
    rewrite Hm, HmAq in H. pose proof (Z.div_mod (A / nb) q ltac:(lia)) as Hdq.
    pose proof (Z.mod_pos_bound (A / nb) q Hq) as Hmq.
    set (u := A / nb) in *. set (v := u / q) in *. set (r := u mod q) in *.
    assert (Hr : (u + 1) mod q = if r + 1 =? q then 0 else r + 1).
    { rewrite Hdq. replace (q * v + r + 1) with (r + 1 + v * q) by ring. rewrite Z_mod_plus_full.
      destruct (Z.eqb_spec (r + 1) q) as [->|]; [apply Z_mod_same_full|apply Z.mod_small; lia]. }
    rewrite Hr, Hbase in H. destruct (Z.eqb_spec (r + 1) q) as [Hrq|Hrq].
    + destruct H as (H & _). rewrite Hdq in H. assert (r = 0) by nia. subst L. rewrite HL. nia.
    + destruct H as (_ & H). rewrite Hdq in H. exfalso. nia.
  - intros H [x b] Hin. cbn [fst].
    assert (Hx : A <= x < A + zlen D)
      by (apply in_addressed_fst; apply in_map_iff; exists (x, b); auto).
    pose proof (Z.mod_pos_bound x L HL0) as Hxm.
    destruct H as [H|H]; [unfold base; rewrite <- H; lia|].
    pose proof (Z.div_mod x L ltac:(lia)) as Hdx.
    assert (Hq2 : x / L = A / L).
    { rewrite HL. rewrite <- !Z.div_div by lia. f_equal. symmetry.
      apply (Z.div_unique x nb (A / nb) (x - nb * (A / nb))); lia. }
    rewrite Hq2 in Hdx. lia.
Qed.
Print Assumptions C26_fixed_write_correct_iff.

(** two byte beats at address 5 of a four byte bus: lane 1, then lanes 2-3, then lanes 0-1 *)
Example C26_exact_nontrivial :
  let evs := fst (master_write {| m_lanes := 4; m_mbl := 256 |} 0
    {| wc_addr := 5; wc_data := [1;2;3;4;5]; wc_burst := FIXED; wc_size := 1; wc_side := {| s_lock := 0; s_cache := 3; s_prot := 2; s_qos := 0; s_region := 0; s_user := 0 |};
       wc_wuser := WInt 0 |}) in
  option_map (all_bytes 4) (pair_bursts (aw_of evs) (w_of evs)) = Some [(5,1);(6,2);(7,3);(4,4);(5,5)].
Proof. vm_compute. reflexivity. Qed.
