(** Lemmas about the AXI master: closed form of the beats and bursts. *)
From Coq Require Import ZArith Lia List Bool.
From Coq Require Import ZifyBool ZifyNat.
From Verif Require Import Py S_flat M_axi S_axi.
Import ListNotations.
Open Scope Z_scope.

(** ** arithmetic *)
Lemma mod_within nb q u x :
  0 < nb -> 0 < q -> nb * u <= x < nb * u + nb ->
  x mod (nb * q) = nb * (u mod q) + (x - nb * u) /\
  0 <= nb * (u mod q) /\ nb * (u mod q) + nb <= nb * q.
Proof.
  intros Hn Hq Hx. pose proof (Z.mod_pos_bound u q Hq) as Hb.
  assert (nb * (u mod q) + nb <= nb * q) by nia.
  split; [|nia].
  symmetry. apply (Z.mod_unique_pos _ _ (u / q)); [nia|].
  pose proof (Z.div_mod u q). nia.
Qed.

Lemma down_within nb q u x :
  0 < nb -> 0 < q -> nb * u <= x < nb * u + nb ->
  down (nb * q) x = nb * q * (u / q).
Proof.
  intros. unfold down. destruct (mod_within nb q u x) as (-> & _); auto.
  pose proof (Z.div_mod u q). nia.
Qed.

Lemma down_mul n u : down n (n * u) = n * u.
Proof.
  unfold down. rewrite Z.mul_comm. destruct (Z.eq_dec n 0) as [->|].
  - rewrite Zmod_0_r. lia.
  - rewrite Z.mod_mul by auto. lia.
Qed.

Lemma down_eq n x : n <> 0 -> down n x = n * (x / n).
Proof. intros. unfold down. pose proof (Z.div_mod x n H). lia. Qed.

Lemma div_mul_down n x : n <> 0 -> x / n * n = down n x.
Proof. intros. rewrite down_eq by auto. lia. Qed.

Lemma land_4095 x : Z.land x 4095 = x mod 4096.
Proof. change 4095 with (Z.ones 12). rewrite Z.land_ones by lia. reflexivity. Qed.

(** ceiling division, characterised *)
Lemma ceil_spec x n : 0 < n -> 0 <= x ->
  let c := (x + n - 1) / n in n * c - n < x <= n * c /\ 0 <= c /\ (x = 0 -> c = 0) /\ (0 < x -> 0 < c).
Proof.
  intros Hn Hx c. pose proof (Z.div_mod (x + n - 1) n ltac:(lia)) as Hd.
  pose proof (Z.mod_pos_bound (x + n - 1) n Hn) as Hm. fold c in Hd.
  set (m := (x + n - 1) mod n) in *.
  assert (0 <= c) by (apply Z.div_pos; lia).
  repeat split; try lia; intros; nia.
Qed.

(** ** little-endian lemmas *)
Lemma le_int_app l m : le_int (l ++ m) = le_int l + 256 ^ zlen l * le_int m.
Proof.
  induction l as [|b l IH]; cbn [app le_int].
  - change (zlen (@nil Z)) with 0. lia.
  - rewrite IH, zlen_cons, Z.pow_add_r by (pose proof (zlen_nonneg l); lia).
    change (256 ^ 1) with 256. lia.
Qed.

Lemma lane_byte_le_bytes n x i : 0 <= i < Z.of_nat n -> znth 0 (le_bytes n x) i = lane_byte x i.
Proof.
  revert x i. induction n; intros x i Hi; [lia|]. cbn [le_bytes].
  destruct (Z.eq_dec i 0) as [->|].
  - rewrite znth_cons0. unfold lane_byte. change (256 ^ 0) with 1. now rewrite Z.div_1_r.
  - rewrite znth_cons by lia. rewrite IHn by lia. unfold lane_byte.
    rewrite Z.div_div by (try apply Z.pow_pos_nonneg; lia).
    rewrite <- (Z.pow_succ_r 256 (i - 1)) by lia. do 3 f_equal. lia.
Qed.

Lemma lane_byte_le_int l i : are_bytes l -> 0 <= i -> lane_byte (le_int l) i = znth 0 l i.
Proof.
  intros Hl Hi. destruct (Z.ltb_spec i (zlen l)).
  - rewrite <- (lane_byte_le_bytes (length l)) by (unfold zlen in *; lia).
    now rewrite le_bytes_int.
  - rewrite znth_over by lia. unfold lane_byte. pose proof (le_int_bound l Hl).
    rewrite Z.div_small; [reflexivity|].
    assert (256 ^ zlen l <= 256 ^ i) by (apply Z.pow_le_mono_r; lia). lia.
Qed.

Lemma le_int_zeros n : le_int (zeros n) = 0.
Proof. unfold zeros. induction (Z.to_nat n); cbn [repeat le_int]; [reflexivity|]. rewrite IHn0. reflexivity. Qed.

Lemma are_bytes_zeros n : are_bytes (zeros n).
Proof.
  unfold zeros, are_bytes. induction (Z.to_nat n); cbn; constructor; auto.
  unfold is_byte. lia.
Qed.

(** le_int of bytes placed at lane [s] *)
Definition placed (s : Z) (l : list Z) : Z := le_int (zeros s ++ l).

Lemma lor_add a b n : 0 <= n -> 0 <= a < 2 ^ n -> 0 <= b -> Z.lor a (Z.shiftl b n) = a + Z.shiftl b n.
Proof.
  intros Hn Ha Hb.
  assert (H : Z.land a (Z.shiftl b n) = 0).
  { apply Z.bits_inj'. intros i Hi. rewrite Z.land_spec, Z.bits_0.
    rewrite Z.shiftl_spec by auto. destruct (Z.ltb_spec i n).
    - rewrite (Z.testbit_neg_r b) by lia. apply andb_false_r.
    - replace (Z.testbit a i) with false; [reflexivity|]. symmetry.
      destruct (Z.eq_dec a 0) as [->|]; [apply Z.bits_0|].
      apply Z.bits_above_log2; [lia|]. assert (Z.log2 a < n) by (apply Z.log2_lt_pow2; lia). lia. }
  rewrite <- Z.lxor_lor by exact H. symmetry. apply Z.add_nocarry_lxor. exact H.
Qed.

Lemma mw_val_spec data : are_bytes data -> forall n s l offset,
  0 <= s -> are_bytes l -> 0 <= offset -> offset + Z.of_nat n <= zlen data ->
  mw_val data (zseq (s + zlen l) n) offset (placed s l) =
  Ok (placed s (l ++ zslice data offset (offset + Z.of_nat n)), offset + Z.of_nat n).
Proof.
  intros Hd. induction n; intros s l offset Hs Hl Ho Hle.
  - cbn [zseq mw_val]. rewrite zslice_empty by lia. rewrite app_nil_r. do 2 f_equal. lia.
  - cbn [zseq mw_val]. replace (offset <? zlen data) with true by lia.
    assert (Hz : zlen (zeros s ++ l) = s + zlen l) by (rewrite zlen_app, zeros_length by lia; reflexivity).
    pose proof (zlen_nonneg l) as Hll.
    assert (Hb : are_bytes (zeros s ++ l)).
    { apply are_bytes_app. split; [apply are_bytes_zeros|exact Hl]. }
    pose proof (le_int_bound _ Hb) as Hbd. rewrite Hz in Hbd.
    pose proof (znth_is_byte data offset Hd) as Hbyte. unfold is_byte in Hbyte.
    replace (Z.lor (placed s l) (Z.shiftl (znth 0 data offset) ((s + zlen l) * 8)))
      with (placed s (l ++ [znth 0 data offset])).
    + specialize (IHn s (l ++ [znth 0 data offset]) (offset + 1)).
      rewrite zlen_app in IHn. change (zlen [znth 0 data offset]) with 1 in IHn.
      replace (s + zlen l + 1) with (s + (zlen l + 1)) by lia.
      rewrite IHn; try lia.
      * rewrite <- app_assoc. cbn [app].
        replace (zslice data offset (offset + Z.of_nat (S n)))
          with (znth 0 data offset :: zslice data (offset + 1) (offset + 1 + Z.of_nat n)).
        { do 2 f_equal. lia. }
        rewrite (zslice_split data offset (offset + 1) (offset + Z.of_nat (S n))) by lia.
        replace (offset + 1 + Z.of_nat n) with (offset + Z.of_nat (S n)) by lia.
        replace (zslice data offset (offset + 1)) with [znth 0 data offset]; [reflexivity|].
        apply (nth_ext_z 0).
        { rewrite zslice_length by lia. change (zlen [znth 0 data offset]) with 1. lia. }
        { intros i Hi. change (zlen [znth 0 data offset]) with 1 in Hi.
          rewrite znth_zslice by lia. replace i with 0 by lia. rewrite znth_cons0. f_equal. lia. }
      * apply are_bytes_app. split; [exact Hl|]. constructor; [exact Hbyte|constructor].
    + unfold placed. rewrite app_assoc, le_int_app, Hz. cbn [le_int].
      rewrite lor_add; try lia.
      * rewrite Z.shiftl_mul_pow2 by lia. rewrite (Z.mul_comm (s + zlen l) 8), Z.pow_mul_r by lia.
        change (2 ^ 8) with 256. lia.
      * rewrite (Z.mul_comm (s + zlen l) 8), Z.pow_mul_r by lia. change (2 ^ 8) with 256. exact Hbd.
Qed.

Lemma mw_val_range data s e offset :
  are_bytes data -> 0 <= s <= e -> 0 <= offset -> offset + (e - s) <= zlen data ->
  mw_val data (zrange s e) offset 0 =
  Ok (placed s (zslice data offset (offset + (e - s))), offset + (e - s)).
Proof.
  intros. unfold zrange.
  pose proof (mw_val_spec data H (Z.to_nat (e - s)) s [] offset) as Hm.
  change (zlen (@nil Z)) with 0 in Hm. rewrite Z.add_0_r in Hm.
  replace (placed s []) with 0 in Hm.
  - rewrite Z2Nat.id in Hm by lia. cbn [app] in Hm. apply Hm; try lia. constructor.
  - unfold placed. rewrite app_nil_r. now rewrite le_int_zeros.
Qed.

(** ** strobes *)
Lemma testbit_strb_mask L i : 0 <= L -> 0 <= i -> Z.testbit (strb_mask L) i = (i <? L).
Proof.
  intros. unfold strb_mask. replace (2 ^ L - 1) with (Z.ones L).
  - rewrite Z.testbit_ones by lia. replace (0 <=? i) with true by lia. reflexivity.
  - rewrite Z.ones_equiv. lia.
Qed.

Lemma mw_strb_spec L s e : 0 <= s -> e <= L -> 0 <= L ->
  exists v, mw_strb L s e = Ok v /\
    (forall i, 0 <= i -> Z.testbit v i = (s <=? i) && (i <? e)) /\ 0 <= v < 2 ^ L.
Proof.
  intros Hs He HL. unfold mw_strb, py_shl, py_shr.
  replace (s <? 0) with false by lia. replace (L - e <? 0) with false by lia. cbn [bind].
  eexists. split; [reflexivity|].
  assert (Hbits : forall i, 0 <= i ->
    Z.testbit (Z.land (Z.land (Z.shiftl (strb_mask L) s) (strb_mask L))
      (Z.shiftr (strb_mask L) (L - e))) i = (s <=? i) && (i <? e)).
  { intros i Hi. rewrite !Z.land_spec, Z.shiftl_spec, Z.shiftr_spec by auto.
    rewrite (testbit_strb_mask L i) by auto. rewrite (testbit_strb_mask L (i + (L - e))) by lia.
    destruct (Z.leb_spec s i).
    - rewrite testbit_strb_mask by lia. lia.
    - rewrite (Z.testbit_neg_r _ (i - s)) by lia. reflexivity. }
  split; [exact Hbits|].
  set (v := Z.land _ _) in *.
  assert (0 <= v).
  { unfold v. apply Z.land_nonneg. left. apply Z.land_nonneg. right. unfold strb_mask.
    pose proof (Z.pow_pos_nonneg 2 L). lia. }
  split; auto. destruct (Z.eq_dec v 0); [pose proof (Z.pow_pos_nonneg 2 L); lia|].
  apply Z.log2_lt_pow2; [lia|]. destruct (Z.ltb_spec (Z.log2 v) L); auto.
  pose proof (Z.bit_log2 v ltac:(lia)) as Hb. rewrite Hbits in Hb by (apply Z.log2_nonneg). lia.
Qed.

(** ** lists of addressed bytes *)
Lemma combine_app_eq {X Y} (a a' : list X) (b b' : list Y) :
  length a = length b -> combine (a ++ a') (b ++ b') = combine a b ++ combine a' b'.
Proof.
  revert b. induction a; intros [|y b] H; cbn in *; try discriminate; auto.
  f_equal. apply IHa. congruence.
Qed.

Lemma addressed_app a d e : addressed a (d ++ e) = addressed a d ++ addressed (a + zlen d) e.
Proof.
  unfold addressed. pose proof (zlen_nonneg d). pose proof (zlen_nonneg e). rewrite zlen_app.
  rewrite (zrange_split a (a + zlen d) (a + (zlen d + zlen e))) by lia.
  rewrite combine_app_eq.
  - do 2 f_equal. f_equal. lia.
  - rewrite zrange_length. unfold zlen. lia.
Qed.

Lemma addressed_nil a : addressed a [] = [].
Proof. unfold addressed. now destruct (zrange a _). Qed.

Lemma filter_none {X} (f : X -> bool) l : (forall x, In x l -> f x = false) -> filter f l = [].
Proof.
  induction l; cbn; intros H; auto. rewrite (H a) by auto. apply IHl. auto.
Qed.

Lemma filter_all {X} (f : X -> bool) l : (forall x, In x l -> f x = true) -> filter f l = l.
Proof.
  induction l; cbn; intros H; auto. rewrite (H a) by auto. f_equal. apply IHl. auto.
Qed.

Lemma filter_zrange f a b s e : a <= s <= e -> e <= b ->
  (forall i, a <= i < b -> f i = ((s <=? i) && (i <? e))%bool) ->
  filter f (zrange a b) = zrange s e.
Proof.
  intros Hs He Hf. rewrite (zrange_split a s b), (zrange_split s e b) by lia.
  rewrite !filter_app.
  rewrite (filter_none f (zrange a s)), (filter_all f (zrange s e)), (filter_none f (zrange e b)).
  - cbn [app]. apply app_nil_r.
  - intros x Hx. apply in_zrange in Hx. rewrite Hf by lia. lia.
  - intros x Hx. apply in_zrange in Hx. rewrite Hf by lia. lia.
  - intros x Hx. apply in_zrange in Hx. rewrite Hf by lia. lia.
Qed.

Lemma map_zrange_combine (f : Z -> Z) w s l :
  (forall i, 0 <= i < zlen l -> f (s + i) = znth 0 l i) ->
  map (fun i => (w + i, f i)) (zrange s (s + zlen l)) = addressed (w + s) l.
Proof.
  revert s. induction l as [|x l IH]; intros s Hf.
  - rewrite addressed_nil. change (zlen (@nil Z)) with 0. now rewrite zrange_empty by lia.
  - pose proof (zlen_nonneg l) as Hl. rewrite zlen_cons in *.
    rewrite zrange_cons by lia. cbn [map].
    unfold addressed. rewrite zlen_cons.
    rewrite (zrange_cons (w + s)) by lia. cbn [combine].
    specialize (Hf 0 ltac:(lia)) as H0. rewrite Z.add_0_r, znth_cons0 in H0. rewrite H0.
    f_equal. specialize (IH (s + 1)). unfold addressed in IH.
    replace (w + s + 1) with (w + (s + 1)) by lia.
    replace (w + s + (1 + zlen l)) with (w + (s + 1) + zlen l) by lia.
    rewrite <- IH.
    + do 2 f_equal. lia.
    + intros i Hi. specialize (Hf (i + 1) ltac:(lia)). rewrite znth_cons in Hf by lia.
      replace (i + 1 - 1) with i in Hf by lia. rewrite <- Hf. f_equal. lia.
Qed.

Lemma znth_zeros_app s l i : 0 <= s -> 0 <= i ->
  znth 0 (zeros s ++ l) i = if i <? s then 0 else znth 0 l (i - s).
Proof.
  intros. destruct (Z.ltb_spec i s).
  - rewrite znth_app1 by (rewrite zeros_length; lia). apply znth_zeros.
  - rewrite znth_app2 by (rewrite zeros_length; lia). rewrite zeros_length by lia. reflexivity.
Qed.

Lemma lane_placed s l i : are_bytes l -> 0 <= s -> 0 <= i ->
  lane_byte (placed s l) i = if (s <=? i) && (i <? s + zlen l) then znth 0 l (i - s) else 0.
Proof.
  intros Hl Hs Hi. unfold placed.
  rewrite lane_byte_le_int
    by first [assumption | apply are_bytes_app; split; [apply are_bytes_zeros|assumption]].
  rewrite znth_zeros_app by auto.
  destruct (Z.ltb_spec i s).
  - replace (s <=? i) with false by lia. reflexivity.
  - replace (s <=? i) with true by lia. cbn [andb].
    destruct (Z.ltb_spec i (s + zlen l)); auto. apply znth_over. lia.
Qed.

Lemma aw_of_app l m : aw_of (l ++ m) = aw_of l ++ aw_of m.
Proof. induction l as [|[]]; cbn; auto. now rewrite IHl. Qed.
Lemma w_of_app l m : w_of (l ++ m) = w_of l ++ w_of m.
Proof. induction l as [|[]]; cbn; auto. now rewrite IHl. Qed.
Lemma aw_of_ws l : aw_of (map EvW l) = [].
Proof. induction l; cbn; auto. Qed.
Lemma w_of_ws l : w_of (map EvW l) = l.
Proof. induction l; cbn; auto. now rewrite IHl. Qed.

Lemma pair_bursts_gen g :
  Forall (fun p => length (snd p) = Z.to_nat (beats (fst p))) g ->
  pair_bursts (map fst g) (flat_map snd g) = Some g.
Proof.
  induction 1 as [|[a ws] g Hl _ IH]; cbn [map flat_map pair_bursts fst snd]; auto.
  cbn [fst snd] in Hl. rewrite <- Hl, app_length.
  replace (Nat.leb (length ws) (length ws + length (flat_map snd g))) with true
    by (symmetry; apply Nat.leb_le; lia).
  rewrite skipn_app, skipn_all, Nat.sub_diag. cbn [skipn app]. rewrite IH.
  rewrite firstn_app, firstn_all, Nat.sub_diag. cbn [firstn]. now rewrite app_nil_r.
Qed.

(** ** geometry of one operation *)
Section Op.
  Variables (c : mcfg) (A len size : Z) (bt : burst_t) (sd : side) (id : Z).
  Let L := m_lanes c.
  Let nb := 2 ^ size.
  Variables (q p : Z).
  Hypothesis Hnb : 0 < nb.
  Hypothesis Hq : 0 < q.
  Hypothesis HL : m_lanes c = 2 ^ size * q.
  Hypothesis Hp : 4096 = 2 ^ size * p.
  Hypothesis HA : 0 <= A.
  Hypothesis Hlen : 0 <= len.

  Definition og_u := A / 2 ^ size.
  Let u := og_u.
  Definition og_C := cycles_of A len size.
  Let C := og_C.
  (** container of beat k: [og_ba k, og_ba k + nb); bytes of beat k: [og_lo k, og_hi k) *)
  Definition og_ba (k : Z) := 2 ^ size * (og_u + k).
  Definition og_lo (k : Z) := Z.max A (og_ba k).
  Definition og_hi (k : Z) := Z.min (A + len) (og_ba k + 2 ^ size).
  Definition og_cur (k : Z) := match bt with FIXED => A | _ => if k =? 0 then A else og_ba k end.
  Definition og_bl (k : Z) := burst_len c og_C k (2 ^ size) (og_cur k).
  Definition og_ax (k : Z) : axc :=
    {| ax_id := id; ax_addr := og_cur k; ax_len := og_bl k - 1; ax_size := size;
       ax_burst := bt; ax_side := sd |}.

  Lemma og_A : nb * u <= A < nb * u + nb.
  Proof.
    unfold u, og_u. fold nb. pose proof (Z.div_mod A nb ltac:(lia)).
    pose proof (Z.mod_pos_bound A nb Hnb). lia.
  Qed.

  Lemma og_u_nonneg : 0 <= u.
  Proof. apply Z.div_pos; [lia|exact Hnb]. Qed.

  Lemma og_cycles : 0 <= C /\ A + len <= nb * (u + C) /\
    (0 < C -> nb * (u + C) - nb < A + len) /\ (C = 0 <-> len = 0 /\ A = nb * u).
  Proof.
    unfold C, og_C, cycles_of, num_bytes. fold nb. pose proof og_A as HAu.
    assert (Hr : A mod nb = A - nb * u) by (rewrite Z.mod_eq by lia; reflexivity).
    rewrite Hr. clearbody u.
    pose proof (ceil_spec (len + (A - nb * u)) nb Hnb ltac:(lia)) as Hc. cbn zeta in Hc.
    set (cc := (len + (A - nb * u) + nb - 1) / nb) in *. clearbody cc.
    destruct Hc as (H1 & H2 & H3 & H4). split; [lia|]. split; [lia|]. split; [lia|]. split.
    - intros ->. lia.
    - intros [? ?]. apply H3. lia.
  Qed.

  Lemma aligned_og : aligned_addr A size = og_ba 0.
  Proof. unfold aligned_addr, num_bytes, og_ba, og_u. fold nb. lia. Qed.

  Lemma og_lo_range k : 0 <= k < C -> og_ba k <= og_lo k < og_ba k + nb.
  Proof.
    intros Hk. unfold og_lo, og_ba. pose proof og_A. fold nb u. nia.
  Qed.

  Lemma og_lohi k : 0 <= k < C -> og_lo k <= og_hi k <= og_ba k + nb /\ og_hi k <= A + len.
  Proof.
    intros Hk. unfold og_lo, og_hi, og_ba. pose proof og_A. pose proof og_cycles as (H1 & H2 & H3 & H4).
    fold nb u. assert (nb * (u + k) <= nb * (u + C) - nb) by nia. nia.
  Qed.

  Lemma og_next k : 0 <= k -> k + 1 < C -> og_hi k = og_lo (k + 1).
  Proof.
    intros Hk Hk1. unfold og_lo, og_hi, og_ba. pose proof og_A. pose proof og_cycles as (H1 & H2 & H3 & H4).
    fold nb u. assert (nb * (u + k) <= nb * (u + C) - 2 * nb) by nia. nia.
  Qed.

  Lemma og_last k : k + 1 = C -> 0 <= k -> og_hi k = A + len.
  Proof.
    intros Hk Hk0. unfold og_hi, og_ba. pose proof og_cycles as (H1 & H2 & H3 & H4).
    fold nb u. assert (nb * (u + k) + nb = nb * (u + C)) by nia. nia.
  Qed.

  Lemma og_mod k x : og_ba k <= x < og_ba k + nb ->
    x mod L = nb * ((u + k) mod q) + (x - og_ba k) /\
    0 <= nb * ((u + k) mod q) /\ nb * ((u + k) mod q) + nb <= L.
  Proof.
    intros Hx. unfold L. rewrite HL. unfold og_ba in Hx |- *. fold nb u in Hx |- *.
    apply mod_within; auto.
  Qed.

  (** the lanes of beat k as computed by the code *)
  Lemma og_start k : 0 <= k < C ->
    (if k =? 0 then start_offset L A else nb * ((u + k) mod q)) = og_lo k mod L.
  Proof.
    intros Hk. destruct (Z.eqb_spec k 0) as [->|Hne].
    - unfold start_offset. f_equal. unfold og_lo, og_ba. pose proof og_A. fold nb u. nia.
    - pose proof og_A as HAu.
      assert (og_lo k = og_ba k) as -> by (unfold og_lo, og_ba; fold nb u; nia).
      destruct (og_mod k (og_ba k)) as (-> & _); lia.
  Qed.

  Lemma og_stop k : 0 <= k < C ->
    (if k =? C - 1 then end_offset L A len else nb * ((u + k) mod q) + nb)
    = og_lo k mod L + (og_hi k - og_lo k).
  Proof.
    intros Hk. pose proof (og_lo_range k Hk) as Hlo. pose proof (og_lohi k Hk) as (Hh & Hh2).
    destruct (og_mod k (og_lo k) Hlo) as (Hm & Hm1 & Hm2). rewrite Hm.
    destruct (Z.eqb_spec k (C - 1)) as [Hl|Hl].
    - unfold end_offset. rewrite <- (og_last k) by lia.
      destruct (Z.eq_dec (og_hi k) (og_ba k)) as [He|He].
      + (* only possible when nothing is in the beat *)
        exfalso. pose proof og_cycles as (H1 & H2 & H3 & H4). pose proof (og_last k ltac:(lia) ltac:(lia)) as Hla.
        assert (nb * (u + C) - nb < A + len) by (apply H3; lia).
        unfold og_ba in He. fold nb u in He. assert (nb * (u + k) = nb * (u + C) - nb) by nia. lia.
      + destruct (og_mod k (og_hi k - 1)) as (-> & _); lia.
    - pose proof (og_next k ltac:(lia) ltac:(lia)) as Hn.
      assert (og_hi k = og_ba k + nb); [|lia].
      rewrite Hn. unfold og_lo, og_ba. pose proof og_A. fold nb u. nia.
  Qed.

  Lemma og_lanes k : 0 <= k < C ->
    0 <= og_lo k mod L /\ og_lo k mod L + (og_hi k - og_lo k) <= L.
  Proof.
    intros Hk. pose proof (og_lo_range k Hk) as Hlo. pose proof (og_lohi k Hk) as (Hh & Hh2).
    destruct (og_mod k (og_lo k) Hlo) as (Hm & Hm1 & Hm2). lia.
  Qed.

  Lemma og_co_next k : (nb * ((u + k) mod q) + nb) mod L = nb * ((u + (k + 1)) mod q).
  Proof.
    unfold L. rewrite HL. fold nb.
    replace (nb * ((u + k) mod q) + nb) with (nb * ((u + k) mod q + 1)) by lia.
    rewrite Z.mul_mod_distr_l by lia. f_equal.
    rewrite Zplus_mod_idemp_l. f_equal. lia.
  Qed.

  Lemma og_co_0 : aligned_addr A size - word_addr L A = nb * ((u + 0) mod q).
  Proof.
    rewrite aligned_og. unfold word_addr.
    rewrite div_mul_down by (unfold L; rewrite HL; fold nb; nia).
    unfold L. rewrite HL. fold nb. rewrite (down_within nb q u A); auto using og_A.
    unfold og_ba. fold nb u. rewrite !Z.add_0_r.
    pose proof (Z.div_mod u q ltac:(lia)). nia.
  Qed.

  Lemma og_cur_next k : 0 <= k -> next_addr bt A size k (og_cur k) = og_cur (k + 1).
  Proof.
    intros Hk. unfold next_addr, og_cur. rewrite aligned_og. unfold num_bytes, og_ba. fold nb.
    destruct bt; auto; replace (k + 1 =? 0) with false by lia;
      destruct (Z.eqb_spec k 0); subst; lia.
  Qed.

  (** burst length at beat k *)
  Lemma og_bl_range k : 0 <= k < C ->
    1 <= og_bl k <= C - k /\ og_bl k <= Z.max (Z.min (m_mbl c) 256) 1.
  Proof.
    intros Hk. unfold og_bl, burst_len, max_burst_len. rewrite land_4095. fold nb C.
    set (b := Z.min (C - k) _). assert (Hb : 1 <= b) by lia.
    pose proof (Z.mod_pos_bound (og_cur k) 4096 ltac:(lia)) as Hm.
    set (x := 4096 - og_cur k mod 4096) in *.
    assert (Hx : 0 < Z.min (b * nb) x) by (apply Z.min_glb_lt; [apply Z.mul_pos_pos; lia|lia]).
    pose proof (ceil_spec (Z.min (b * nb) x) nb Hnb ltac:(lia)) as Hc. cbn zeta in Hc.
    set (y := (Z.min (b * nb) x + nb - 1) / nb) in *.
    assert (1 <= y) by lia. assert (y <= b) by nia. lia.
  Qed.

  (** a burst that starts at beat k stays in the 4 kB page of its start address *)
  Lemma og_bl_4k k : 0 <= k < C -> bt <> FIXED ->
    exists g, 4096 * g <= og_ba k /\ og_ba k <= og_cur k < og_ba k + nb /\
              og_ba k + og_bl k * nb <= 4096 * g + 4096.
  Proof.
    intros Hk Hbt.
    assert (Hcur : og_ba k <= og_cur k < og_ba k + nb).
    { unfold og_cur, og_ba. pose proof og_A as HAu. fold nb u.
      destruct bt; [congruence| |]; destruct (Z.eqb_spec k 0); subst; rewrite ?Z.add_0_r; lia. }
    exists ((u + k) / p).
    assert (Hp0 : 0 < p) by (fold nb in Hp; nia).
    destruct (mod_within nb p (u + k) (og_cur k)) as (Hm & Hm1 & Hm2);
      [auto|auto|unfold og_ba in Hcur; fold nb u in Hcur; lia|].
    fold nb in Hp. rewrite <- Hp in Hm, Hm2.
    pose proof (Z.div_mod (u + k) p ltac:(lia)) as Hdm.
    assert (Hbase : og_ba k = 4096 * ((u + k) / p) + nb * ((u + k) mod p)).
    { unfold og_ba. fold nb u. rewrite Hp. rewrite Hdm at 1. ring. }
    split; [lia|]. split; [exact Hcur|].
    unfold og_bl, burst_len. rewrite land_4095. fold nb.
    set (b := Z.min (og_C - k) _).
    assert (Hb : 1 <= b) by (fold C in b; unfold max_burst_len in b; lia).
    set (x := 4096 - og_cur k mod 4096) in *.
    assert (Hx0 : 0 < x) by (pose proof (Z.mod_pos_bound (og_cur k) 4096 ltac:(lia)); lia).
    assert (Hx : 0 < Z.min (b * nb) x) by (apply Z.min_glb_lt; [apply Z.mul_pos_pos; lia|lia]).
    pose proof (ceil_spec (Z.min (b * nb) x) nb Hnb ltac:(lia)) as Hc. cbn zeta in Hc.
    set (y := (Z.min (b * nb) x + nb - 1) / nb) in *. clearbody y.
    assert (Hy : nb * y < x + nb) by lia.
    (* 4096 - nb*m is a multiple of nb and at least x *)
    set (mm := (u + k) mod p) in *.
    assert (Hxx : x + (og_cur k - og_ba k) = nb * (p - mm)).
    { unfold x. rewrite Hm, Hp. unfold og_ba. fold nb u. ring. }
    assert (Hyy : y <= p - mm).
    { assert (y < p - mm + 1); [|lia]. apply (Z.mul_lt_mono_pos_l nb); [exact Hnb|].
      replace (nb * (p - mm + 1)) with (nb * (p - mm) + nb) by ring. lia. }
    assert (y * nb <= nb * (p - mm)).
    { rewrite (Z.mul_comm y). apply Z.mul_le_mono_nonneg_l; lia. }
    rewrite Hbase, Hp. replace (nb * (p - mm)) with (nb * p - nb * mm) in * by ring. lia.
  Qed.

  (** bus word of beat n of the burst that starts at beat k0 *)
  Lemma og_word k0 n : bt = INCR -> 0 <= k0 < C -> 0 <= n ->
    down L (axi_beat_addr (og_ax k0) n) = down L (og_ba (k0 + n)).
  Proof.
    intros Hbt Hk0 Hn. assert (Hcur : og_ba k0 <= og_cur k0 < og_ba k0 + nb).
    { destruct (og_bl_4k k0 Hk0) as (g & _ & H & _); [congruence|exact H]. }
    unfold axi_beat_addr. cbn [og_ax ax_burst ax_size ax_addr]. rewrite Hbt. fold nb.
    unfold L. rewrite HL. fold nb.
    unfold og_ba in Hcur |- *. fold nb u in Hcur |- *.
    destruct (Z.eqb_spec n 0) as [->|Hne].
    - rewrite Z.add_0_r.
      rewrite !(down_within nb q (u + k0)); auto; lia.
    - assert (down nb (og_cur k0) = nb * (u + k0)) as ->.
      { pose proof (down_within nb 1 (u + k0) (og_cur k0) Hnb ltac:(lia) Hcur) as Hd.
        rewrite Z.mul_1_r, Z.div_1_r in Hd. exact Hd. }
      f_equal. ring.
  Qed.

  (** the starts of the bursts from beat k on *)
  Fixpoint og_ars (fuel : nat) (k : Z) : list axc :=
    match fuel with
    | O => []
    | S f => if k <? C then og_ax k :: og_ars f (k + og_bl k) else []
    end.

  Lemma og_ars_in fuel : forall k0 a, 0 <= k0 -> In a (og_ars fuel k0) ->
    exists k, 0 <= k < C /\ a = og_ax k.
  Proof.
    induction fuel; intros k0 a Hk0 Hin; cbn [og_ars] in Hin; [easy|].
    destruct (Z.ltb_spec k0 C); [|easy].
    pose proof (og_bl_range k0 ltac:(lia)) as (Hb & _).
    destruct Hin as [<-|Hin]; [exists k0; auto|]. apply (IHfuel (k0 + og_bl k0)); auto. lia.
  Qed.

  Definition og_rcmd : rcmd :=
    {| rc_addr := A; rc_len := len; rc_burst := bt; rc_size := size; rc_side := sd |}.

  Lemma mr_loop_inner m : forall k n bl,
    0 <= k -> k + Z.of_nat m <= C -> bl - (n + 1) = Z.of_nat m ->
    mr_loop c id og_rcmd C (Z.to_nat (C - k)) k (og_cur k) n bl =
    mr_loop c id og_rcmd C (Z.to_nat (C - (k + Z.of_nat m))) (k + Z.of_nat m)
      (og_cur (k + Z.of_nat m)) (bl - 1) bl.
  Proof.
    induction m; intros k n bl Hk Hkm Hbn.
    - replace (k + Z.of_nat 0) with k by lia. f_equal. lia.
    - replace (Z.to_nat (C - k)) with (S (Z.to_nat (C - (k + 1)))) by lia. cbn [mr_loop].
      replace (bl <=? n + 1) with false by lia. cbn [app og_rcmd rc_burst rc_addr rc_size].
      rewrite og_cur_next by lia.
      rewrite (IHm (k + 1) (n + 1) bl) by lia.
      replace (k + 1 + Z.of_nat m) with (k + Z.of_nat (S m)) by lia. reflexivity.
  Qed.

  Lemma mr_loop_gen fuel : forall k n bl,
    0 <= k -> C - k <= Z.of_nat fuel -> bl <= n + 1 ->
    mr_loop c id og_rcmd C (Z.to_nat (C - k)) k (og_cur k) n bl = og_ars fuel k.
  Proof.
    induction fuel; intros k n bl Hk Hf Hn.
    - replace (Z.to_nat (C - k)) with O by lia. reflexivity.
    - cbn [og_ars]. destruct (Z.ltb_spec k C).
      2:{ replace (Z.to_nat (C - k)) with O by lia. reflexivity. }
      pose proof (og_bl_range k ltac:(lia)) as (Hb & _).
      replace (Z.to_nat (C - k)) with (S (Z.to_nat (C - (k + 1)))) by lia. cbn [mr_loop].
      replace (bl <=? n + 1) with true by lia. cbn [og_rcmd rc_burst rc_addr rc_size rc_side app].
      rewrite og_cur_next by lia.
      change (burst_len c C k (num_bytes size) (og_cur k)) with (og_bl k).
      f_equal.
      rewrite (mr_loop_inner (Z.to_nat (og_bl k - 1)) (k + 1) 0 (og_bl k)) by lia.
      replace (k + 1 + Z.of_nat (Z.to_nat (og_bl k - 1))) with (k + og_bl k) by lia.
      apply IHfuel; lia.
  Qed.

  Lemma master_read_gen : master_read c id og_rcmd = og_ars (Z.to_nat C) 0.
  Proof.
    unfold master_read. cbn [og_rcmd rc_addr rc_len rc_size]. fold og_C. fold C.
    replace (Z.to_nat C) with (Z.to_nat (C - 0)) at 1 by (f_equal; lia).
    pose proof og_cycles. pose proof (mr_loop_gen (Z.to_nat C) 0 0 0 ltac:(lia) ltac:(lia) ltac:(lia)) as Hg.
    assert (Hc0 : og_cur 0 = A) by (unfold og_cur; now destruct bt).
    rewrite Hc0 in Hg. exact Hg.
  Qed.

  Lemma og_legal k aw : bt = INCR -> 0 <= size < 8 -> 0 <= k < C -> A < 2 ^ aw -> A + len <= 2 ^ aw ->
    legal_incr L aw (og_ax k).
  Proof.
    intros Hbt Hsz Hk Haw Hend. unfold legal_incr. cbn [og_ax ax_burst ax_size ax_len ax_addr].
    pose proof (og_bl_range k Hk) as (Hb1 & Hb2).
    destruct (og_bl_4k k Hk) as (g & Hg1 & Hcur & Hg2); [congruence|].
    fold nb.
    assert (HLnb : nb <= L) by (unfold L; rewrite HL; fold nb; nia).
    assert (Hdn : down nb (og_cur k) = og_ba k).
    { unfold og_ba in Hcur |- *. fold nb u in Hcur |- *.
      pose proof (down_within nb 1 (u + k) (og_cur k) Hnb ltac:(lia) Hcur) as Hd.
      rewrite Z.mul_1_r, Z.div_1_r in Hd. exact Hd. }
    split; [exact Hbt|]. split; [lia|]. split; [exact HLnb|]. split; [lia|]. split.
    { pose proof og_u_nonneg. pose proof og_cycles as (_ & _ & H3 & _). specialize (H3 ltac:(lia)).
      unfold og_cur. rewrite Hbt. destruct (Z.eqb_spec k 0); [lia|].
      unfold og_ba. fold nb u. assert (nb * (u + k) <= nb * (u + C) - nb) by nia.
      split; [|lia]. apply Z.mul_nonneg_nonneg; lia. }
    rewrite Hdn. unfold beats. cbn [og_ax ax_len].
    replace (og_bl k - 1 + 1) with (og_bl k) by lia.
    assert (Hpg : forall x, 4096 * g <= x < 4096 * g + 4096 -> down 4096 x = 4096 * g).
    { intros x Hx. pose proof (down_within 4096 1 g x ltac:(lia) ltac:(lia) Hx) as Hd.
      rewrite Z.mul_1_r, Z.div_1_r in Hd. exact Hd. }
    assert (nb <= og_bl k * nb).
    { rewrite <- (Z.mul_1_l nb) at 1. apply Z.mul_le_mono_nonneg_r; lia. }
    rewrite !Hpg; lia.
  Qed.

  Lemma og_chain_next k : bt = INCR -> 0 <= k < C -> incr_end (og_ax k) = og_ba (k + og_bl k).
  Proof.
    intros Hbt Hk. unfold incr_end, beats. cbn [og_ax ax_size ax_addr ax_len].
    destruct (og_bl_4k k Hk) as (g & _ & Hcur & _); [congruence|].
    fold nb.
    assert (Hdn : down nb (og_cur k) = og_ba k).
    { unfold og_ba in Hcur |- *. fold nb u in Hcur |- *.
      pose proof (down_within nb 1 (u + k) (og_cur k) Hnb ltac:(lia) Hcur) as Hd.
      rewrite Z.mul_1_r, Z.div_1_r in Hd. exact Hd. }
    rewrite Hdn. unfold og_ba. fold nb u. ring.
  Qed.

  Lemma og_chained fuel : bt = INCR -> forall k, 0 <= k ->
    chained (og_cur k) (og_ars fuel k).
  Proof.
    intros Hbt. induction fuel; intros k Hk; cbn [og_ars chained]; [exact I|].
    destruct (Z.ltb_spec k C); cbn [chained]; [|exact I].
    split; [reflexivity|]. rewrite og_chain_next by (auto; lia).
    pose proof (og_bl_range k ltac:(lia)) as (Hb & _).
    specialize (IHfuel (k + og_bl k) ltac:(lia)). unfold og_cur in IHfuel. rewrite Hbt in IHfuel.
    replace (k + og_bl k =? 0) with false in IHfuel by lia. exact IHfuel.
  Qed.

  Lemma og_chain_end fuel : bt = INCR -> forall k x, 0 <= k < C -> C - k <= Z.of_nat fuel ->
    chain_end x (og_ars fuel k) = og_ba C.
  Proof.
    intros Hbt. induction fuel; intros k x Hk Hf; [lia|]. cbn [og_ars].
    replace (k <? C) with true by lia. unfold chain_end. cbn [fold_left].
    fold (chain_end (incr_end (og_ax k)) (og_ars fuel (k + og_bl k))).
    pose proof (og_bl_range k Hk) as (Hb & _).
    destruct (Z.eq_dec (k + og_bl k) C) as [He|He].
    - rewrite He. replace (og_ars fuel C) with (@nil axc).
      + unfold chain_end. cbn [fold_left]. rewrite og_chain_next, He by auto. reflexivity.
      + destruct fuel; cbn [og_ars]; [reflexivity|]. now replace (C <? C) with false by lia.
    - apply IHfuel; lia.
  Qed.

  Lemma og_ba_C : 0 < len -> og_ba C = down nb (A + len - 1) + nb.
  Proof.
    intros Hl. pose proof og_cycles as (H1 & H2 & H3 & H4).
    pose proof og_A. assert (HC : 0 < C).
    { destruct (Z.eq_dec C 0); [|lia]. apply H4 in e. lia. }
    specialize (H3 HC).
    assert (Hx : nb * (u + (C - 1)) <= A + len - 1 < nb * (u + (C - 1)) + nb).
    { replace (nb * (u + (C - 1))) with (nb * (u + C) - nb) by ring. lia. }
    pose proof (down_within nb 1 (u + (C - 1)) (A + len - 1) Hnb ltac:(lia) Hx) as Hd.
    rewrite Z.mul_1_r, Z.div_1_r in Hd. rewrite Hd. unfold og_ba. fold nb u. ring.
  Qed.

  (** *** write data beats *)
  Section Data.
    Variables (D : list Z) (wu : wuser_t).
    Hypothesis HD : are_bytes D.
    Hypothesis HDlen : zlen D = len.

    Definition og_sel (k : Z) : Z :=
      match mw_strb L (og_lo k mod L) (og_lo k mod L + (og_hi k - og_lo k)) with
      | Ok v => v | Err _ => 0 end.
    Definition og_w (k : Z) (last : bool) : wch :=
      {| w_data := placed (og_lo k mod L) (zslice D (og_lo k - A) (og_hi k - A));
         w_strb := og_sel k; w_last := last; w_user := mw_user wu k |}.
    Definition og_cmd : wcmd :=
      {| wc_addr := A; wc_data := D; wc_burst := bt; wc_size := size; wc_side := sd; wc_wuser := wu |}.

    Lemma og_sel_spec k : 0 <= k < C ->
      mw_strb L (og_lo k mod L) (og_lo k mod L + (og_hi k - og_lo k)) = Ok (og_sel k) /\
      (forall i, 0 <= i -> Z.testbit (og_sel k) i =
         (og_lo k mod L <=? i) && (i <? og_lo k mod L + (og_hi k - og_lo k))) /\
      0 <= og_sel k < 2 ^ L.
    Proof.
      intros Hk. pose proof (og_lanes k Hk) as (H1 & H2).
      assert (0 <= L) by (unfold L; rewrite HL; fold nb; nia).
      destruct (mw_strb_spec L (og_lo k mod L) (og_lo k mod L + (og_hi k - og_lo k)))
        as (v & Hv & Hb); auto.
      unfold og_sel. rewrite Hv. auto.
    Qed.

    Definition og_st (k n bl : Z) : mwst :=
      {| mw_cur_addr := og_cur k; mw_offset := og_lo k - A;
         mw_cycle_offset := nb * ((u + k) mod q); mw_n := n; mw_blen := bl |}.

    (** one iteration; the offset after the last beat is irrelevant *)
    Lemma mw_iter_spec k n bl : 0 <= k < C ->
      let newb := bl <=? n in
      let bl' := if newb then og_bl k else bl in
      let n' := (if newb then 0 else n) + 1 in
      exists st', mw_iter c id og_cmd C k (og_st k n bl) =
        ((if newb then [EvAW (og_ax k)] else []) ++ [EvW (og_w k (bl' <=? n'))], Ok st') /\
        (k + 1 < C -> st' = og_st (k + 1) n' bl').
    Proof.
      intros Hk newb bl' n'. unfold mw_iter, og_cmd, og_st. cbn [wc_addr wc_data wc_burst wc_size wc_side wc_wuser
        mw_cur_addr mw_offset mw_cycle_offset mw_n mw_blen].
      fold L. unfold num_bytes. fold nb. rewrite HDlen.
      rewrite (og_start k Hk), (og_stop k Hk).
      destruct (og_sel_spec k Hk) as (Hsel & _). rewrite Hsel.
      pose proof (og_lanes k Hk) as (Hl1 & Hl2). pose proof (og_lohi k Hk) as (Hh1 & Hh2).
      pose proof (og_lo_range k Hk).
      rewrite mw_val_range
        by first [exact HD | lia | unfold og_lo; lia | rewrite HDlen; unfold og_lo in *; lia].
      replace (og_lo k - A + (og_lo k mod L + (og_hi k - og_lo k) - og_lo k mod L))
        with (og_hi k - A) by lia.
      subst bl' n' newb.
      destruct (bl <=? n); (eexists; split; [reflexivity|]);
        (intros Hk1; rewrite og_co_next, og_cur_next, og_next by lia; reflexivity).
    Qed.

    (** W beats k, k+1, .. of a burst with [todo] beats left, the last one carrying wlast *)
    Fixpoint og_beats (k : Z) (todo : nat) : list wch :=
      match todo with
      | O => []
      | S t => og_w k (match t with O => true | _ => false end) :: og_beats (k + 1) t
      end.

    (** the bursts from beat k on *)
    Fixpoint og_gen (fuel : nat) (k : Z) : list (axc * list wch) :=
      match fuel with
      | O => []
      | S f => if k <? C then (og_ax k, og_beats k (Z.to_nat (og_bl k))) :: og_gen f (k + og_bl k)
               else []
      end.

    Definition flatten (l : list (axc * list wch)) : list wev :=
      flat_map (fun p => EvAW (fst p) :: map EvW (snd p)) l.

    Definition og_next_st (k n bl : Z) (st : mwst) : Prop := k < C -> st = og_st k n bl.

    Lemma mw_loop_inner m : forall k n bl st,
      0 <= k -> k + Z.of_nat m <= C -> bl - n = Z.of_nat m ->
      og_next_st k n bl st ->
      exists st', og_next_st (k + Z.of_nat m) bl bl st' /\
        mw_loop c id og_cmd C (Z.to_nat (C - k)) k st =
        (map EvW (og_beats k m) ++
           fst (mw_loop c id og_cmd C (Z.to_nat (C - (k + Z.of_nat m))) (k + Z.of_nat m) st'),
         snd (mw_loop c id og_cmd C (Z.to_nat (C - (k + Z.of_nat m))) (k + Z.of_nat m) st')).
    Proof.
      induction m; intros k n bl st Hk Hkm Hbn Hst.
      - exists st. replace (k + Z.of_nat 0) with k by lia. split.
        + unfold og_next_st in *. intros. rewrite Hst by auto. f_equal; lia.
        + cbn [og_beats map app]. apply surjective_pairing.
      - rewrite (Hst ltac:(lia)).
        replace (Z.to_nat (C - k)) with (S (Z.to_nat (C - (k + 1)))) by lia. cbn [mw_loop].
        destruct (mw_iter_spec k n bl ltac:(lia)) as (st1 & Hit & Hst1). cbn zeta in Hit, Hst1.
        replace (bl <=? n) with false in Hit, Hst1 by lia. cbn [app] in Hit. rewrite Hit.
        destruct (IHm (k + 1) (n + 1) bl st1 ltac:(lia) ltac:(lia) ltac:(lia)) as (st2 & Hst2 & Hl2).
        { unfold og_next_st. exact Hst1. }
        exists st2. rewrite Hl2.
        replace (k + 1 + Z.of_nat m) with (k + Z.of_nat (S m)) in * by lia.
        split; [exact Hst2|]. cbn [og_beats map app].
        replace (bl <=? n + 1) with (match m with O => true | _ => false end)
          by (destruct m; lia).
        reflexivity.
    Qed.

    Lemma mw_loop_gen fuel : forall k bl st,
      0 <= k -> C - k <= Z.of_nat fuel -> og_next_st k bl bl st ->
      mw_loop c id og_cmd C (Z.to_nat (C - k)) k st = (flatten (og_gen fuel k), Ok tt).
    Proof.
      induction fuel; intros k bl st Hk Hf Hst.
      - replace (Z.to_nat (C - k)) with O by lia. reflexivity.
      - cbn [og_gen]. destruct (Z.ltb_spec k C) as [Hlt|Hge].
        2:{ replace (Z.to_nat (C - k)) with O by lia. reflexivity. }
        pose proof (og_bl_range k ltac:(lia)) as (Hb & _).
        rewrite (Hst Hlt).
        replace (Z.to_nat (C - k)) with (S (Z.to_nat (C - (k + 1)))) by lia. cbn [mw_loop].
        destruct (mw_iter_spec k bl bl ltac:(lia)) as (st1 & Hit & Hst1). cbn zeta in Hit, Hst1.
        replace (bl <=? bl) with true in Hit, Hst1 by lia. cbn [app] in Hit. rewrite Hit.
        destruct (mw_loop_inner (Z.to_nat (og_bl k - 1)) (k + 1) (0 + 1) (og_bl k) st1)
          as (st2 & Hst2 & Hl2); [lia|lia|lia|exact Hst1|].
        rewrite Hl2.
        replace (k + 1 + Z.of_nat (Z.to_nat (og_bl k - 1))) with (k + og_bl k) in * by lia.
        rewrite (IHfuel (k + og_bl k) (og_bl k) st2) by (auto; lia). cbn [fst snd].
        unfold flatten. cbn [flat_map fst snd app]. fold flatten.
        replace (Z.to_nat (og_bl k)) with (S (Z.to_nat (og_bl k - 1))) by lia.
        cbn [og_beats map app].
        replace (og_bl k <=? 0 + 1) with (match Z.to_nat (og_bl k - 1) with O => true | _ => false end)
          by (destruct (Z.to_nat (og_bl k - 1)) eqn:E; lia).
        reflexivity.
    Qed.

    Lemma master_write_gen :
      master_write c id og_cmd = (flatten (og_gen (Z.to_nat C) 0), Ok tt).
    Proof.
      unfold master_write. cbn [og_cmd wc_addr wc_data wc_size]. fold L. rewrite HDlen.
      fold C. fold og_C. fold C.
      replace (Z.to_nat C) with (Z.to_nat (C - 0)) at 1 by (f_equal; lia).
      pose proof og_cycles as (H1 & _).
      apply (mw_loop_gen (Z.to_nat C) 0 0); [lia|lia|].
      unfold og_next_st, og_st. intros HC. rewrite og_co_0. f_equal.
      - unfold og_cur. now destruct bt.
      - unfold og_lo, og_ba. pose proof og_A. fold nb u. rewrite Z.add_0_r. lia.
    Qed.

    Lemma og_beats_length k m : length (og_beats k m) = m.
    Proof. revert k; induction m; intros; cbn [og_beats length]; auto. Qed.
    Lemma aw_of_flatten g : aw_of (flatten g) = map fst g.
    Proof.
      induction g as [|[a ws] g IH]; cbn [flatten flat_map map fst snd app]; auto.
      cbn [aw_of]. rewrite aw_of_app, aw_of_ws. cbn [app]. f_equal. exact IH.
    Qed.
    Lemma w_of_flatten g : w_of (flatten g) = flat_map snd g.
    Proof.
      induction g as [|[a ws] g IH]; cbn [flatten flat_map map fst snd app]; auto.
      cbn [w_of]. rewrite w_of_app, w_of_ws. f_equal. exact IH.
    Qed.

    (** every burst of [og_gen] starts at some beat k, and covers beats k .. k+bl-1 *)
    Lemma og_gen_in fuel : forall k0 p, 0 <= k0 -> In p (og_gen fuel k0) ->
      exists k, 0 <= k < C /\ p = (og_ax k, og_beats k (Z.to_nat (og_bl k))).
    Proof.
      induction fuel; intros k0 pr Hk0 Hin; cbn [og_gen] in Hin; [easy|].
      destruct (Z.ltb_spec k0 C); [|easy].
      pose proof (og_bl_range k0 ltac:(lia)) as (Hb & _).
      destruct Hin as [<-|Hin]; [exists k0; auto|]. apply (IHfuel (k0 + og_bl k0)); auto. lia.
    Qed.

    Lemma og_gen_lengths fuel k0 : 0 <= k0 ->
      Forall (fun p => length (snd p) = Z.to_nat (beats (fst p))) (og_gen fuel k0).
    Proof.
      intros. apply Forall_forall. intros pr Hpr. apply og_gen_in in Hpr; auto.
      destruct Hpr as (k & Hk & ->). cbn [fst snd]. rewrite og_beats_length.
      unfold beats. cbn [og_ax ax_len]. f_equal. lia.
    Qed.

    Lemma og_beats_last k m : (0 < m)%nat -> last_ok (og_beats k m).
    Proof.
      unfold last_ok. rewrite og_beats_length. revert k. induction m; intros k H; [lia|].
      cbn [og_beats map pred]. destruct m as [|m'].
      - reflexivity.
      - rewrite IHm by lia. reflexivity.
    Qed.

    (** offset in D of the first byte of beat k, 0 <= k <= C *)
    Definition og_off (k : Z) : Z := Z.min (A + len) (Z.max A (og_ba k)) - A.

    Lemma og_off_lt k : 0 <= k < C -> og_off k = og_lo k - A /\ og_off (k + 1) = og_hi k - A.
    Proof.
      intros Hk. pose proof (og_lohi k Hk) as (H1 & H2). unfold og_off. split.
      - unfold og_lo in *. lia.
      - destruct (Z.eq_dec (k + 1) C) as [He|He].
        + rewrite og_last by lia. pose proof og_cycles as (_ & H3 & _).
          rewrite He. unfold og_ba. fold nb u. lia.
        + rewrite og_next by lia. pose proof (og_lohi (k + 1) ltac:(lia)). unfold og_lo in *. lia.
    Qed.

    Lemma og_off_0 : og_off 0 = 0.
    Proof. unfold og_off, og_ba. pose proof og_A. fold nb u. rewrite Z.add_0_r. lia. Qed.

    Lemma og_off_C : og_off C = len.
    Proof.
      unfold og_off. pose proof og_cycles as (_ & H3 & _). unfold og_ba. fold nb u. lia.
    Qed.

    Lemma og_off_mono k : 0 <= k < C -> 0 <= og_off k <= og_off (k + 1) /\ og_off (k + 1) <= len.
    Proof.
      intros Hk. destruct (og_off_lt k Hk) as [-> ->]. pose proof (og_lohi k Hk). unfold og_lo in *. lia.
    Qed.

    Lemma og_off_mono2 k m : 0 <= k -> k + Z.of_nat m <= C ->
      0 <= og_off k <= og_off (k + Z.of_nat m) /\ og_off (k + Z.of_nat m) <= len.
    Proof.
      intros Hk. induction m; intros Hm.
      - replace (k + Z.of_nat 0) with k by lia. destruct (Z.eq_dec k C) as [->|].
        + rewrite og_off_C. lia.
        + pose proof (og_off_mono k ltac:(lia)). lia.
      - specialize (IHm ltac:(lia)). pose proof (og_off_mono (k + Z.of_nat m) ltac:(lia)).
        replace (k + Z.of_nat (S m)) with (k + Z.of_nat m + 1) by lia. lia.
    Qed.

    (** what the strobes of beat k select *)
    Lemma og_strobed k last : 0 <= k < C ->
      strobed L (down L (og_ba k)) (og_w k last) =
      addressed (A + og_off k) (zslice D (og_off k) (og_off (k + 1))).
    Proof.
      intros Hk. destruct (og_off_lt k Hk) as [-> ->].
      pose proof (og_lanes k Hk) as (Hl1 & Hl2). pose proof (og_lohi k Hk) as (Hh1 & Hh2).
      pose proof (og_lo_range k Hk) as Hlo.
      destruct (og_sel_spec k Hk) as (_ & Hbits & _).
      assert (HLp : 0 < L) by (unfold L; rewrite HL; fold nb; nia).
      assert (HloA : A <= og_lo k) by (unfold og_lo; lia).
      assert (Hzl : zlen (zslice D (og_lo k - A) (og_hi k - A)) = og_hi k - og_lo k).
      { rewrite zslice_length; lia. }
      unfold strobed. cbn [og_w w_strb w_data].
      rewrite (filter_zrange _ 0 L (og_lo k mod L) (og_lo k mod L + (og_hi k - og_lo k))); try lia.
      2:{ intros i Hi. apply Hbits. lia. }
      rewrite <- Hzl. rewrite map_zrange_combine.
      - f_equal.
        assert (Hd : down L (og_ba k) = down L (og_lo k)).
        { unfold L. rewrite HL. fold nb. unfold og_ba in *. fold nb u in Hlo |- *.
          rewrite !(down_within nb q (u + k)); auto; lia. }
        rewrite Hd. unfold down. lia.
      - intros i Hi. rewrite Hzl in Hi. rewrite lane_placed by (auto using are_bytes_zslice; lia).
        rewrite Hzl.
        replace ((og_lo k mod L <=? og_lo k mod L + i) &&
          (og_lo k mod L + i <? og_lo k mod L + (og_hi k - og_lo k))) with true by lia.
        f_equal. lia.
    Qed.

    Lemma og_burst_bytes k0 : bt = INCR -> 0 <= k0 < C -> forall m n,
      0 <= n -> k0 + n + Z.of_nat m <= C ->
      burst_bytes L (og_ax k0) n (og_beats (k0 + n) m) =
      addressed (A + og_off (k0 + n)) (zslice D (og_off (k0 + n)) (og_off (k0 + n + Z.of_nat m))).
    Proof.
      intros Hbt Hk0. induction m; intros n Hn Hm.
      - cbn [og_beats burst_bytes]. replace (k0 + n + Z.of_nat 0) with (k0 + n) by lia.
        rewrite zslice_empty by lia. now rewrite addressed_nil.
      - cbn [og_beats burst_bytes].
        replace (k0 + n + 1) with (k0 + (n + 1)) by lia.
        rewrite (IHm (n + 1)) by lia.
        rewrite og_word by (auto; lia). rewrite og_strobed by lia.
        pose proof (og_off_mono (k0 + n) ltac:(lia)) as Hmo.
        pose proof (og_off_mono2 (k0 + (n + 1)) m ltac:(lia) ltac:(lia)) as Hmo2.
        replace (k0 + (n + 1)) with (k0 + n + 1) in * by lia.
        replace (k0 + n + 1 + Z.of_nat m) with (k0 + n + Z.of_nat (S m)) in * by lia.
        rewrite (zslice_split D (og_off (k0 + n)) (og_off (k0 + n + 1)) (og_off (k0 + n + Z.of_nat (S m)))) by lia.
        rewrite addressed_app, zslice_length by lia.
        match goal with |- _ = _ ++ addressed ?a _ => match goal with |- _ ++ addressed ?b _ = _ =>
          replace a with b by lia end end. reflexivity.
    Qed.

    Lemma og_gen_bytes fuel : bt = INCR -> forall k, 0 <= k <= C -> C - k <= Z.of_nat fuel ->
      all_bytes L (og_gen fuel k) = addressed (A + og_off k) (zslice D (og_off k) len).
    Proof.
      intros Hbt. induction fuel; intros k Hk Hf; cbn [og_gen].
      - replace k with C by lia. rewrite og_off_C, zslice_empty by lia. now rewrite addressed_nil.
      - destruct (Z.ltb_spec k C).
        2:{ replace k with C by lia. rewrite og_off_C, zslice_empty by lia. now rewrite addressed_nil. }
        pose proof (og_bl_range k ltac:(lia)) as (Hb & _).
        unfold all_bytes. cbn [flat_map fst snd]. fold (all_bytes L).
        change (flat_map (fun p0 => burst_bytes L (fst p0) 0 (snd p0)) (og_gen fuel (k + og_bl k)))
          with (all_bytes L (og_gen fuel (k + og_bl k))).
        rewrite IHfuel by lia.
        pose proof (og_burst_bytes k Hbt ltac:(lia) (Z.to_nat (og_bl k)) 0 ltac:(lia) ltac:(lia)) as Hbb.
        rewrite Z.add_0_r, Z2Nat.id in Hbb by lia. rewrite Hbb.
        pose proof (og_off_mono2 k (Z.to_nat (og_bl k)) ltac:(lia) ltac:(lia)) as Hmo.
        rewrite Z2Nat.id in Hmo by lia.
        rewrite (zslice_split D (og_off k) (og_off (k + og_bl k)) len) by lia.
        rewrite addressed_app, zslice_length by lia.
        match goal with |- _ = _ ++ addressed ?a _ => match goal with |- _ ++ addressed ?b _ = _ =>
          replace a with b by lia end end. reflexivity.
    Qed.
    Lemma og_gen_fst fuel : forall k, map fst (og_gen fuel k) = og_ars fuel k.
    Proof.
      induction fuel; intros k; cbn [og_gen og_ars map]; auto.
      destruct (k <? C); cbn [map fst]; auto. now rewrite IHfuel.
    Qed.

    Lemma mw_user_at k : 0 <= k -> mw_user wu k = wuser_at wu k.
    Proof.
      intros. unfold mw_user, wuser_at. destruct wu as [|l]; auto.
      destruct l as [|x l]; [unfold znth; now destruct (Z.to_nat k)|].
      destruct (Z.ltb_spec k (zlen (x :: l))); auto. symmetry. apply znth_over. assumption.
    Qed.

    Lemma og_beats_user m : forall k, 0 <= k ->
      map w_user (og_beats k m) = map (wuser_at wu) (zseq k m).
    Proof.
      induction m; intros k Hk; cbn [og_beats map zseq]; auto.
      rewrite IHm by lia. cbn [og_w w_user]. now rewrite mw_user_at.
    Qed.

    Lemma og_gen_user fuel : forall k, 0 <= k <= C -> C - k <= Z.of_nat fuel ->
      map w_user (flat_map snd (og_gen fuel k)) = map (wuser_at wu) (zrange k C).
    Proof.
      induction fuel; intros k Hk Hf; cbn [og_gen].
      - rewrite zrange_empty by lia. reflexivity.
      - destruct (Z.ltb_spec k C); [|rewrite zrange_empty by lia; reflexivity].
        pose proof (og_bl_range k ltac:(lia)) as (Hb & _).
        cbn [flat_map snd]. rewrite map_app, IHfuel, og_beats_user by lia.
        rewrite (zrange_split k (k + og_bl k) C) by lia. rewrite map_app. f_equal.
        unfold zrange. do 3 f_equal. lia.
    Qed.

    Lemma og_w_fits k last : 0 <= k < C -> 0 <= w_data (og_w k last) < 256 ^ L /\ 0 <= w_strb (og_w k last) < 2 ^ L.
    Proof.
      intros Hk. cbn [og_w w_data w_strb]. split; [|apply og_sel_spec; exact Hk].
      pose proof (og_lanes k Hk) as (Hl1 & Hl2). pose proof (og_lohi k Hk) as (Hh1 & Hh2).
      assert (A <= og_lo k) by (unfold og_lo; lia).
      assert (Hb : are_bytes (zeros (og_lo k mod L) ++ zslice D (og_lo k - A) (og_hi k - A))).
      { apply are_bytes_app. split; [apply are_bytes_zeros|apply are_bytes_zslice; exact HD]. }
      pose proof (le_int_bound _ Hb) as Hbd. rewrite zlen_app, zeros_length, zslice_length in Hbd by lia.
      unfold placed. split; [lia|]. eapply Z.lt_le_trans; [apply Hbd|].
      apply Z.pow_le_mono_r; lia.
    Qed.

    (** strobes only inside the container of the beat, zero data elsewhere *)
    Lemma og_w_lanes k last i : 0 <= k < C -> 0 <= i < L ->
      if Z.testbit (w_strb (og_w k last)) i
      then og_ba k <= down L (og_ba k) + i < og_ba k + nb
      else lane_byte (w_data (og_w k last)) i = 0.
    Proof.
      intros Hk Hi. destruct (og_sel_spec k Hk) as (_ & Hbits & _). cbn [og_w w_strb w_data].
      rewrite Hbits by lia.
      pose proof (og_lanes k Hk) as (Hl1 & Hl2). pose proof (og_lohi k Hk) as (Hh1 & Hh2).
      pose proof (og_lo_range k Hk) as Hlo.
      assert (A <= og_lo k) by (unfold og_lo; lia).
      destruct ((og_lo k mod L <=? i) && (i <? og_lo k mod L + (og_hi k - og_lo k))) eqn:E.
      - assert (Hd : down L (og_ba k) = down L (og_lo k)).
        { unfold L. rewrite HL. fold nb. unfold og_ba in *. fold nb u in Hlo |- *.
          rewrite !(down_within nb q (u + k)); auto; lia. }
        rewrite Hd. unfold down. lia.
      - rewrite lane_placed by (first [apply are_bytes_zslice; exact HD | lia]).
        rewrite zslice_length by lia.
        replace (og_lo k mod L + (og_hi k - A - (og_lo k - A)))
          with (og_lo k mod L + (og_hi k - og_lo k)) by lia.
        now rewrite E.
    Qed.

    Lemma og_beats_nth m : forall k j d, (j < m)%nat ->
      exists last, nth j (og_beats k m) d = og_w (k + Z.of_nat j) last.
    Proof.
      induction m; intros k j d Hj; [lia|]. cbn [og_beats].
      destruct j as [|j]; cbn [nth].
      - replace (k + Z.of_nat 0) with k by lia. eauto.
      - destruct (IHm (k + 1) j d ltac:(lia)) as (last & ->). exists last. f_equal. lia.
    Qed.
  End Data.
End Op.
