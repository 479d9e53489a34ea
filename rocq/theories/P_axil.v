(** Lemmas for the AXI-Lite data path. *)
From Coq Require Import ZArith Lia List Bool.
From Coq Require Import ZifyBool ZifyNat.
From Verif Require Import Py S_flat M_axi S_axi P_axi P_axislave P_axiop P_axicomp M_axil S_axil.
Import ListNotations.
Open Scope Z_scope.

(** ** geometry *)
Section Geo.
  Variables (L A n : Z).
  Hypothesis HL : 0 < L.
  Hypothesis Hn : 0 <= n.
  Let s := A mod L.
  Let C := lite_cycles L A n.
  (** first data index of cycle k *)
  Definition lg_off (k : Z) : Z := if k =? 0 then 0 else k * L - s.

  Lemma lg_facts : 0 <= s < L /\ A = L * (A / L) + s /\ 0 <= C /\ (C = 0 <-> n = 0 /\ s = 0) /\
    (0 < C -> n + s <= C * L < n + s + L).
  Proof.
    unfold C, lite_cycles. fold s. pose proof (Z.mod_pos_bound A L HL). pose proof (Z.div_mod A L ltac:(lia)).
    fold s in H, H0.
    pose proof (Z.div_mod (n + s + L - 1) L ltac:(lia)) as E. pose proof (Z.mod_pos_bound (n + s + L - 1) L HL).
    set (q := (n + s + L - 1) / L) in *.
    assert (0 <= q) by (apply Z.div_pos; lia).
    split; [lia|]. split; [lia|]. split; [lia|]. split; [|nia].
    split; [|intros [-> ->]; nia]. intros ->. lia.
  Qed.

  Lemma lg_stop_last : 0 < C -> (A + n - 1) mod L + 1 = n + s - (C - 1) * L.
  Proof.
    intros HC. destruct lg_facts as (Hs & HA & _ & _ & Hc). specialize (Hc HC).
    enough ((A + n - 1) mod L = n + s - (C - 1) * L - 1) by lia.
    symmetry. apply (Z.mod_unique_pos _ _ (A / L + C - 1)); lia.
  Qed.

  Lemma lg_cycle k : 0 <= k < C ->
    let st := lite_start L A k in let en := lite_stop L A n C k in
    0 <= st /\ st <= en /\ en <= L /\ st < L /\ 0 <= lg_off k /\
    lg_off k + (en - st) = (if k =? C - 1 then n else lg_off (k + 1)) /\
    lg_off k + (en - st) <= n /\ down L (lite_addr L A k) = L * (A / L) + k * L /\
    down L (lite_addr L A k) + st = A + lg_off k /\ (k = 0 \/ lite_addr L A k = down L A + k * L).
  Proof.
    intros Hk. cbn zeta. pose proof lg_facts as (Hs & HA & _ & _ & Hc). specialize (Hc ltac:(lia)).
    pose proof (lg_stop_last ltac:(lia)) as Hst. unfold lite_start, lite_stop, lg_off, lite_addr. fold s. rewrite Hst.
    assert (Hd : down L A = L * (A / L)) by (now apply down_eq; lia).
    assert (Hd2 : forall j, down L (A / L * L + j * L) = L * (A / L) + j * L).
    { intros j. replace (A / L * L + j * L) with (L * (A / L + j)) by ring. rewrite down_mul. ring. }
    destruct (Z.eqb_spec k 0) as [->|Hk0].
    - replace (0 + 1 =? 0) with false by lia. rewrite Hd.
      destruct (Z.eqb_spec 0 (C - 1)); repeat (split; [nia|]); auto.
    - replace (k + 1 =? 0) with false by lia. rewrite Hd2, Hd.
      destruct (Z.eqb_spec k (C - 1)) as [E|E]; [subst k|]; repeat (split; [nia|]); right; nia.
  Qed.

  Lemma lite_strb_spec k : 0 <= k < C ->
    let v := lite_strb L A n C k in
    (forall i, 0 <= i -> Z.testbit v i = (lite_start L A k <=? i) && (i <? lite_stop L A n C k)) /\ 0 <= v < 2 ^ L.
  Proof.
    intros Hk. cbn zeta. destruct (lg_cycle k Hk) as (H1 & H2 & H3 & H4 & _). cbn zeta in *.
    assert (Hb : forall i, 0 <= i -> Z.testbit (lite_strb L A n C k) i =
       (lite_start L A k <=? i) && (i <? lite_stop L A n C k)).
    { intros i Hi. revert H1 H2 H3 H4. unfold lite_strb, lite_start, lite_stop. fold s.
      set (e := (A + n - 1) mod L + 1). intros H1 H2 H3 H4.
      assert (Hm : Z.testbit (strb_mask L) i = (i <? L)) by (apply testbit_strb_mask; lia).
      assert (Hsl : Z.testbit (Z.shiftl (strb_mask L) s) i = (s <=? i) && (i - s <? L)).
      { rewrite Z.shiftl_spec by lia. destruct (Z.leb_spec s i); [now rewrite testbit_strb_mask by lia|].
        now rewrite Z.testbit_neg_r by lia. }
      assert (Hsr : e <= L -> Z.testbit (Z.shiftr (strb_mask L) (L - e)) i = (i <? e)).
      { intros He. rewrite Z.shiftr_spec by lia. rewrite testbit_strb_mask by lia. lia. }
      destruct (k =? 0), (k =? C - 1); rewrite ?Z.land_spec, ?Hm, ?Hsl, ?Hsr by lia; lia. }
    split; [exact Hb|].
    assert (0 <= strb_mask L) by (unfold strb_mask; pose proof (Z.pow_pos_nonneg 2 L); lia).
    set (v := lite_strb L A n C k) in *.
    assert (0 <= v).
    { unfold v, lite_strb. destruct (k =? 0), (k =? C - 1);
        repeat first [assumption | apply Z.land_nonneg; left]. }
    split; auto. destruct (Z.eq_dec v 0); [pose proof (Z.pow_pos_nonneg 2 L); lia|].
    apply Z.log2_lt_pow2; [lia|]. destruct (Z.ltb_spec (Z.log2 v) L); auto.
    pose proof (Z.bit_log2 v ltac:(lia)) as B. rewrite Hb in B by (apply Z.log2_nonneg). lia.
  Qed.
End Geo.

(** ** the write side of the master *)
Section Write.
  Variables (L A prot : Z) (D : list Z).
  Hypothesis HL : 0 < L.
  Hypothesis HD : are_bytes D.
  Local Notation n := (zlen D).
  Local Notation C := (lite_cycles L A (zlen D)).
  Local Notation cmd := ({| lc_addr := A; lc_data := D; lc_prot := prot |}).

  Definition lw_part (k : Z) : list Z :=
    zslice D (lg_off L A k) (lg_off L A k + (lite_stop L A n C k - lite_start L A k)).
  Definition lw_a (k : Z) : lax := {| la_addr := lite_addr L A k; la_prot := prot |}.
  Definition lw_w (k : Z) : lwd :=
    {| lw_data := placed (lite_start L A k) (lw_part k); lw_strb := lite_strb L A n C k |}.

  Lemma lite_loop_spec todo : forall k, 0 <= k -> k + Z.of_nat todo = C ->
    lite_write_loop L cmd C todo k (lg_off L A k) =
    (flat_map (fun j => [LAW (lw_a j); LW (lw_w j)]) (zseq k todo), Ok tt).
  Proof.
    pose proof (zlen_nonneg D) as Hn.
    induction todo as [|todo IH]; intros k Hk Hc; cbn [lite_write_loop zseq flat_map app]; auto.
    destruct (lg_cycle L A n HL Hn k) as (H1 & H2 & H3 & H4 & H5 & H6 & H7 & H8 & _); [lia|].
    cbn [lc_addr lc_data lc_prot]. rewrite mw_val_range by (auto; lia).
    fold (lw_part k). rewrite H6.
    destruct (Z.eqb_spec k (C - 1)) as [E|E].
    - assert (todo = O) as -> by lia. reflexivity.
    - rewrite IH by lia. reflexivity.
  Qed.

  Lemma lite_write_spec :
    lite_write L cmd = (flat_map (fun j => [LAW (lw_a j); LW (lw_w j)]) (zrange 0 C), Ok tt).
  Proof.
    pose proof (zlen_nonneg D) as Hn. pose proof (lg_facts L A n HL Hn) as (_ & _ & HC & _).
    unfold lite_write, zrange. cbn [lc_addr lc_data]. rewrite Z.sub_0_r.
    change 0 with (lg_off L A 0) at 2. rewrite lite_loop_spec by lia. reflexivity.
  Qed.

  Lemma law_of_pairs l : law_of (flat_map (fun j => [LAW (lw_a j); LW (lw_w j)]) l) = map lw_a l.
  Proof. induction l; cbn; congruence. Qed.
  Lemma lw_of_pairs l : lw_of (flat_map (fun j => [LAW (lw_a j); LW (lw_w j)]) l) = map lw_w l.
  Proof. induction l; cbn; congruence. Qed.

  Definition lw_wch (w : lwd) : wch := {| w_data := lw_data w; w_strb := lw_strb w; w_last := true; w_user := 0 |}.
  Lemma lite_strobed_eq a w : lite_strobed L a w = strobed L (down L (la_addr a)) (lw_wch w).
  Proof. reflexivity. Qed.

  Lemma lw_part_len k : 0 <= k < C -> zlen (lw_part k) = lite_stop L A n C k - lite_start L A k /\ are_bytes (lw_part k).
  Proof.
    intros Hk. pose proof (zlen_nonneg D) as Hn.
    destruct (lg_cycle L A n HL Hn k Hk) as (H1 & H2 & H3 & H4 & H5 & H6 & H7 & _).
    unfold lw_part. split; [|now apply are_bytes_zslice]. rewrite zslice_length by (lia). lia.
  Qed.

  Lemma lite_word_bytes k : 0 <= k < C ->
    lite_strobed L (lw_a k) (lw_w k) = addressed (A + lg_off L A k) (lw_part k).
  Proof.
    intros Hk. pose proof (zlen_nonneg D) as Hn.
    destruct (lg_cycle L A n HL Hn k Hk) as (H1 & H2 & H3 & H4 & H5 & H6 & H7 & H8 & H9 & _).
    destruct (lite_strb_spec L A n HL Hn k Hk) as (Hb & _). cbn zeta in *.
    destruct (lw_part_len k Hk) as (Hl & Hby).
    unfold lite_strobed. cbn [lw_a lw_w la_addr lw_data lw_strb].
    rewrite (filter_zrange _ 0 L (lite_start L A k) (lite_stop L A n C k)); [|lia|lia|intros; apply Hb; lia].
    replace (lite_stop L A n C k) with (lite_start L A k + zlen (lw_part k)) by lia.
    rewrite map_zrange_combine.
    - now rewrite H9.
    - intros i Hi. rewrite lane_placed by (auto; lia).
      replace ((lite_start L A k <=? lite_start L A k + i) && (lite_start L A k + i <? lite_start L A k + zlen (lw_part k)))
        with true by lia. f_equal. lia.
  Qed.

  Lemma lite_all_bytes todo : forall k, 0 <= k -> k + Z.of_nat todo = C -> (todo = O -> C = 0) ->
    flat_map (fun j => lite_strobed L (lw_a j) (lw_w j)) (zseq k todo) =
    addressed (A + lg_off L A k) (zslice D (lg_off L A k) n).
  Proof.
    pose proof (zlen_nonneg D) as Hn.
    induction todo as [|todo IH]; intros k Hk Hc H0; cbn [zseq flat_map].
    - rewrite zslice_empty, addressed_nil; auto. destruct (lg_facts L A n HL Hn) as (_ & _ & _ & Hz & _).
       unfold lg_off. replace (k =? 0) with true by lia. specialize (H0 eq_refl). lia.
    - rewrite lite_word_bytes by lia.
      destruct (lg_cycle L A n HL Hn k) as (H1 & H2 & H3 & H4 & H5 & H6 & H7 & H8 & _); [lia|].
      destruct (lw_part_len k) as (Hl & _); [lia|].
      rewrite (zslice_split D (lg_off L A k) (lg_off L A k + (lite_stop L A n C k - lite_start L A k)) n) by (lia).
      fold (lw_part k). rewrite addressed_app, Hl. f_equal.
      destruct (Z.eqb_spec k (C - 1)) as [E|E].
      + assert (todo = O) as -> by lia. cbn [zseq flat_map]. rewrite H6, zslice_empty by lia. now rewrite addressed_nil.
      + rewrite H6, IH by lia. f_equal. lia.
  Qed.

  Lemma combine_map {X Y Z'} (f : X -> Y) (g : X -> Z') l : combine (map f l) (map g l) = map (fun x => (f x, g x)) l.
  Proof. induction l; cbn; congruence. Qed.

  Lemma lite_bytes_spec : lite_bytes L (map lw_a (zrange 0 C)) (map lw_w (zrange 0 C)) = addressed A D.
  Proof.
    pose proof (zlen_nonneg D) as Hn. pose proof (lg_facts L A n HL Hn) as (_ & _ & HC & _).
    unfold lite_bytes. rewrite combine_map. rewrite flat_map_concat_map, map_map. cbn [fst snd].
    rewrite <- flat_map_concat_map. unfold zrange. rewrite Z.sub_0_r. rewrite lite_all_bytes by lia.
    unfold lg_off at 1 2. replace (0 =? 0) with true by lia. rewrite Z.add_0_r. now rewrite zslice_all by (lia).
  Qed.

  Lemma lw_w_fits k : 0 <= k < C -> 0 <= lw_data (lw_w k) < 256 ^ L /\ 0 <= lw_strb (lw_w k) < 2 ^ L /\
    forall i, 0 <= i < L -> Z.testbit (lw_strb (lw_w k)) i = false -> lane_byte (lw_data (lw_w k)) i = 0.
  Proof.
    intros Hk. pose proof (zlen_nonneg D) as Hn.
    destruct (lg_cycle L A n HL Hn k Hk) as (H1 & H2 & H3 & _).
    destruct (lite_strb_spec L A n HL Hn k Hk) as (Hb & Hf). cbn zeta in *.
    destruct (lw_part_len k Hk) as (Hl & Hby). cbn [lw_w lw_data lw_strb]. split; [|split; [exact Hf|]].
    - unfold placed. assert (HB : are_bytes (zeros (lite_start L A k) ++ lw_part k)).
      { apply are_bytes_app. split; [apply are_bytes_zeros|auto]. }
      pose proof (le_int_bound _ HB) as Hx. rewrite zlen_app, zeros_length, Hl in Hx by lia.
      split; [lia|]. eapply Z.lt_le_trans; [apply Hx|]. apply Z.pow_le_mono_r; lia.
    - intros i Hi Ht. rewrite Hb in Ht by lia. rewrite lane_placed by (auto; lia).
      replace ((lite_start L A k <=? i) && (i <? lite_start L A k + zlen (lw_part k))) with false by lia. reflexivity.
  Qed.
End Write.

(** ** the slave on a flat target *)
Section Flat.
  Context {T : Type} (L lo hi : Z) (phi : Z -> Z) (inv : T -> Prop) (view : T -> flat)
    (tw : T -> Z -> list Z -> T * res unit) (tr : T -> Z -> Z -> T * res (list Z)).
  Hypothesis Hft : flat_target L lo hi phi inv view tw tr.
  Hypothesis HL : 0 < L.

  Lemma lite_sw_flat a w t : inv t -> 0 <= lw_data w < 256 ^ L ->
    Forall (in_range lo hi) (lite_strobed L a w) ->
    exists t', lite_sw tw L true a w t = (t', Ok OKAY) /\ inv t' /\
      view t' =f put phi (view t) (lite_strobed L a w).
  Proof.
    intros Hi Hw Hr. unfold lite_sw.
    destruct (to_bytes_fits (lw_data w) L Little ltac:(lia) Hw) as (data & Hd). rewrite Hd.
    rewrite div_mul_down by lia. rewrite lite_strobed_eq in *. set (word := down L (la_addr a)) in *.
    destruct (beat_ops L word (lw_wch w) data Hd ltac:(lia)) as (Hb & Ho). cbn zeta in Hb, Ho. cbn [lw_wch w_strb] in Hb, Ho.
    destruct (sw_perform_flat L lo hi phi inv view tw tr Hft HL word) with
      (ops := sw_ops word data (lw_strb w) (zrange 0 L) 0 None) (t := t) as (t' & Ep & Hi' & Hv'); auto.
    { unfold word. rewrite down_eq by lia. rewrite Z.mul_comm. apply Z.mod_mul. lia. }
    { rewrite Hb. exact Hr. }
    rewrite Ep. exists t'. rewrite <- Hb. auto.
  Qed.

  Lemma lite_slave_write_flat aws : forall ws t, length aws = length ws -> inv t ->
    Forall (fun w => 0 <= lw_data w < 256 ^ L) ws -> Forall (in_range lo hi) (lite_bytes L aws ws) ->
    exists t', lite_slave_write tw L true aws ws t = (t', repeat OKAY (length aws), Ok ([], [])) /\ inv t' /\
      view t' =f put phi (view t) (lite_bytes L aws ws).
  Proof.
    induction aws as [|a aws IH]; intros [|w ws] t Hlen Hi Hw Hr; try discriminate.
    - exists t. cbn. auto using feq_refl.
    - inversion Hw; subst. unfold lite_bytes in Hr. cbn [combine flat_map fst snd] in Hr.
      apply Forall_app_l in Hr. destruct Hr as [Hr1 Hr2].
      destruct (lite_sw_flat a w t Hi) as (t1 & E1 & Hi1 & Hv1); auto.
      destruct (IH ws t1) as (t2 & E2 & Hi2 & Hv2); auto.
      exists t2. cbn [lite_slave_write length repeat]. rewrite E1, E2. split; auto. split; auto.
      unfold lite_bytes. cbn [combine flat_map fst snd]. rewrite put_app.
      eapply feq_trans; [exact Hv2|]. apply put_feq. exact Hv1.
  Qed.

  Lemma agg_repeat n : lite_write_resp (repeat OKAY n) = OKAY.
  Proof. unfold lite_write_resp. induction n; cbn; auto. Qed.

  Lemma addressed_in a d : lo <= a -> a + zlen d <= hi -> Forall (in_range lo hi) (addressed a d).
  Proof.
    intros H1 H2. apply Forall_forall. intros [x b] Hin. unfold addressed in Hin. apply in_combine_l in Hin.
    apply in_zrange in Hin. unfold in_range. cbn [fst]. lia.
  Qed.

  Lemma lite_write_exact cmd t : are_bytes (lc_data cmd) -> lo <= lc_addr cmd ->
    lc_addr cmd + zlen (lc_data cmd) <= hi -> inv t ->
    let evs := fst (lite_write L cmd) in
    exists t' bs, lite_slave_write tw L true (law_of evs) (lw_of evs) t = (t', bs, Ok ([], [])) /\ inv t' /\
      view t' =f put phi (view t) (addressed (lc_addr cmd) (lc_data cmd)) /\
      zlen bs = lite_cycles L (lc_addr cmd) (zlen (lc_data cmd)) /\ lite_write_resp bs = OKAY.
  Proof.
    destruct cmd as [A D prot]. cbv zeta. cbn [lc_addr lc_data]. intros HD Hlo Hhi Hi.
    rewrite lite_write_spec by auto. cbn [fst]. rewrite law_of_pairs, lw_of_pairs.
    pose proof (zlen_nonneg D) as Hn.
    pose proof (lg_facts L A (zlen D) HL Hn) as (_ & _ & HC & _).
    rewrite <- (lite_bytes_spec L A prot D HL HD).
    destruct (lite_slave_write_flat (map (lw_a L A prot) (zrange 0 (lite_cycles L A (zlen D))))
       (map (lw_w L A D) (zrange 0 (lite_cycles L A (zlen D)))) t) as (t' & E & Hi' & Hv).
    - now rewrite !map_length.
    - auto.
    - apply Forall_forall. intros w Hw. apply in_map_iff in Hw. destruct Hw as (k & <- & Hk). apply in_zrange in Hk.
      now apply lw_w_fits.
    - rewrite lite_bytes_spec by auto. now apply addressed_in.
    - exists t'. eexists. split; [exact E|]. split; auto. split; auto. split; [|apply agg_repeat].
      unfold zlen at 1. rewrite repeat_length, map_length, zrange_length. lia.
  Qed.
End Flat.

Section FlatRead.
  Context {T : Type} (L lo hi : Z) (phi : Z -> Z) (inv : T -> Prop) (view : T -> flat)
    (tw : T -> Z -> list Z -> T * res unit) (tr : T -> Z -> Z -> T * res (list Z)).
  Hypothesis Hft : flat_target L lo hi phi inv view tw tr.
  Hypothesis HL : 0 < L.
  Hypothesis Hlo : lo mod L = 0.
  Hypothesis Hhi : hi mod L = 0.

  (** the R transfer for a word *)
  Definition lr_word (t : T) (a : lax) : lrd :=
    {| lr_data := le_int (map (fun x => view t (phi x)) (zrange (down L (la_addr a)) (down L (la_addr a) + L)));
       lr_resp := OKAY |}.

  Lemma down_range x : lo <= x < hi -> lo <= down L x /\ down L x + L <= hi /\ down L x mod L = 0.
  Proof.
    intros Hx. rewrite down_eq by lia.
    pose proof (Z.div_mod x L ltac:(lia)). pose proof (Z.mod_pos_bound x L HL).
    pose proof (Z.div_mod lo L ltac:(lia)). pose proof (Z.div_mod hi L ltac:(lia)).
    assert (lo / L <= x / L) by (apply Z.div_le_mono; lia).
    assert (x / L < hi / L) by (apply Z.div_lt_upper_bound; lia).
    split; [nia|]. split; [nia|]. rewrite Z.mul_comm. apply Z.mod_mul. lia.
  Qed.

  Lemma lite_slave_read_flat ars : forall t, inv t -> Forall (fun a => lo <= la_addr a < hi) ars ->
    exists t', lite_slave_read tr L ars t = (t', map (lr_word t) ars) /\ inv t' /\ view t' =f view t.
  Proof.
    induction ars as [|a ars IH]; intros t Hi Hr; cbn [lite_slave_read map].
    - exists t. auto using feq_refl.
    - inversion Hr as [|? ? Ha Hr']; subst. destruct (down_range _ Ha) as (H1 & H2 & H3).
      destruct (ft_read _ _ _ _ _ _ _ _ Hft t _ Hi H1 H2 H3) as (t1 & E1 & Hi1 & Hv1).
      unfold lite_sr. rewrite div_mul_down by lia. rewrite E1. cbv iota beta zeta.
      destruct (IH t1 Hi1 Hr') as (t2 & E2 & Hi2 & Hv2). rewrite E2. exists t2. split.
      + f_equal. f_equal. apply map_ext. intros b. unfold lr_word. f_equal. f_equal. apply map_ext. intros x. apply Hv1.
      + split; auto. eapply feq_trans; eauto.
  Qed.

  Lemma lite_read_loop_spec cmd t : inv t -> 0 <= lr_len cmd ->
    let A := lr_addr cmd in let n := lr_len cmd in let C := lite_cycles L A n in
    forall todo k data, 0 <= k -> k + Z.of_nat todo = C -> (todo = O -> C = 0) ->
    lite_read_loop L cmd C k
      (map (lr_word t) (map (fun k => {| la_addr := lite_addr L A k; la_prot := lr_prot cmd |}) (zseq k todo))) data OKAY =
    (data ++ map (fun x => view t (phi x)) (zrange (A + lg_off L A k) (A + n)), OKAY).
  Proof.
    intros Hi Hn A n C. induction todo as [|todo IH]; intros k data Hk Hc H0; cbn [zseq map lite_read_loop].
    - rewrite zrange_empty; [cbn; now rewrite app_nil_r|]. unfold lg_off. replace (k =? 0) with true by lia.
      destruct (lg_facts L A n HL Hn) as (_ & _ & _ & Hz & _). fold C in Hz. specialize (H0 eq_refl). lia.
    - destruct (lg_cycle L A n HL Hn k) as (H1 & H2 & H3 & H4 & H5 & H6 & H7 & H8 & H9 & _); [fold C; lia|].
      fold C in H1, H2, H3, H6, H7.
      change (agg_resp OKAY (lr_resp (lr_word t {| la_addr := lite_addr L A k; la_prot := lr_prot cmd |}))) with OKAY.
      fold A n. cbn [lr_word lr_data la_addr].
      rewrite beat_bytes_le_int; [| |lia|rewrite zlen_map, zlen_zrange; lia].
      2:{ apply Forall_forall. intros b Hb. apply in_map_iff in Hb. destruct Hb as (x & <- & _).
          apply (ft_bytes _ _ _ _ _ _ _ _ Hft); auto. }
      rewrite zslice_map_zrange by lia. rewrite H9.
      replace (down L (lite_addr L A k) + lite_stop L A n C k)
        with (A + (lg_off L A k + (lite_stop L A n C k - lite_start L A k))) by lia.
      destruct (Z.eqb_spec k (C - 1)) as [E|E].
      + assert (todo = O) as -> by lia. cbn [zseq map lite_read_loop]. now rewrite H6.
      + rewrite IH by lia. rewrite <- app_assoc, <- map_app. f_equal. f_equal. f_equal. rewrite <- H6.
        symmetry. apply zrange_split; lia.
  Qed.

  Lemma lite_read_exact cmd t : 0 <= lr_len cmd -> lo <= lr_addr cmd < hi -> lr_addr cmd + lr_len cmd <= hi -> inv t ->
    exists t' rs, lite_slave_read tr L (lite_read L cmd) t = (t', rs) /\ inv t' /\ view t' =f view t /\
      zlen rs = zlen (lite_read L cmd) /\
      lite_read_resp L cmd rs =
        (map (fun x => view t (phi x)) (zrange (lr_addr cmd) (lr_addr cmd + lr_len cmd)), OKAY).
  Proof.
    intros Hn Ha Hb Hi. set (A := lr_addr cmd) in *. set (n := lr_len cmd) in *.
    pose proof (lg_facts L A n HL Hn) as (Hs & HA & HC & _ & Hc).
    destruct (lite_slave_read_flat (lite_read L cmd) t Hi) as (t' & E & Hi' & Hv).
    { apply Forall_forall. intros a Hin. apply in_map_iff in Hin. destruct Hin as (k & <- & Hk). apply in_zrange in Hk.
      fold A n in Hk. cbn [la_addr]. fold A. destruct (lg_cycle L A n HL Hn k Hk) as (_ & _ & _ & _ & _ & _ & _ & _ & _ & [->|Ek]).
      - exact Ha.
      - destruct (down_range A ltac:(lia)) as (H1 & H2 & H3). rewrite Ek. split; [lia|].
        pose proof (Z.div_mod hi L ltac:(lia)). specialize (Hc ltac:(lia)).
        rewrite down_eq by lia. nia. }
    exists t'. eexists. split; [exact E|]. split; auto. split; auto. split; [apply zlen_map|].
    unfold lite_read_resp, lite_read, zrange. fold A n. rewrite !Z.sub_0_r. rewrite lite_read_loop_spec; auto; try (fold A n; lia).
    cbn [app]. unfold lg_off. replace (0 =? 0) with true by lia. fold A n. rewrite Z.add_0_r. reflexivity.
  Qed.
End FlatRead.

(** ** slave on an arbitrary target *)
Section Any.
  Context {T : Type} (tw : T -> Z -> list Z -> T * res unit).
  Variable L : Z.
  Hypothesis HL : 0 < L.

  Lemma lite_sw_any (sp : bool) a w t log : 0 <= lw_data w < 256 ^ L ->
    exists t' new,
      lite_sw (log_write tw) L sp a w (t, log) =
        ((t', log ++ new), Ok (if existsb failed new then SLVERR else OKAY)) /\
      lite_calls L sp a w new.
  Proof.
    intros Hw. destruct (to_bytes_fits (lw_data w) L Little ltac:(lia) Hw) as (data & Hd).
    unfold lite_sw. rewrite Hd. rewrite div_mul_down by lia. set (word := down L (la_addr a)).
    set (w' := {| lw_data := lw_data w; lw_strb := if sp then lw_strb w else 2 ^ L - 1 |}).
    change (if sp then lw_strb w else strb_mask L) with (lw_strb w').
    destruct (beat_ops L word (lw_wch w') data Hd ltac:(lia)) as (Hb & Ho). cbn zeta in Hb, Ho. cbn [lw_wch w_strb] in Hb, Ho.
    set (ops := sw_ops word data (lw_strb w') (zrange 0 L) 0 None) in *.
    destruct (sw_perform_log tw ops t log) as (t' & new & rest & E & He & Hops & Hrest).
    exists t', new. split.
    - rewrite E. f_equal. f_equal. destruct (existsb failed new); [|reflexivity].
      destruct (snd (sw_perform (log_write tw) (t, log) ops)); [discriminate|reflexivity].
    - split.
      + exists (ops_bytes rest). rewrite Hops in Hb. rewrite <- ops_bytes_calls.
        split; [|intros HF; now rewrite (Hrest HF)].
        unfold ops_bytes in *. rewrite <- flat_map_app. symmetry. exact Hb.
      + rewrite Hops in Ho. apply Forall_app in Ho. destruct Ho as [Ho _]. rewrite Forall_map in Ho.
        eapply Forall_impl; [|exact Ho]. intros e (_ & H0 & _) Hnil. rewrite Hnil in H0. cbn in H0. lia.
  Qed.

  Lemma lite_slave_write_any sp pairs : forall t log resta restw,
    Forall (fun p => 0 <= lw_data (snd p) < 256 ^ L) pairs -> resta = [] \/ restw = [] ->
    exists t' ans,
      lite_slave_write (log_write tw) L sp (map fst pairs ++ resta) (map snd pairs ++ restw) (t, log) =
        ((t', log ++ concat ans), map (fun x => if existsb failed x then SLVERR else OKAY) ans, Ok (resta, restw)) /\
      Forall2 (fun p x => lite_calls L sp (fst p) (snd p) x) pairs ans.
  Proof.
    induction pairs as [|[a w] pairs IH]; intros t log ra rw Hw Hr; cbn [map app fst snd].
    - exists t, []. cbn [concat map]. rewrite app_nil_r. split; [|constructor].
      destruct ra; [destruct rw; reflexivity|]. destruct rw; [reflexivity|]. destruct Hr; discriminate.
    - inversion Hw as [|? ? Hw0 Hw1]; subst. cbn [snd] in Hw0. cbn [lite_slave_write].
      destruct (lite_sw_any sp a w t log Hw0) as (t1 & new & E1 & Hc). rewrite E1.
      destruct (IH t1 (log ++ new) ra rw Hw1 Hr) as (t2 & ans & E2 & Ha). rewrite E2.
      exists t2, (new :: ans). cbn [concat map]. rewrite <- app_assoc. split; auto.
  Qed.

End Any.

Section AnyRead.
  Context {T : Type} (tr : T -> Z -> Z -> T * res (list Z)).
  Variable L : Z.
  Hypothesis HL : 0 < L.

  Lemma lite_slave_read_any ars : forall t log,
    exists t' ans,
      lite_slave_read (log_read tr) L ars (t, log) =
        ((t', log ++ ans),
         map (fun x => {| lr_data := match snd x with Ok d => le_int d | Err _ => 0 end;
                          lr_resp := if is_err (snd x) then SLVERR else OKAY |}) ans) /\
      map fst ans = map (fun a => (down L (la_addr a), L)) ars.
  Proof.
    induction ars as [|a ars IH]; intros t log; cbn [lite_slave_read].
    - exists t, []. rewrite app_nil_r. auto.
    - unfold lite_sr, log_read at 1. cbn [fst snd]. rewrite div_mul_down by lia.
      destruct (tr t (down L (la_addr a)) L) as [t1 r] eqn:E.
      destruct (IH t1 (log ++ [(down L (la_addr a), L, r)])) as (t2 & ans & E2 & Hm).
      exists t2, ((down L (la_addr a), L, r) :: ans). rewrite <- app_assoc in E2. cbn [app] in E2.
      cbn [map fst snd]. rewrite Hm. split; [|reflexivity].
      destruct r as [d|e]; cbv iota beta zeta; rewrite E2; cbn [is_err]; rewrite ?le_int_zeros; reflexivity.
  Qed.
End AnyRead.

Lemma lite_read_loop_resp L cmd C : forall rs k data r0,
  snd (lite_read_loop L cmd C k rs data r0) = fold_left agg_resp (map lr_resp rs) r0.
Proof. induction rs as [|r rs IH]; intros; cbn [lite_read_loop map fold_left]; auto. Qed.
