(** C89 for AXI-Lite and APB reads: what the master makes of the words it gets. *)
From Coq Require Import ZArith Lia List Bool.
From Coq Require Import ZifyBool ZifyNat.
From Verif Require Import Py S_flat M_axi S_axi M_axil P_axi P_axil T_readany.
Import ListNotations.
Open Scope Z_scope.

Lemma zrange_plus b i j : zrange (b + i) (b + j) = map (fun x => b + x) (zrange i j).
Proof.
  unfold zrange. replace (b + j - (b + i)) with (j - i) by lia. generalize (Z.to_nat (j - i)) as m. intros m. revert i.
  induction m as [|m IH]; intros i; cbn [zseq map]; [reflexivity|]. f_equal. rewrite <- IH. f_equal. lia.
Qed.

Lemma lite_loop_lanes L cmd r0 : 0 < L -> 0 <= lr_len cmd ->
  let A := lr_addr cmd in let n := lr_len cmd in let C := lite_cycles L A n in
  forall rs k data r, 0 <= k -> k + zlen rs = C -> (rs = [] -> C = 0) ->
  fst (lite_read_loop L cmd C k rs data r) =
  data ++ map (fun x => lane_byte (lr_data (nth (Z.to_nat (x / L - A / L - k)) rs r0)) (x mod L)) (zrange (A + lg_off L A k) (A + n)).
Proof.
  intros HL Hn A n C. induction rs as [|w rs IH]; intros k data r Hk Hc H0; cbn [lite_read_loop].
  - cbn [fst]. specialize (H0 eq_refl). change (zlen (@nil lrd)) with 0 in Hc.
    destruct (lg_facts L A n HL Hn) as (_ & _ & _ & Hz & _). fold C in Hz. unfold lg_off. replace (k =? 0) with true by lia.
    rewrite zrange_empty by lia. now rewrite app_nil_r.
  - rewrite zlen_cons in Hc. pose proof (zlen_nonneg rs) as Hz.
    destruct (lg_cycle L A n HL Hn k) as (H1 & H2 & H3 & H4 & H5 & H6 & H7 & H8 & H9 & _); [fold C; lia|].
    fold C in H1, H2, H3, H6, H7. fold A n.
    set (st := lite_start L A k) in *. set (en := lite_stop L A n C k) in *.
    assert (HB : forall l, beat_bytes (lr_data w) st en =
      map (fun x => lane_byte (lr_data (nth (Z.to_nat (x / L - A / L - k)) (w :: l) r0)) (x mod L))
        (zrange (A + lg_off L A k) (A + (lg_off L A k + (en - st))))).
    { intros l. rewrite <- H9. replace (A + (lg_off L A k + (en - st))) with (down L (lite_addr L A k) + en) by lia.
      rewrite zrange_plus, map_map. unfold beat_bytes. apply map_ext_in. intros j Hj. apply in_zrange in Hj.
      rewrite lane_byte_land by lia. rewrite H8. replace (L * (A / L) + k * L + j) with (j + (A / L + k) * L) by ring.
      rewrite Z.div_add, Z_mod_plus_full, Z.div_small, Z.mod_small by lia.
      replace (0 + (A / L + k) - A / L - k) with 0 by lia. reflexivity. }
    rewrite (HB rs). destruct (Z.eqb_spec k (C - 1)) as [E|E].
    + assert (rs = []) as -> by (destruct rs; auto; rewrite zlen_cons in Hc; pose proof (zlen_nonneg rs); lia).
      cbn [lite_read_loop fst]. rewrite H6. reflexivity.
    + rewrite IH; [|lia|lia|intros ->; change (zlen (@nil lrd)) with 0 in Hc; lia].
      rewrite <- app_assoc. f_equal. rewrite H6.
      rewrite (zrange_split (A + lg_off L A k) (A + lg_off L A (k + 1)) (A + n)), map_app.
      2:{ destruct (lg_cycle L A n HL Hn (k + 1)) as (G1 & G2 & G3 & G4 & G5 & G6 & G7 & _); [fold C; lia|].
          fold C in G1, G2, G3, G6, G7. lia. }
      f_equal. apply map_ext_in. intros x Hx. apply in_zrange in Hx.
      assert (Hq : A / L + (k + 1) <= x / L).
      { apply Z.div_le_lower_bound; [lia|]. unfold lg_off in Hx. replace (k + 1 =? 0) with false in Hx by lia.
        pose proof (Z.div_mod A L ltac:(lia)). lia. }
      replace (Z.to_nat (x / L - A / L - k)) with (S (Z.to_nat (x / L - A / L - (k + 1)))) by lia. reflexivity.
Qed.

(** An AXI-Lite or APB read, given one word per transfer it sent: the byte of address [x] is the one on
    its lane of the word of its address, whatever the other lanes carry, and the response is the last
    one that is not OKAY. *)
Theorem C89_lite_read_data : forall L cmd rs r0,
  0 < L -> 0 <= lr_len cmd -> length rs = length (lite_read L cmd) ->
  let A := lr_addr cmd in
  lite_read_resp L cmd rs =
    (map (fun x => lane_byte (lr_data (nth (Z.to_nat (x / L - A / L)) rs r0)) (x mod L)) (zrange A (A + lr_len cmd)),
     fold_left (fun acc r => match r with OKAY => acc | _ => r end) (map lr_resp rs) OKAY) /\
  (forall x, A <= x < A + lr_len cmd -> 0 <= x / L - A / L < zlen rs).
Proof.
  intros L cmd rs r0 HL Hn Hlen A.
  destruct (lg_facts L A (lr_len cmd) HL Hn) as (Hs & HAe & HC & Hz & Hc).
  set (C := lite_cycles L A (lr_len cmd)) in *.
  assert (Hl : zlen rs = C).
  { unfold zlen. rewrite Hlen. unfold lite_read. rewrite map_length. fold A C.
    change (Z.of_nat (length (zrange 0 C))) with (zlen (zrange 0 C)). rewrite zlen_zrange; lia. }
  split.
  - unfold lite_read_resp. fold A C. rewrite (surjective_pairing (lite_read_loop _ _ _ _ _ _ _)). f_equal.
    + pose proof (lite_loop_lanes L cmd r0 HL Hn rs 0 [] OKAY ltac:(lia)) as H. fold A C in H. rewrite H; [|lia|intros ->; change (zlen (@nil lrd)) with 0 in Hl; lia].
      cbn [app]. unfold lg_off. change (0 =? 0) with true. cbv iota. rewrite Z.add_0_r.
      apply map_ext. intros x. now rewrite Z.sub_0_r.
    + rewrite lite_read_loop_resp. generalize (map lr_resp rs) as l. generalize OKAY as a.
      intros a l. revert a. induction l as [|r l IH]; intros a; [reflexivity|]. cbn [fold_left]. rewrite IH. f_equal. now destruct r.
  - intros x Hx. rewrite Hl. split; [pose proof (Z.div_le_mono A x L HL ltac:(lia)); lia|].
    assert (x / L < A / L + C); [|lia]. apply Z.div_lt_upper_bound; [lia|]. lia.
Qed.
Print Assumptions C89_lite_read_data.

(** five bytes from address 6 on a four byte bus; lanes that are not addressed carry 238 *)
Example C89_lite_nontrivial :
  lite_read_resp 4 {| lr_addr := 6; lr_len := 5; lr_prot := 2 |}
    [{| lr_data := le_int [238; 238; 1; 2]; lr_resp := SLVERR |}; {| lr_data := le_int [3; 4; 5; 238]; lr_resp := OKAY |}] =
  ([1; 2; 3; 4; 5], SLVERR).
Proof. vm_compute. reflexivity. Qed.
