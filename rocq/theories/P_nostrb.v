(** Lemmas about writes without byte strobes. *)
From Coq Require Import ZArith Lia List Bool.
From Coq Require Import ZifyBool ZifyNat.
From Verif Require Import Py S_flat M_axi S_axi P_axi P_axislave P_axiop P_axicomp M_axil S_axil P_axil S_nostrb.
Import ListNotations.
Open Scope Z_scope.

(** ** the slave without strobes is the slave with all strobes set *)
Lemma eff_beat {T} (tw : T -> Z -> list Z -> T * res unit) L s w t : sw_beat tw L false s w t = sw_beat tw L true s (eff_w false L w) t.
Proof. reflexivity. Qed.
Lemma eff_beats {T} (tw : T -> Z -> list Z -> T * res unit) L n : forall s ws t,
  match sw_beats tw L false n s ws t, sw_beats tw L true n s (map (eff_w false L) ws) t with
  | (t1, None), (t2, None) => t1 = t2
  | (t1, Some (Err e1)), (t2, Some (Err e2)) => t1 = t2 /\ e1 = e2
  | (t1, Some (Ok (b1, w1))), (t2, Some (Ok (b2, w2))) => t1 = t2 /\ b1 = b2 /\ w2 = map (eff_w false L) w1
  | _, _ => False
  end.
Proof.
  induction n as [|n IH]; intros s ws t; cbn [sw_beats]; auto.
  destruct ws as [|w ws]; cbn [map]; auto. rewrite <- eff_beat. destruct (sw_beat tw L false s w t) as [t' [s'|e]]; auto. apply IH.
Qed.
Lemma eff_slave {T} (tw : T -> Z -> list Z -> T * res unit) L aws : forall ws t t' bs,
  slave_write tw L true aws (map (eff_w false L) ws) t = (t', bs, Ok []) -> slave_write tw L false aws ws t = (t', bs, Ok []).
Proof.
  induction aws as [|a aws IH]; intros ws t t' bs H; cbn [slave_write] in *.
  - injection H as -> -> E. destruct ws; [reflexivity|discriminate].
  - unfold sw_burst in *. destruct (sl_start L a) as [s|e]; [|discriminate]. pose proof (eff_beats tw L (Z.to_nat (ss_left s)) s ws t) as K.
    destruct (sw_beats tw L false _ s ws t) as [t1 [[[b1 w1]|e1]|]]; destruct (sw_beats tw L true _ s _ t) as [t2 [[[b2 w2]|e2]|]]; try contradiction; try discriminate.
    + destruct K as (<- & <- & ->). destruct (slave_write tw L true aws (map (eff_w false L) w1) t1) as [[t3 bs3] r3] eqn:E. injection H as <- <- ->.
      rewrite (IH _ _ _ _ E). reflexivity.
    + subst t2. injection H as <- <-. reflexivity.
Qed.
Definition eff_l (L : Z) (w : lwd) : lwd := {| lw_data := lw_data w; lw_strb := 2 ^ L - 1 |}.
Lemma eff_lite {T} (tw : T -> Z -> list Z -> T * res unit) L aws : forall ws t t' bs,
  lite_slave_write tw L true aws (map (eff_l L) ws) t = (t', bs, Ok ([], [])) -> lite_slave_write tw L false aws ws t = (t', bs, Ok ([], [])).
Proof.
  induction aws as [|a aws IH]; intros ws t t' bs H.
  - destruct ws; cbn in *; congruence.
  - destruct ws as [|w ws]; cbn [lite_slave_write map] in *; [congruence|].
    change (lite_sw tw L true a (eff_l L w) t) with (lite_sw tw L false a w t) in H.
    destruct (lite_sw tw L false a w t) as [t1 [b|e]]; [|discriminate].
    destruct (lite_slave_write tw L true aws (map (eff_l L) ws) t1) as [[t3 bs3] r3] eqn:E. injection H as <- <- ->. now rewrite (IH _ _ _ _ E).
Qed.

(** ** the bytes of all beats *)
Definition padded_beat (L nb A : Z) (D : list Z) (b : Z) : list (Z * Z) :=
  map (fun x => (x, beat_byte nb A D b x)) (zrange (down L b) (down L b + L)).

Lemma zrange_shift w a b : zrange (w + a) (w + b) = map (fun i => w + i) (zrange a b).
Proof.
  unfold zrange. replace (w + b - (w + a)) with (b - a) by lia. generalize (Z.to_nat (b - a)) as n. intros n. revert a.
  induction n as [|n IH]; intros a; cbn [zseq map]; auto. f_equal. rewrite <- IH. f_equal. lia.
Qed.
Lemma full_strobed L word d last us nb A D b : 0 <= L -> word = down L b ->
  (forall i, 0 <= i < L -> lane_byte d i = beat_byte nb A D b (word + i)) ->
  strobed L word {| w_data := d; w_strb := 2 ^ L - 1; w_last := last; w_user := us |} = padded_beat L nb A D b.
Proof.
  intros HL -> H. unfold strobed, padded_beat. cbn [w_data w_strb]. rewrite filter_all.
  2:{ intros i Hi. apply in_zrange in Hi. change (2 ^ L - 1) with (strb_mask L). rewrite testbit_strb_mask by lia. lia. }
  replace (zrange (down L b) (down L b + L)) with (map (fun i => down L b + i) (zrange 0 L)).
  2:{ rewrite <- zrange_shift. f_equal. lia. }
  rewrite map_map. apply map_ext_in. intros i Hi. apply in_zrange in Hi. now rewrite H.
Qed.

Section Axi.
  Variables (c : mcfg) (A size : Z) (sd : side) (id : Z) (D : list Z) (wu : wuser_t).
  Variables (q p : Z).
  Let L := m_lanes c.
  Let nb := 2 ^ size.
  Hypothesis Hnb : 0 < 2 ^ size.
  Hypothesis Hq : 0 < q.
  Hypothesis HL : m_lanes c = 2 ^ size * q.
  Hypothesis Hp : 4096 = 2 ^ size * p.
  Hypothesis HA : 0 <= A.
  Hypothesis HD : are_bytes D.
  Notation len := (zlen D).
  Notation C := (og_C A len size).
  Let Hlen : 0 <= len := zlen_nonneg D.

  Lemma full_beat k last : 0 <= k < C ->
    strobed L (down L (og_ba A size k)) (eff_w false L (og_w c A len size D wu k last)) = padded_beat L nb A D (og_ba A size k).
  Proof.
    intros Hk. assert (HLp : 0 < L) by (unfold L; rewrite HL; nia). unfold eff_w. cbn [og_w w_data w_strb w_last w_user]. apply full_strobed; auto; [lia|].
    intros i Hi. destruct (og_lanes c A len size q Hnb Hq HL HA Hlen k Hk) as (Hl1 & Hl2). destruct (og_lohi c A len size Hnb HA Hlen k Hk) as (Hh1 & Hh2).
    pose proof (og_lo_range c A len size Hnb HA k Hk) as Hlo. fold L in Hl1, Hl2.
    assert (HloA : A <= og_lo A size k) by (unfold og_lo; lia).
    rewrite lane_placed by (auto using are_bytes_zslice; lia). rewrite zslice_length by lia. fold L.
    assert (Hd : down L (og_ba A size k) = down L (og_lo A size k)).
    { unfold L. rewrite HL. unfold og_ba in *. rewrite !(down_within (2 ^ size) q (og_u A size + k)); auto; lia. }
    rewrite Hd. unfold down. set (lo := og_lo A size k) in *. set (hi := og_hi A len size k) in *. unfold beat_byte.
    replace (Z.max A (og_ba A size k)) with lo by reflexivity. replace (Z.min (A + len) (og_ba A size k + nb)) with hi by reflexivity.
    clearbody lo hi. set (r := lo mod L) in *. clearbody r. replace (r + (hi - A - (lo - A))) with (r + (hi - lo)) by lia.
    replace (lo <=? lo - r + i) with (r <=? i) by lia. replace (lo - r + i <? hi) with (i <? r + (hi - lo)) by lia.
    destruct ((r <=? i) && (i <? r + (hi - lo))) eqn:E; auto. rewrite znth_zslice by lia. f_equal. lia.
  Qed.

  Definition eff_b (b : axc * list wch) : axc * list wch := (fst b, map (eff_w false L) (snd b)).

  Lemma full_burst k0 : 0 <= k0 < C -> forall m n, 0 <= n -> k0 + n + Z.of_nat m <= C ->
    burst_bytes L (og_ax c A len size INCR sd id k0) n (map (eff_w false L) (og_beats c A len size D wu (k0 + n) m)) =
    flat_map (fun k => padded_beat L nb A D (og_ba A size k)) (zseq (k0 + n) m).
  Proof.
    intros Hk0. induction m as [|m IH]; intros n Hn Hm; cbn [og_beats map burst_bytes zseq flat_map]; auto.
    replace (k0 + n + 1) with (k0 + (n + 1)) by lia. rewrite (IH (n + 1)) by lia. unfold L. rewrite (og_word c A len size INCR sd id q p) by (auto; lia). fold L. rewrite full_beat by lia. reflexivity.
  Qed.
  Lemma full_gen fuel : forall k, 0 <= k <= C -> C - k <= Z.of_nat fuel ->
    all_bytes L (map eff_b (og_gen c A len size INCR sd id D wu fuel k)) = flat_map (fun k => padded_beat L nb A D (og_ba A size k)) (zrange k C).
  Proof.
    induction fuel as [|fuel IH]; intros k Hk Hf; cbn [og_gen].
    - rewrite zrange_empty by lia. reflexivity.
    - destruct (Z.ltb_spec k C); [|rewrite zrange_empty by lia; reflexivity].
      destruct (og_bl_range c A len size INCR p Hnb Hp k ltac:(lia)) as (Hb & _).
      cbn [map]. unfold all_bytes. cbn [flat_map]. fold (all_bytes L). unfold eff_b at 1 2. cbn [fst snd].
      change (flat_map (fun p0 => burst_bytes L (fst p0) 0 (snd p0)) ?l) with (all_bytes L l). rewrite IH by lia.
      pose proof (full_burst k ltac:(lia) (Z.to_nat (og_bl c A len size INCR k)) 0 ltac:(lia) ltac:(lia)) as E. rewrite Z.add_0_r in E. rewrite E.
      rewrite (zrange_split k (k + og_bl c A len size INCR k) C) by lia. rewrite flat_map_app. f_equal. unfold zrange. do 2 f_equal. lia.
  Qed.
End Axi.

(** ** one beat after the other *)
Lemma put_beat L nb A D b f x : 0 < L ->
  put (fun x => x) f (padded_beat L nb A D b) x = if (down L b <=? x) && (x <? down L b + L) then beat_byte nb A D b x else f x.
Proof.
  intros HL. unfold padded_beat. set (w := down L b). clearbody w. set (g := beat_byte nb A D b). clearbody g.
  replace L with (Z.of_nat (Z.to_nat L)) by lia. generalize (Z.to_nat L) as n. intros n. unfold zrange. replace (Z.to_nat (w + Z.of_nat n - w)) with n by lia. clear HL. revert w f.
  induction n as [|n IH]; intros w f; cbn [zseq map put].
  - replace ((w <=? x) && (x <? w + Z.of_nat 0)) with false by lia. reflexivity.
  - rewrite IH. unfold upd. destruct (Z.eqb_spec x w) as [->|H].
    + replace ((w + 1 <=? w) && (w <? w + 1 + Z.of_nat n)) with false by lia. replace ((w <=? w) && (w <? w + Z.of_nat (S n))) with true by lia. reflexivity.
    + replace ((w <=? x) && (x <? w + Z.of_nat (S n))) with ((w + 1 <=? x) && (x <? w + 1 + Z.of_nat n)) by lia. reflexivity.
Qed.

Lemma same_word L a b x : 0 < L -> L * a <= x < L * a + L -> L * b <= x < L * b + L -> a = b.
Proof. intros HL Ha Hb. transitivity (x / L); [apply Z.div_unique_pos with (x - L * a)|symmetry; apply Z.div_unique_pos with (x - L * b)]; lia. Qed.
Lemma word_lt L a b x : 0 < L -> L * a <= x -> x < L * b -> L * a + L <= L * b.
Proof. intros HL Ha Hb. assert (a < b) by (apply (Z.mul_lt_mono_pos_l L); lia). replace (L * a + L) with (L * (a + 1)) by ring. apply Z.mul_le_mono_nonneg_l; lia. Qed.

Section Beats.
  Variables (L nb q u A : Z) (D : list Z).
  Hypothesis Hnb : 0 < nb.
  Hypothesis Hq : 0 < q.
  Hypothesis HLq : L = nb * q.
  Lemma beats_L : 0 < L.
  Proof. rewrite HLq. now apply Z.mul_pos_pos. Qed.
  Lemma down_nb v : down L (nb * v) = L * (v / q).
  Proof. pose proof beats_L. rewrite down_eq by lia. f_equal. rewrite HLq. apply Z.div_mul_cancel_l; lia. Qed.
  Lemma word_nb v : L * (v / q) <= nb * v <= L * (v / q) + L - nb.
  Proof.
    pose proof (Z.div_mod v q ltac:(lia)) as E. pose proof (Z.mod_pos_bound v q Hq) as B. set (w := v / q) in *. set (r := v mod q) in *. rewrite HLq, E.
    replace (nb * (q * w + r)) with (nb * q * w + nb * r) by ring. assert (0 <= nb * r) by (apply Z.mul_nonneg_nonneg; lia).
    assert (nb * r <= nb * (q - 1)) by (apply Z.mul_le_mono_nonneg_l; lia). replace (nb * (q - 1)) with (nb * q - nb) in * by ring. lia.
  Qed.
  Lemma put_beats f x m :
    put (fun x => x) f (flat_map (fun k => padded_beat L nb A D (nb * (u + k))) (zseq 0 (S m))) x =
    if (down L (nb * u) <=? x) && (x <? down L (nb * (u + Z.of_nat m)) + L)
    then beat_byte nb A D (Z.min (nb * (u + Z.of_nat m)) (down L x + L - nb)) x else f x.
  Proof.
    pose proof beats_L as HL.
    assert (Hx : exists wx, down L x = L * wx /\ L * wx <= x < L * wx + L).
    { exists (x / L). rewrite down_eq by lia. pose proof (Z.div_mod x L ltac:(lia)). pose proof (Z.mod_pos_bound x L HL). split; [reflexivity|lia]. }
    destruct Hx as (wx & Ex & Hx). rewrite Ex.
    induction m as [|m IH].
    - change (zseq 0 1) with [0]. cbn [flat_map]. rewrite app_nil_r, put_beat by auto. change (Z.of_nat 0) with 0. rewrite !Z.add_0_r, !down_nb.
      destruct ((L * (u / q) <=? x) && (x <? L * (u / q) + L)) eqn:E; auto.
      assert (Ew : u / q = wx) by (apply (same_word L _ _ x); lia). rewrite Z.min_l; auto. pose proof (word_nb u). rewrite Ew in *. lia.
    - replace (zseq 0 (S (S m))) with (zseq 0 (S m) ++ [Z.of_nat (S m)]).
      2:{ replace (S (S m)) with (S m + 1)%nat by lia. rewrite zseq_app. reflexivity. }
      rewrite flat_map_app, put_app. cbn [flat_map]. rewrite app_nil_r, put_beat, IH by auto. rewrite !down_nb. clear IH.
      replace (u + Z.of_nat (S m)) with (u + Z.of_nat m + 1) by lia. set (v := u + Z.of_nat m) in *. assert (Huv : u <= v) by lia. clearbody v.
      pose proof (word_nb v) as I2. pose proof (word_nb (v + 1)) as I3.
      assert (Huw : u / q <= v / q) by (apply Z.div_le_mono; lia). assert (Hvn : v / q <= (v + 1) / q) by (apply Z.div_le_mono; lia).
      set (wu := u / q) in *. set (wv := v / q) in *. set (wn := (v + 1) / q) in *. clearbody wu wv wn.
      apply (Z.mul_le_mono_nonneg_l _ _ L) in Huw; [|lia]. apply (Z.mul_le_mono_nonneg_l _ _ L) in Hvn; [|lia].
      replace (nb * (v + 1)) with (nb * v + nb) in * by ring.
      destruct ((L * wn <=? x) && (x <? L * wn + L)) eqn:E.
      + replace ((L * wu <=? x) && (x <? L * wn + L)) with true by lia. rewrite Z.min_l; auto.
        assert (Ew : wn = wx) by (apply (same_word L _ _ x); lia). rewrite <- Ew. lia.
      + destruct ((L * wu <=? x) && (x <? L * wv + L)) eqn:E2.
        * replace ((L * wu <=? x) && (x <? L * wn + L)) with true by lia.
          pose proof (word_lt L wx wn x HL ltac:(lia) ltac:(lia)) as K. f_equal. rewrite !Z.min_r; lia.
        * replace ((L * wu <=? x) && (x <? L * wn + L)) with false; auto. symmetry. lia.
  Qed.
End Beats.

Lemma put_ext phi psi l : Forall (fun p => phi (fst p) = psi (fst p)) l -> forall f, put phi f l =f put psi f l.
Proof.
  induction l as [|[a b] l IH]; intros H f; cbn [put]; [apply feq_refl|]. inversion H as [|? ? E Hl]; subst. cbn [fst] in E. rewrite E. now apply IH.
Qed.

Section All.
  Variables (L nb q A : Z) (D : list Z).
  Hypothesis Hnb : 0 < nb.
  Hypothesis Hq : 0 < q.
  Hypothesis HLq : L = nb * q.
  Local Notation C := ((zlen D + A mod nb + nb - 1) / nb).
  Local Notation e := (A + zlen D - 1).

  Lemma all_C : 0 <= C /\ (C = 0 -> A mod nb + zlen D = 0) /\ (0 < C -> 0 < A mod nb + zlen D /\ nb * (A / nb + (C - 1)) <= e < nb * (A / nb + (C - 1)) + nb).
  Proof.
    pose proof (Z.mod_pos_bound A nb Hnb) as Hr. pose proof (Z.div_mod A nb ltac:(lia)) as EA. pose proof (zlen_nonneg D) as Hn.
    set (r := A mod nb) in *. set (n := zlen D) in *. pose proof (Z.div_mod (n + r + nb - 1) nb ltac:(lia)) as E. pose proof (Z.mod_pos_bound (n + r + nb - 1) nb Hnb) as B.
    set (k := (n + r + nb - 1) / nb) in *. set (s := (n + r + nb - 1) mod nb) in *. assert (0 <= k) by (apply Z.div_pos; lia). clearbody k s r n.
    split; [lia|]. split; [intros ->; lia|]. intros Hk.
    replace (nb * (A / nb + (k - 1))) with (nb * (A / nb) + nb * k - nb) by ring. split; [|lia]. assert (nb * 1 <= nb * k) by (apply Z.mul_le_mono_nonneg_l; lia). lia.
  Qed.

  Lemma down_same v x : nb * v <= x < nb * v + nb -> down L x = down L (nb * v).
  Proof. intros H. rewrite HLq. rewrite !(down_within nb q v); auto; lia. Qed.

  Lemma all_put f : put (fun x => x) f (flat_map (fun k => padded_beat L nb A D (nb * (A / nb + k))) (zrange 0 C)) =f unstrobed L nb A D f.
  Proof.
    intros x. destruct all_C as (H0 & H1 & H2). unfold unstrobed. destruct (Z.eq_dec C 0) as [E|E].
    - rewrite zrange_empty by lia. cbn [flat_map put]. rewrite (H1 E). reflexivity.
    - specialize (H2 ltac:(lia)). destruct H2 as (Hpos & He). unfold zrange. rewrite Z.sub_0_r. destruct (Z.to_nat C) as [|m] eqn:EC; [lia|].
      rewrite (put_beats L nb q (A / nb) A D Hnb Hq HLq). replace (Z.of_nat m) with (C - 1) by lia.
      assert (EA : down L A = down L (nb * (A / nb))).
      { apply down_same. pose proof (Z.div_mod A nb ltac:(lia)). pose proof (Z.mod_pos_bound A nb Hnb). lia. }
      assert (Ee : down L e = down L (nb * (A / nb + (C - 1)))) by (now apply down_same).
      assert (En : down nb e = nb * (A / nb + (C - 1))).
      { rewrite down_eq by lia. f_equal. symmetry. apply Z.div_unique_pos with (e - nb * (A / nb + (C - 1))); lia. }
      cbv zeta. rewrite EA, Ee, En. replace (0 <? A mod nb + zlen D) with true by lia. reflexivity.
  Qed.

  Lemma all_in lo hi : lo mod L = 0 -> hi mod L = 0 -> lo <= A -> A + zlen D <= hi ->
    Forall (in_range lo hi) (flat_map (fun k => padded_beat L nb A D (nb * (A / nb + k))) (zrange 0 C)).
  Proof.
    intros Hlo Hhi H1 H2. assert (HL : 0 < L) by (rewrite HLq; now apply Z.mul_pos_pos). apply Forall_forall. intros [x b] Hin. apply in_flat_map in Hin. destruct Hin as (k & Hk & Hin).
    apply in_zrange in Hk. unfold padded_beat in Hin. apply in_map_iff in Hin. destruct Hin as (x' & E & Hin). injection E as -> _. apply in_zrange in Hin. unfold in_range. cbn [fst].
    destruct all_C as (_ & _ & H3). specialize (H3 ltac:(lia)). destruct H3 as (_ & He).
    assert (K1 : down L A <= down L (nb * (A / nb + k))).
    { rewrite (down_same (A / nb) A) by (pose proof (Z.div_mod A nb ltac:(lia)); pose proof (Z.mod_pos_bound A nb Hnb); lia). rewrite !down_eq by lia.
      apply Z.mul_le_mono_nonneg_l; [lia|]. apply Z.div_le_mono; [lia|]. apply Z.mul_le_mono_nonneg_l; lia. }
    assert (K2 : down L (nb * (A / nb + k)) <= down L e).
    { rewrite (down_same (A / nb + (C - 1)) e He). rewrite !down_eq by lia.
      apply Z.mul_le_mono_nonneg_l; [lia|]. apply Z.div_le_mono; [lia|]. apply Z.mul_le_mono_nonneg_l; lia. }
    assert (K3 : lo <= down L A).
    { rewrite down_eq by lia. pose proof (Z.div_mod lo L ltac:(lia)). rewrite Hlo in *. assert (L * (lo / L) <= L * (A / L)) by (apply Z.mul_le_mono_nonneg_l; [lia|apply Z.div_le_mono; lia]). lia. }
    assert (K4 : down L e + L <= hi).
    { rewrite down_eq by lia. pose proof (Z.div_mod hi L ltac:(lia)) as E. rewrite Hhi, Z.add_0_r in E. rewrite E. pose proof (Z.div_mod e L ltac:(lia)). pose proof (Z.mod_pos_bound e L HL).
      apply word_lt with e; lia. }
    lia.
  Qed.
End All.

(** ** master and slave *)
Section Comp.
  Context {T : Type} (L lo hi : Z) (phi : Z -> Z) (inv : T -> Prop) (view : T -> flat)
    (tw : T -> Z -> list Z -> T * res unit) (tr : T -> Z -> Z -> T * res (list Z)).
  Hypothesis Hft : flat_target L lo hi phi inv view tw tr.
  Hypothesis Hphi : forall x, lo <= x < hi -> phi x = x.
  Hypothesis Hlo : lo mod L = 0.
  Hypothesis Hhi : hi mod L = 0.

  Lemma put_phi l f : Forall (in_range lo hi) l -> put phi f l =f put (fun x => x) f l.
  Proof. intros H. apply put_ext. eapply Forall_impl; [|exact H]. intros p Hp. now apply Hphi. Qed.

  Lemma write_unstrobed c id cmd t :
    m_lanes c = L -> bus_ok L (wc_size cmd) -> wc_burst cmd = INCR -> are_bytes (wc_data cmd) ->
    0 <= wc_addr cmd -> lo <= wc_addr cmd -> wc_addr cmd + zlen (wc_data cmd) <= hi -> inv t ->
    let evs := fst (master_write c id cmd) in
    exists t' bs users,
      slave_write tw L false (aw_of evs) (w_of evs) t = (t', bs, Ok []) /\ inv t' /\
      view t' =f unstrobed L (2 ^ wc_size cmd) (wc_addr cmd) (wc_data cmd) (view t) /\
      Forall (fun b => b_id b = id) bs /\
      mw_resp (bursts_of (aw_of evs)) bs OKAY [] = Some (OKAY, users, []).
  Proof.
    intros HcL HG Hbt HD HA HloA HhiA Hi.
    destruct cmd as [A D bt size sd wu]. cbn [wc_addr wc_data wc_burst wc_size] in *. subst bt.
    rewrite <- HcL in HG. pose proof (zlen_nonneg D) as Hlen.
    pose proof (op_write c A (zlen D) size sd id HG HA Hlen D wu HD eq_refl) as Hw.
    unfold og_cmd in Hw. rewrite Hw. cbn [fst]. cbn zeta.
    destruct (bus_ok_facts _ _ HG) as (q & p & Hnb & Hq & HL & Hp & Hs & HL0).
    pose proof (full_gen c A size sd id D wu q p Hnb Hq HL Hp HA HD (Z.to_nat (og_C A (zlen D) size)) 0) as Hby.
    pose proof (proj1 (og_cycles c A (zlen D) size Hnb Hlen)) as HC. specialize (Hby ltac:(lia) ltac:(lia)).
    set (gen := og_gen c A (zlen D) size INCR sd id D wu (Z.to_nat (og_C A (zlen D) size)) 0) in *.
    rewrite aw_of_flatten, w_of_flatten.
    pose proof (op_bursts c A (zlen D) size sd id HG HA Hlen D wu HD eq_refl (A + zlen D + 1)) as Hb.
    pose proof (pow_above (A + zlen D + 1) ltac:(lia)) as Hpow. specialize (Hb ltac:(lia) ltac:(lia)). fold gen in Hb.
    pose proof (all_in L (2 ^ size) q A D Hnb Hq ltac:(lia) lo hi Hlo Hhi HloA HhiA) as Hin. pose proof (all_put L (2 ^ size) q A D Hnb Hq ltac:(lia) (view t)) as Hput.
    rewrite HcL in Hby. unfold og_C, cycles_of, num_bytes, og_ba, og_u in Hby. rewrite <- Hby in Hin, Hput.
    assert (E1 : map fst gen = map fst (map (eff_b c) gen)) by (rewrite map_map; reflexivity).
    assert (E2 : map (eff_w false L) (flat_map snd gen) = flat_map snd (map (eff_b c) gen)).
    { rewrite !flat_map_concat_map, concat_map, !map_map. unfold eff_b. now rewrite HcL. }
    destruct (slave_write_flat L lo hi phi inv view tw tr Hft ltac:(lia) (map (eff_b c) gen) t [] Hi) as (t' & E & Hi' & Hv); auto.
    { apply Forall_map. eapply Forall_impl; [|exact Hb]. intros [a ws] (H1 & H2 & H3 & H4 & H5 & H6 & H7 & H8).
      cbn [fst snd] in *. unfold burst_fits, eff_b. cbn [fst snd].
      pose proof (legal_accepts _ _ _ H1) as Hacc. rewrite HcL in Hacc.
      destruct H1 as (_ & Ha1 & _ & Ha3 & _).
      split; [lia|]. split; [lia|]. split; [exists q; rewrite H4; split; [auto|lia]|]. split; [exact Hacc|].
      split; [now rewrite zlen_map|]. split.
      - apply Forall_map. eapply Forall_impl; [|exact H8]. intros w (Hw1 & _). unfold w_fits. cbn [eff_w w_data]. now rewrite <- HcL.
      - unfold last_ok in *. rewrite map_map, map_length. exact H7. }
    rewrite app_nil_r, <- E1, <- E2 in E. apply eff_slave in E. rewrite map_map in E.
    eexists. eexists. eexists. split; [exact E|]. split; [exact Hi'|]. split; [|split].
    - eapply feq_trans; [exact Hv|]. eapply feq_trans; [now apply put_phi|]. exact Hput.
    - apply Forall_forall. intros b Hb'. apply in_map_iff in Hb'. destruct Hb' as (x & <- & Hx).
      rewrite Forall_forall in Hb. specialize (Hb x Hx). cbn [b_id eff_b fst]. tauto.
    - match goal with |- mw_resp ?bl ?bs _ _ = _ => pose proof (mw_resp_spec bl bs [] OKAY []) as HR end.
      rewrite app_nil_r in HR. rewrite HR by (unfold bursts_of; now rewrite !map_length).
      rewrite agg_okay; [reflexivity|]. rewrite map_map. apply Forall_forall.
      intros r Hr. apply in_map_iff in Hr. destruct Hr as (x & <- & _). reflexivity.
  Qed.

  Lemma lite_unstrobed cmd t : 0 < L -> are_bytes (lc_data cmd) -> lo <= lc_addr cmd -> lc_addr cmd + zlen (lc_data cmd) <= hi -> inv t ->
    let evs := fst (lite_write L cmd) in
    exists t' bs, lite_slave_write tw L false (law_of evs) (lw_of evs) t = (t', bs, Ok ([], [])) /\ inv t' /\
      view t' =f unstrobed L L (lc_addr cmd) (lc_data cmd) (view t) /\ lite_write_resp bs = OKAY.
  Proof.
    intros HL. destruct cmd as [A D prot]. cbv zeta. cbn [lc_addr lc_data]. intros HD HloA HhiA Hi.
    rewrite lite_write_spec by auto. cbn [fst]. rewrite law_of_pairs, lw_of_pairs. pose proof (zlen_nonneg D) as Hn.
    pose proof (all_in L L 1 A D HL ltac:(lia) ltac:(lia) lo hi Hlo Hhi HloA HhiA) as Hin. pose proof (all_put L L 1 A D HL ltac:(lia) ltac:(lia) (view t)) as Hput.
    fold (lite_cycles L A (zlen D)) in Hin, Hput. set (C := lite_cycles L A (zlen D)) in *.
    assert (Hby : lite_bytes L (map (lw_a L A prot) (zrange 0 C)) (map (eff_l L) (map (lw_w L A D) (zrange 0 C))) = flat_map (fun k => padded_beat L L A D (L * (A / L + k))) (zrange 0 C)).
    { unfold lite_bytes. rewrite map_map, combine_map, !flat_map_concat_map, map_map. f_equal. apply map_ext_in. intros k Hk. apply in_zrange in Hk. cbn [fst snd]. rewrite lite_strobed_eq.
      destruct (lg_cycle L A (zlen D) HL Hn k Hk) as (H1 & H2 & H3 & H4 & H5 & H6 & H7 & H8 & H9 & _). destruct (lw_part_len L A D HL HD k Hk) as (Hl & Hpb). fold C in H1, H2, H3, H6, H7, Hl.
      cbn [lw_a la_addr]. unfold lw_wch, eff_l. cbn [lw_data lw_strb lw_w]. apply full_strobed; [lia| |].
      - rewrite H8, down_mul. ring.
      - intros i Hi'. rewrite H8 in *. rewrite lane_placed by (auto; lia). rewrite Hl. unfold beat_byte.
        set (st := lite_start L A k) in *. set (en := lite_stop L A (zlen D) C k) in *. set (o := lg_off L A k) in *. set (w := L * (A / L) + k * L) in *.
        replace (L * (A / L + k)) with w by (unfold w; ring).
        assert (HA : L * (A / L) <= A < L * (A / L) + L) by (pose proof (Z.div_mod A L ltac:(lia)); pose proof (Z.mod_pos_bound A L HL); lia).
        assert (Hst : w + st = Z.max A w).
        { unfold st, lite_start. destruct (Z.eqb_spec k 0) as [->|Hk0].
          - unfold w. pose proof (Z.div_mod A L ltac:(lia)). lia.
          - unfold w. assert (L * 1 <= L * k) by (apply Z.mul_le_mono_nonneg_l; lia). lia. }
        assert (Hen : w + en = Z.min (A + zlen D) (w + L)).
        { assert (EE : w + en = A + o + (en - st)) by lia. destruct (Z.eqb_spec k (C - 1)) as [Ek|Ek].
          - lia.
          - assert (Een : en = L) by (unfold en, lite_stop; replace (k =? C - 1) with false by lia; reflexivity). lia. }
        rewrite <- Hst, <- Hen. replace (st + (en - st)) with en by lia. replace (w + st <=? w + i) with (st <=? i) by lia. replace (w + i <? w + en) with (i <? en) by lia.
        destruct ((st <=? i) && (i <? en)) eqn:E; auto. unfold lw_part. fold C o st en. rewrite znth_zslice by lia. f_equal. lia. }
    rewrite <- Hby in Hin, Hput.
    destruct (lite_slave_write_flat L lo hi phi inv view tw tr Hft HL (map (lw_a L A prot) (zrange 0 C)) (map (eff_l L) (map (lw_w L A D) (zrange 0 C))) t) as (t' & E & Hi' & Hv); auto.
    - now rewrite !map_length.
    - apply Forall_map, Forall_map, Forall_forall. intros k Hk. apply in_zrange in Hk. cbn [eff_l lw_data]. now apply (lw_w_fits L A D HL HD k).
    - apply eff_lite in E. exists t'. eexists. split; [exact E|]. split; auto. split; [|apply agg_repeat].
      eapply feq_trans; [exact Hv|]. eapply feq_trans; [now apply put_phi|]. exact Hput.
  Qed.
End Comp.
