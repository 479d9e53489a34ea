(** Lemmas about the AXI slave model. *)
From Coq Require Import ZArith Lia List Bool.
From Coq Require Import ZifyBool ZifyNat.
From Verif Require Import Py S_flat M_axi S_axi P_axi.
Import ListNotations.
Open Scope Z_scope.

(** ** put *)
Lemma put_app phi l m : forall f, put phi f (l ++ m) = put phi (put phi f l) m.
Proof. induction l as [|[a b] l IH]; intros; cbn [app put]; auto. Qed.

Lemma upd_feq f g a b : f =f g -> upd f a b =f upd g a b.
Proof. intros H x. unfold upd. destruct (x =? a); auto. Qed.

Lemma put_feq phi l : forall f g, f =f g -> put phi f l =f put phi g l.
Proof.
  induction l as [|[a b] l IH]; intros; cbn [put]; auto. apply IH. now apply upd_feq.
Qed.

Lemma put_id_addressed d : forall f a, put (fun x => x) f (addressed a d) =f wr f a d.
Proof.
  induction d as [|b d IH]; intros f a.
  - rewrite addressed_nil. cbn [put]. apply feq_sym. apply wr_nil.
  - change (b :: d) with ([b] ++ d). rewrite addressed_app, put_app.
    eapply feq_trans; [apply IH|]. eapply feq_trans; [|apply wr_app].
    apply wr_feq. unfold addressed. change (zlen [b]) with 1.
    rewrite zrange_cons, zrange_empty by lia. cbn [combine put].
    intros x. unfold upd, wr. change (zlen [b]) with 1.
    destruct (Z.eqb_spec x a).
    + subst. replace ((a <=? a) && (a <? a + 1)) with true by lia.
      rewrite Z.sub_diag. reflexivity.
    + replace ((a <=? x) && (x <? a + 1)) with false by lia. reflexivity.
Qed.

(** ** write operations of a beat *)
Definition ops_bytes (ops : list (Z * list Z)) : list (Z * Z) :=
  flat_map (fun o => addressed (fst o) (snd o)) ops.

Definition op_ok (word L : Z) (o : Z * list Z) : Prop :=
  word <= fst o /\ 0 < zlen (snd o) /\ fst o + zlen (snd o) <= word + L /\ are_bytes (snd o).

Lemma sw_ops_spec word L data strb : zlen data = L -> are_bytes data ->
  forall n i so, 0 <= i -> i + Z.of_nat n = L ->
  (match so with None => True | Some s => 0 <= s < i end) ->
  let ops := sw_ops word data strb (zseq i n) i so in
  ops_bytes ops =
    (match so with None => [] | Some s => addressed (word + s) (zslice data s i) end) ++
    map (fun j => (word + j, znth 0 data j)) (filter (fun j => Z.testbit strb j) (zseq i n)) /\
  Forall (op_ok word L) ops.
Proof.
  intros HL Hd. induction n; intros i so Hi Hn Hso; cbn zeta.
  - assert (i = L) by lia. subst i. cbn [zseq sw_ops filter map]. rewrite app_nil_r.
    destruct so as [s|]; [|split; [reflexivity|constructor]].
    replace (L =? s) with false by lia. cbn [ops_bytes flat_map fst snd]. rewrite app_nil_r.
    split; [reflexivity|]. constructor; [|constructor].
    unfold op_ok. cbn [fst snd]. rewrite zslice_length by lia.
    repeat split; try lia. now apply are_bytes_zslice.
  - cbn [zseq sw_ops filter]. destruct (Z.testbit strb i) eqn:Eb.
    + set (so' := match so with None => Some i | Some s => Some s end).
      destruct (IHn (i + 1) so' ltac:(lia) ltac:(lia)) as (H1 & H2).
      { unfold so'. destruct so; lia. }
      cbn zeta in H1, H2. split; [|exact H2]. rewrite H1. cbn [map].
      assert (Hone : zslice data i (i + 1) = [znth 0 data i]).
      { apply (nth_ext_z 0).
        - rewrite zslice_length by lia. change (zlen [znth 0 data i]) with 1. lia.
        - intros j Hj. rewrite zslice_length in Hj by lia. rewrite znth_zslice by lia.
          replace j with 0 by lia. rewrite znth_cons0. f_equal. lia. }
      assert (Hadd : addressed (word + i) [znth 0 data i] = [(word + i, znth 0 data i)]).
      { unfold addressed. change (zlen [znth 0 data i]) with 1.
        rewrite zrange_cons, zrange_empty by lia. reflexivity. }
      unfold so'. destruct so as [s|].
      * rewrite (zslice_split data s i (i + 1)) by lia. rewrite addressed_app, Hone.
        rewrite zslice_length by lia. replace (word + s + (i - s)) with (word + i) by lia.
        rewrite Hadd. rewrite <- app_assoc. reflexivity.
      * rewrite Hone, Hadd. reflexivity.
    + destruct (IHn (i + 1) None ltac:(lia) ltac:(lia) I) as (H1 & H2). cbn zeta in H1, H2.
      destruct so as [s|].
      * replace (i =? s) with false by lia. unfold ops_bytes in *. cbn [app flat_map fst snd].
        rewrite H1. split; [reflexivity|]. constructor; [|exact H2].
        unfold op_ok. cbn [fst snd]. rewrite zslice_length by lia.
        repeat split; try lia. now apply are_bytes_zslice.
      * split; [exact H1|exact H2].
Qed.

Lemma strobed_data L word w data :
  to_bytes (w_data w) L Little = Ok data ->
  strobed L word w = map (fun j => (word + j, znth 0 data j))
                       (filter (fun j => Z.testbit (w_strb w) j) (zrange 0 L)).
Proof.
  intros H. unfold strobed. apply map_ext_in. intros i Hi. apply filter_In in Hi. destruct Hi as [Hi _].
  apply in_zrange in Hi. f_equal. unfold to_bytes in H.
  destruct (L <? 0); [discriminate|]. destruct (_ || _); [discriminate|].
  injection H as <-. rewrite lane_byte_le_bytes by lia. reflexivity.
Qed.

(** the ops of a beat write exactly the strobed bytes *)
Lemma beat_ops L word w data :
  to_bytes (w_data w) L Little = Ok data -> 0 <= L ->
  let ops := sw_ops word data (w_strb w) (zrange 0 L) 0 None in
  ops_bytes ops = strobed L word w /\ Forall (op_ok word L) ops.
Proof.
  intros H HL. cbn zeta. rewrite (strobed_data _ _ _ _ H).
  destruct (to_bytes_ok _ _ _ _ H) as (_ & _ & Hlen & Hb & _).
  destruct (sw_ops_spec word L data (w_strb w) Hlen Hb (Z.to_nat L) 0 None) as (H1 & H2);
    [lia|lia|exact I|].
  cbn zeta in H1, H2. unfold zrange. rewrite Z.sub_0_r. auto.
Qed.

(** ** burst addresses *)
(** address used by the slave for beat n (only its bus word matters) *)
Definition sl_addr (a : axc) (n : Z) : Z :=
  let nb := 2 ^ ax_size a in
  match ax_burst a with
  | FIXED => down nb (ax_addr a)
  | INCR => down nb (ax_addr a) + n * nb
  | WRAP => axi_beat_addr a n
  end.

Definition sl_at (a : axc) (n : Z) (resp : resp_t) : sst :=
  let nb := 2 ^ ax_size a in
  let ts := nb * beats a in
  {| ss_id := ax_id a; ss_nb := nb; ss_left := beats a - n; ss_burst := ax_burst a;
     ss_lo := down ts (ax_addr a); ss_hi := down ts (ax_addr a) + ts;
     ss_cur := sl_addr a n; ss_resp := resp |}.

Lemma down_down nb q x : 0 < nb -> 0 < q -> down (nb * q) (down nb x) = down (nb * q) x.
Proof.
  intros Hn Hq. pose proof (Z.mod_pos_bound x nb Hn) as Hm.
  pose proof (Z.div_mod x nb ltac:(lia)) as Hd.
  unfold down at 2. replace (x - x mod nb) with (nb * (x / nb)) by lia.
  rewrite !(down_within nb q (x / nb)); auto; lia.
Qed.

Lemma sl_start_spec L a : 0 <= ax_size a -> 0 <= ax_len a ->
  (accepts L a /\ sl_start L a = Ok (sl_at a 0 OKAY)) \/
  (~ accepts L a /\ sl_start L a = Err AssertionError).
Proof.
  intros Hs Hl. unfold sl_start, accepts, num_bytes.
  pose proof (Z.pow_pos_nonneg 2 (ax_size a) ltac:(lia) Hs) as Hnb.
  set (nb := 2 ^ ax_size a) in *.
  replace (0 <? nb) with true by lia. cbn [andb].
  destruct (Z.leb_spec nb L); [|right; split; [lia|reflexivity]].
  rewrite div_mul_down, land_4095 by lia. fold (beats a).
  set (ts := nb * beats a).
  assert (Hts : 0 < ts) by (unfold ts, beats; nia).
  assert (HOK : {| ss_id := ax_id a; ss_nb := nb; ss_left := beats a; ss_burst := ax_burst a;
       ss_lo := ax_addr a / ts * ts; ss_hi := ax_addr a / ts * ts + ts;
       ss_cur := down nb (ax_addr a); ss_resp := OKAY |} = sl_at a 0 OKAY).
  { unfold sl_at. fold nb ts. rewrite div_mul_down by lia. f_equal; try lia.
    unfold sl_addr. fold nb. destruct (ax_burst a) eqn:E; try lia.
    unfold axi_beat_addr. rewrite E. fold nb. fold (beats a). fold ts.
    assert (Hdd : down ts (down nb (ax_addr a)) = down ts (ax_addr a)).
    { unfold ts. apply down_down; unfold beats; lia. }
    unfold down at 1 in Hdd. rewrite Z.mul_0_l, Z.add_0_r.
    set (d := down nb (ax_addr a)) in *. rewrite <- Hdd.
    replace (d - (d - d mod ts)) with (d mod ts) by lia.
    rewrite Z.mod_mod by lia. lia. }
  destruct (burst_eqb (ax_burst a) INCR) eqn:Eb; cbn [andb].
  - assert (ax_burst a = INCR) by (destruct (ax_burst a); easy).
    destruct (Z.ltb_spec (4096 - down nb (ax_addr a) mod 4096) ts).
    + right. split; [intros [_ H2]; specialize (H2 ltac:(assumption)); lia|reflexivity].
    + left. split; [split; auto|]. now rewrite HOK.
  - left. split; [split; auto; intros E; rewrite E in Eb; discriminate|]. now rewrite HOK.
Qed.

Lemma sl_next_spec a n resp : 0 <= ax_size a -> 0 <= ax_len a -> 0 <= n < beats a ->
  sl_next (sl_at a n resp) = sl_addr a (n + 1).
Proof.
  intros Hs Hl Hn. unfold sl_next, sl_at, sl_addr. cbn [ss_burst ss_cur ss_nb ss_hi ss_lo].
  pose proof (Z.pow_pos_nonneg 2 (ax_size a) ltac:(lia) Hs) as Hnb.
  destruct (ax_burst a) eqn:E; [reflexivity|ring|].
  unfold axi_beat_addr. rewrite E. fold (beats a).
  set (nb := 2 ^ ax_size a) in *. set (ts := nb * beats a) in *.
  assert (Hts : 0 < ts) by (unfold ts; nia).
  set (wb := down ts (ax_addr a)). set (d := down nb (ax_addr a)).
  assert (Hdw : down ts d = wb) by (unfold ts, d, wb; apply down_down; lia).
  (* everything is a multiple of nb *)
  assert (Hex : exists g, d - wb = nb * g).
  { exists (ax_addr a / nb - beats a * (ax_addr a / ts)).
    unfold d, wb. rewrite !down_eq by lia. unfold ts. ring. }
  destruct Hex as (g & Hg). rewrite Hg.
  replace (nb * g + n * nb) with (nb * (g + n)) by ring.
  replace (nb * g + (n + 1) * nb) with (nb * (g + n + 1)) by ring.
  unfold ts. rewrite !Z.mul_mod_distr_l by lia.
  set (B := beats a) in *.
  pose proof (Z.mod_pos_bound (g + n) B ltac:(lia)) as Hm.
  destruct (Z.eqb_spec (wb + nb * ((g + n) mod B) + nb) (wb + nb * B)) as [He|He].
  - assert ((g + n) mod B = B - 1) by nia.
    replace ((g + n + 1) mod B) with 0; [lia|].
    rewrite Z.add_mod by lia. rewrite H.
    destruct (Z.eq_dec B 1) as [->|]; [reflexivity|].
    rewrite (Z.mod_small 1) by lia. replace (B - 1 + 1) with B by lia.
    now rewrite Z.mod_same by lia.
  - assert ((g + n) mod B <> B - 1) by (intros HH; apply He; rewrite HH; ring).
    replace ((g + n + 1) mod B) with ((g + n) mod B + 1); [lia|].
    rewrite <- (Z.mod_small ((g + n) mod B + 1) B) by lia.
    now rewrite Zplus_mod_idemp_l.
Qed.

Lemma sl_word L q a n : 0 <= ax_size a -> 0 <= n -> 0 < q -> L = 2 ^ ax_size a * q ->
  down L (sl_addr a n) = down L (axi_beat_addr a n).
Proof.
  intros Hs Hn Hq HL. pose proof (Z.pow_pos_nonneg 2 (ax_size a) ltac:(lia) Hs) as Hnb.
  unfold sl_addr, axi_beat_addr. rewrite HL. set (nb := 2 ^ ax_size a) in *.
  destruct (ax_burst a) eqn:E; auto.
  - now rewrite down_down.
  - destruct (Z.eqb_spec n 0) as [->|]; auto.
    rewrite Z.mul_0_l, Z.add_0_r. now rewrite down_down.
Qed.

(** ** a slave on a flat target *)
Lemma Forall_app_l {X} (P : X -> Prop) l m : Forall P (l ++ m) -> Forall P l /\ Forall P m.
Proof. apply Forall_app. Qed.

Section Flat.
  Context {T : Type} (L lo hi : Z) (phi : Z -> Z) (inv : T -> Prop) (view : T -> flat)
    (tw : T -> Z -> list Z -> T * res unit) (tr : T -> Z -> Z -> T * res (list Z)).
  Hypothesis Hft : flat_target L lo hi phi inv view tw tr.
  Hypothesis HL : 0 < L.

  Definition in_range (p : Z * Z) : Prop := lo <= fst p < hi.

  Lemma addressed_ends a d : Forall in_range (addressed a d) -> 0 < zlen d ->
    lo <= a /\ a + zlen d <= hi.
  Proof.
    intros H Hd. unfold addressed in H. rewrite Forall_forall in H. unfold in_range in H.
    destruct d as [|b d]; [cbn in Hd; lia|].
    assert (Hin : forall x, a <= x < a + zlen (b :: d) -> lo <= x < hi).
    { intros x Hx. specialize (H (x, znth 0 (b :: d) (x - a))). cbn [fst] in H. apply H.
      set (dd := b :: d) in *.
      replace (x, znth 0 dd (x - a)) with (nth (Z.to_nat (x - a)) (combine (zrange a (a + zlen dd)) dd) (0, 0)).
      - apply nth_In. rewrite combine_length, zrange_length. unfold zlen in *. lia.
      - rewrite combine_nth by (rewrite zrange_length; unfold zlen; lia).
        unfold zrange. rewrite zseq_nth by lia. unfold znth. f_equal. lia. }
    pose proof (Hin a ltac:(lia)). pose proof (Hin (a + zlen (b :: d) - 1) ltac:(lia)). lia.
  Qed.

  Lemma sw_perform_flat word : word mod L = 0 -> forall ops t, inv t ->
    Forall (op_ok word L) ops -> Forall in_range (ops_bytes ops) ->
    exists t', sw_perform tw t ops = (t', Ok tt) /\ inv t' /\
      view t' =f put phi (view t) (ops_bytes ops).
  Proof.
    intros Hw. induction ops as [|[a d] ops IH]; intros t Hi Ho Hr.
    - exists t. cbn [sw_perform ops_bytes flat_map put]. auto using feq_refl.
    - inversion Ho as [|? ? (H1 & H2 & H3 & H4) Ho']; subst. cbn [fst snd] in *.
      unfold ops_bytes in Hr. cbn [flat_map fst snd] in Hr. apply Forall_app_l in Hr.
      destruct Hr as [Hr1 Hr2]. destruct (addressed_ends _ _ Hr1 H2) as [Hlo Hhi].
      assert (Hsame : down L a = down L (a + zlen d - 1)).
      { unfold down.
        assert (Hmm : forall x, word <= x < word + L -> x mod L = x - word).
        { intros x Hx. symmetry. apply (Z.mod_unique_pos _ _ (word / L)); [lia|].
          pose proof (Z.div_mod word L ltac:(lia)). lia. }
        rewrite !Hmm by lia. lia. }
      destruct (ft_write _ _ _ _ _ _ _ _ Hft t a d Hi H4 H2 Hlo Hhi Hsame) as (t1 & E1 & Hi1 & Hv1).
      destruct (IH t1 Hi1 Ho' Hr2) as (t2 & E2 & Hi2 & Hv2).
      exists t2. cbn [sw_perform]. rewrite E1, E2. split; [reflexivity|]. split; [exact Hi2|].
      unfold ops_bytes. cbn [flat_map fst snd]. rewrite put_app.
      eapply feq_trans; [exact Hv2|]. apply put_feq. exact Hv1.
  Qed.

  Definition w_fits (w : wch) : Prop := 0 <= w_data w < 256 ^ L.

  (** one beat *)
  Lemma sw_beat_flat a n q w t :
    0 <= ax_size a -> 0 <= ax_len a -> 0 <= n < beats a -> 0 < q -> L = 2 ^ ax_size a * q ->
    inv t -> w_fits w -> w_last w = (beats a - n =? 1) ->
    Forall in_range (strobed L (down L (axi_beat_addr a n)) w) ->
    exists t', sw_beat tw L true (sl_at a n OKAY) w t = (t', Ok (sl_at a (n + 1) OKAY)) /\ inv t' /\
      view t' =f put phi (view t) (strobed L (down L (axi_beat_addr a n)) w).
  Proof.
    intros Hs Hl Hn Hq HLq Hi Hw Hlast Hr.
    destruct (to_bytes_fits (w_data w) L Little ltac:(lia) Hw) as (data & Hd).
    unfold sw_beat. rewrite Hd.
    replace (ss_cur (sl_at a n OKAY) / L * L) with (down L (axi_beat_addr a n)).
    2:{ cbn [sl_at ss_cur]. rewrite div_mul_down by lia. symmetry. now apply (sl_word L q). }
    set (word := down L (axi_beat_addr a n)) in *.
    destruct (beat_ops L word w data Hd ltac:(lia)) as (Hb & Ho). cbn zeta in Hb, Ho.
    destruct (sw_perform_flat word) with (ops := sw_ops word data (w_strb w) (zrange 0 L) 0 None) (t := t)
      as (t' & Ep & Hi' & Hv'); auto.
    { unfold word. rewrite down_eq by lia. rewrite Z.mul_comm. apply Z.mod_mul. lia. }
    { rewrite Hb. exact Hr. }
    rewrite Ep. cbn [sl_at ss_left ss_resp ss_id ss_nb ss_burst ss_lo ss_hi].
    rewrite Hlast, eqb_reflx. exists t'. split.
    - f_equal. f_equal. fold (sl_at a n OKAY). rewrite sl_next_spec by auto.
      unfold sl_at. f_equal. lia.
    - split; [exact Hi'|]. rewrite <- Hb. exact Hv'.
  Qed.

  Lemma sw_beats_flat a q : 0 <= ax_size a -> 0 <= ax_len a -> 0 < q -> L = 2 ^ ax_size a * q ->
    forall ws n t rest,
    0 <= n -> n + zlen ws = beats a -> inv t -> Forall w_fits ws ->
    (ws <> [] -> last_ok ws) ->
    Forall in_range (burst_bytes L a n ws) ->
    exists t', sw_beats tw L true (length ws) (sl_at a n OKAY) (ws ++ rest) t =
        (t', Some (Ok ({| b_id := ax_id a; b_resp := OKAY; b_user := 0 |}, rest))) /\ inv t' /\
      view t' =f put phi (view t) (burst_bytes L a n ws).
  Proof.
    intros Hs Hl Hq HLq. induction ws as [|w ws IH]; intros n t rest Hn Hlen Hi Hw Hlast Hr.
    - exists t. cbn. auto using feq_refl.
    - cbn [length app sw_beats burst_bytes] in *.
      inversion Hw; subst. apply Forall_app_l in Hr. destruct Hr as [Hr1 Hr2].
      rewrite zlen_cons in Hlen. pose proof (zlen_nonneg ws) as Hz.
      assert (Hlo : w_last w = (beats a - n =? 1) /\ (ws <> [] -> last_ok ws)).
      { specialize (Hlast ltac:(discriminate)). unfold last_ok in *. cbn [map length pred] in Hlast.
        destruct ws as [|w2 ws]; cbn [length repeat app map] in *.
        - injection Hlast as ->. change (zlen (@nil wch)) with 0 in Hlen. split; [lia|easy].
        - injection Hlast as -> Hrest. rewrite zlen_cons in Hlen, Hz.
          pose proof (zlen_nonneg ws). split; [lia|]. intros _. exact Hrest. }
      destruct Hlo as [Hlw Hlws].
      destruct (sw_beat_flat a n q w t) as (t1 & E1 & Hi1 & Hv1); auto; [lia|].
      rewrite E1.
      destruct (IH (n + 1) t1 rest) as (t2 & E2 & Hi2 & Hv2); auto; try lia.
      rewrite E2. exists t2. split; [reflexivity|]. split; [exact Hi2|].
      rewrite put_app. eapply feq_trans; [exact Hv2|]. apply put_feq. exact Hv1.
  Qed.

  (** one burst *)
  Lemma sw_burst_flat a q ws t rest :
    0 <= ax_size a -> 0 <= ax_len a -> 0 < q -> L = 2 ^ ax_size a * q -> accepts L a ->
    zlen ws = beats a -> inv t -> Forall w_fits ws -> last_ok ws ->
    Forall in_range (burst_bytes L a 0 ws) ->
    exists t', sw_burst tw L true a (ws ++ rest) t =
        (t', Some (Ok ({| b_id := ax_id a; b_resp := OKAY; b_user := 0 |}, rest))) /\ inv t' /\
      view t' =f put phi (view t) (burst_bytes L a 0 ws).
  Proof.
    intros Hs Hl Hq HLq Hacc Hlen Hi Hw Hlast Hr. unfold sw_burst.
    destruct (sl_start_spec L a Hs Hl) as [[_ E]|[C _]]; [|contradiction]. rewrite E.
    cbn [sl_at ss_left].
    replace (Z.to_nat (beats a - 0)) with (length ws) by (unfold zlen in Hlen; lia).
    apply (sw_beats_flat a q); auto. lia.
  Qed.

  (** a sequence of bursts *)
  Definition burst_fits (p : axc * list wch) : Prop :=
    0 <= ax_size (fst p) /\ 0 <= ax_len (fst p) /\
    (exists q, 0 < q /\ L = 2 ^ ax_size (fst p) * q) /\ accepts L (fst p) /\
    zlen (snd p) = beats (fst p) /\ Forall w_fits (snd p) /\ last_ok (snd p).

  Lemma slave_write_flat bursts : forall t rest, inv t ->
    Forall burst_fits bursts -> Forall in_range (all_bytes L bursts) ->
    exists t', slave_write tw L true (map fst bursts) (flat_map snd bursts ++ rest) t =
        (t', map (fun p => {| b_id := ax_id (fst p); b_resp := OKAY; b_user := 0 |}) bursts, Ok rest) /\
      inv t' /\ view t' =f put phi (view t) (all_bytes L bursts).
  Proof.
    induction bursts as [|[a ws] bursts IH]; intros t rest Hi Hf Hr.
    - exists t. cbn. auto using feq_refl.
    - inversion Hf as [|? ? (H1 & H2 & (q & H3 & H4) & H5 & H6 & H7 & H8) Hf']; subst x l.
      cbn [fst snd] in *. cbn [map flat_map fst snd slave_write].
      unfold all_bytes in Hr |- *. cbn [flat_map fst snd] in Hr |- *.
      apply Forall_app_l in Hr. destruct Hr as [Hr1 Hr2].
      rewrite <- app_assoc.
      destruct (sw_burst_flat a q ws t (flat_map snd bursts ++ rest)) as (t1 & E1 & Hi1 & Hv1); auto.
      rewrite E1. destruct (IH t1 rest Hi1 Hf' Hr2) as (t2 & E2 & Hi2 & Hv2).
      rewrite E2. exists t2. split; [reflexivity|]. split; [exact Hi2|].
      rewrite put_app. eapply feq_trans; [exact Hv2|]. apply put_feq. exact Hv1.
  Qed.

  (** *** reads *)
  (** the R beat for beat n of burst a when the target holds f *)
  Definition r_beat (f : flat) (a : axc) (n : Z) : rch :=
    let w := down L (axi_beat_addr a n) in
    {| r_id := ax_id a; r_data := le_int (map (fun x => f (phi x)) (zrange w (w + L)));
       r_resp := OKAY; r_last := beats a - n =? 1; r_user := 0 |}.

  Lemma sr_beats_flat a q f : 0 <= ax_size a -> 0 <= ax_len a -> 0 < q -> L = 2 ^ ax_size a * q ->
    forall m n t, 0 <= n -> n + Z.of_nat m = beats a -> inv t -> view t =f f ->
    (forall j, n <= j < beats a -> lo <= down L (axi_beat_addr a j) /\ down L (axi_beat_addr a j) + L <= hi) ->
    exists t', sr_beats tr L m (sl_at a n OKAY) t = (t', map (r_beat f a) (zseq n m)) /\ inv t' /\
      view t' =f f.
  Proof.
    intros Hs Hl Hq HLq. induction m; intros n t Hn Hnm Hi Hv Hrng.
    - exists t. cbn. auto.
    - cbn [sr_beats zseq map]. unfold sr_beat.
      replace (ss_cur (sl_at a n OKAY) / L * L) with (down L (axi_beat_addr a n)).
      2:{ cbn [sl_at ss_cur]. rewrite div_mul_down by lia. symmetry. now apply (sl_word L q). }
      specialize (Hrng n ltac:(lia)) as Hn1.
      destruct (ft_read _ _ _ _ _ _ _ _ Hft t (down L (axi_beat_addr a n)) Hi ltac:(lia) ltac:(lia))
        as (t1 & E1 & Hi1 & Hv1).
      { rewrite down_eq by lia. rewrite Z.mul_comm. apply Z.mod_mul. lia. }
      rewrite E1. rewrite sl_next_spec by (auto; lia).
      cbn [sl_at ss_left ss_resp ss_id ss_nb ss_burst ss_lo ss_hi].
      replace ({| ss_id := ax_id a; ss_nb := 2 ^ ax_size a; ss_left := beats a - n - 1;
         ss_burst := ax_burst a; ss_lo := down (2 ^ ax_size a * beats a) (ax_addr a);
         ss_hi := down (2 ^ ax_size a * beats a) (ax_addr a) + 2 ^ ax_size a * beats a;
         ss_cur := sl_addr a (n + 1); ss_resp := OKAY |}) with (sl_at a (n + 1) OKAY)
        by (unfold sl_at; f_equal; lia).
      destruct (IHm (n + 1) t1 ltac:(lia) ltac:(lia) Hi1) as (t2 & E2 & Hi2 & Hv2).
      { eapply feq_trans; eauto. }
      { intros j Hj. apply Hrng. lia. }
      rewrite E2. exists t2. split; [|split; [exact Hi2|exact Hv2]].
      f_equal. f_equal. unfold r_beat. f_equal. f_equal. apply map_ext. intros x. apply Hv.
  Qed.

  Definition ar_fits (a : axc) : Prop :=
    0 <= ax_size a /\ 0 <= ax_len a /\ (exists q, 0 < q /\ L = 2 ^ ax_size a * q) /\ accepts L a /\
    (forall j, 0 <= j < beats a -> lo <= down L (axi_beat_addr a j) /\ down L (axi_beat_addr a j) + L <= hi).

  Lemma slave_read_flat ars f : forall t, inv t -> view t =f f -> Forall ar_fits ars ->
    exists t', slave_read tr L ars t =
      (t', flat_map (fun a => map (r_beat f a) (zrange 0 (beats a))) ars, Ok tt) /\ inv t' /\ view t' =f f.
  Proof.
    induction ars as [|a ars IH]; intros t Hi Hv Hf.
    - exists t. cbn. auto.
    - inversion Hf as [|? ? (H1 & H2 & (q & H3 & H4) & H5 & H6) Hf']; subst x l.
      cbn [slave_read flat_map].
      destruct (sl_start_spec L a H1 H2) as [[_ E]|[C _]]; [|contradiction]. rewrite E.
      cbn [sl_at ss_left].
      destruct (sr_beats_flat a q f H1 H2 H3 H4 (Z.to_nat (beats a)) 0 t) as (t1 & E1 & Hi1 & Hv1); auto;
        try (unfold beats; lia).
      fold (sl_at a 0 OKAY). rewrite Z.sub_0_r, E1.
      destruct (IH t1 Hi1 Hv1 Hf') as (t2 & E2 & Hi2 & Hv2). rewrite E2.
      exists t2. split; [|auto]. unfold zrange. now rewrite Z.sub_0_r.
  Qed.
End Flat.
