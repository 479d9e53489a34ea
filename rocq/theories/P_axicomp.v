(** Composition of the AXI master and slave; slave on arbitrary targets; FIXED bursts. *)
From Coq Require Import ZArith Lia List Bool.
From Coq Require Import ZifyBool ZifyNat.
From Verif Require Import Py S_flat M_axi S_axi P_axi P_axislave P_axiop.
Import ListNotations.
Open Scope Z_scope.

(** ** response aggregation *)
Lemma mw_resp_spec bl : forall bs rest resp user, length bl = length bs ->
  mw_resp bl (bs ++ rest) resp user =
  Some (fold_left agg_resp (map b_resp bs) resp, user ++ map b_user bs, rest).
Proof.
  induction bl as [|x bl IH]; intros [|b bs] rest resp user Hl; try discriminate; cbn [mw_resp app map fold_left].
  - now rewrite app_nil_r.
  - rewrite IH by (cbn in Hl; lia). now rewrite <- app_assoc.
Qed.

Lemma agg_okay l : forall r, Forall (fun x => x = OKAY) l -> fold_left agg_resp l r = r.
Proof.
  induction l as [|x l IH]; intros r H; cbn [fold_left]; auto. inversion H; subst. now apply IH.
Qed.

Lemma agg_err l : forall r, Forall (fun x => x <> EXOKAY) l ->
  rerr (fold_left agg_resp l r) = rerr r || existsb rerr l.
Proof.
  induction l as [|x l IH]; intros r H; cbn [fold_left existsb]; [now rewrite orb_false_r|].
  inversion H; subst. rewrite IH by auto. destruct x, r; try reflexivity; congruence.
Qed.

Lemma agg_last l r r0 : r <> OKAY -> forall l', Forall (fun x => x = OKAY) l' ->
  fold_left agg_resp (l ++ r :: l') r0 = r.
Proof.
  intros Hr l' Hl'. rewrite fold_left_app. cbn [fold_left]. rewrite agg_okay by auto.
  unfold agg_resp. destruct r; congruence || reflexivity.
Qed.

Lemma mr_burst_resp lanes addr size n : forall rs st st' rest,
  mr_burst lanes addr size n rs st = Some (Ok (st', rest)) ->
  exists used, rs = used ++ rest /\ mr_resp st' = fold_left agg_resp (map r_resp used) (mr_resp st) /\
               mr_user st' = mr_user st ++ map r_user used.
Proof.
  induction n as [|n IH]; intros rs st st' rest H; cbn [mr_burst] in H.
  - injection H as <- <-. exists []. cbn. now rewrite app_nil_r.
  - destruct rs as [|r rs]; [discriminate|]. unfold mr_beat in H.
    destruct (Bool.eqb (r_last r) (Nat.eqb n 0)); [|discriminate].
    apply IH in H. destruct H as (used & -> & H1 & H2). cbn [mr_resp mr_user] in *.
    exists (r :: used). cbn [app map fold_left]. rewrite H2, <- app_assoc. auto.
Qed.

Lemma mr_bursts_resp lanes addr size bl : forall rs st st' rest,
  mr_bursts lanes addr size bl rs st = Some (Ok (st', rest)) ->
  exists used, rs = used ++ rest /\ mr_resp st' = fold_left agg_resp (map r_resp used) (mr_resp st) /\
               mr_user st' = mr_user st ++ map r_user used.
Proof.
  induction bl as [|b bl IH]; intros rs st st' rest H; cbn [mr_bursts] in H.
  - injection H as <- <-. exists []. cbn. now rewrite app_nil_r.
  - destruct (mr_burst lanes addr size (Z.to_nat b) rs st) as [[[st1 rs1]|e]|] eqn:E; try discriminate.
    apply mr_burst_resp in E. destruct E as (u1 & -> & H1 & H2).
    apply IH in H. destruct H as (u2 & -> & H3 & H4).
    exists (u1 ++ u2). rewrite !map_app, fold_left_app, <- H1, H4, H2, !app_assoc. auto.
Qed.

(** ** write through master and slave *)
Section Comp.
  Context {T : Type} (L lo hi : Z) (phi : Z -> Z) (inv : T -> Prop) (view : T -> flat)
    (tw : T -> Z -> list Z -> T * res unit) (tr : T -> Z -> Z -> T * res (list Z)).
  Hypothesis Hft : flat_target L lo hi phi inv view tw tr.

  Lemma write_exact c id cmd t :
    m_lanes c = L -> bus_ok L (wc_size cmd) -> wc_burst cmd = INCR -> are_bytes (wc_data cmd) ->
    0 <= wc_addr cmd -> lo <= wc_addr cmd -> wc_addr cmd + zlen (wc_data cmd) <= hi -> inv t ->
    let evs := fst (master_write c id cmd) in
    exists t' bs users,
      slave_write tw L true (aw_of evs) (w_of evs) t = (t', bs, Ok []) /\ inv t' /\
      view t' =f put phi (view t) (addressed (wc_addr cmd) (wc_data cmd)) /\
      Forall (fun b => b_id b = id) bs /\
      mw_resp (bursts_of (aw_of evs)) bs OKAY [] = Some (OKAY, users, []).
  Proof.
    intros HcL HG Hbt HD HA Hlo Hhi Hi.
    destruct cmd as [A D bt size sd wu]. cbn [wc_addr wc_data wc_burst wc_size] in *. subst bt.
    rewrite <- HcL in HG. pose proof (zlen_nonneg D) as Hlen.
    pose proof (op_write c A (zlen D) size sd id HG HA Hlen D wu HD eq_refl) as Hw.
    unfold og_cmd in Hw. rewrite Hw. cbn [fst]. cbn zeta.
    set (gen := og_gen c A (zlen D) size INCR sd id D wu (Z.to_nat (og_C A (zlen D) size)) 0) in *.
    rewrite aw_of_flatten, w_of_flatten.
    pose proof (op_bursts c A (zlen D) size sd id HG HA Hlen D wu HD eq_refl (A + zlen D + 1)) as Hb.
    pose proof (pow_above (A + zlen D + 1) ltac:(lia)) as Hpow. specialize (Hb ltac:(lia) ltac:(lia)).
    pose proof (op_bytes c A (zlen D) size sd id HG HA Hlen D wu HD eq_refl) as Hby.
    fold gen in Hb, Hby. rewrite HcL in Hby.
    destruct (bus_ok_facts _ _ HG) as (q & p & Hnb & Hq & HL & Hp & Hs & HL0). rewrite HcL in HL, HL0.
    destruct (slave_write_flat L lo hi phi inv view tw tr Hft HL0 gen t [] Hi) as (t' & E & Hi' & Hv).
    { eapply Forall_impl; [|exact Hb]. intros [a ws] (H1 & H2 & H3 & H4 & H5 & H6 & H7 & H8).
      cbn [fst snd] in *. unfold burst_fits. cbn [fst snd].
      pose proof (legal_accepts _ _ _ H1) as Hacc. rewrite HcL in Hacc.
      destruct H1 as (_ & Ha1 & _ & Ha3 & _).
      split; [lia|]. split; [lia|]. split; [exists q; rewrite H4; auto|]. split; [exact Hacc|].
      split; [exact H6|]. split; [|exact H7]. eapply Forall_impl; [|exact H8].
      intros w (Hw1 & _). unfold w_fits. now rewrite <- HcL. }
    { rewrite Hby. apply Forall_forall. intros [x y] Hin. unfold addressed in Hin.
      apply in_combine_l in Hin. apply in_zrange in Hin. unfold in_range. cbn [fst]. lia. }
    rewrite app_nil_r in E.
    exists t', (map (fun p => {| b_id := ax_id (fst p); b_resp := OKAY; b_user := 0 |}) gen),
      (map b_user (map (fun p : axc * list wch => {| b_id := ax_id (fst p); b_resp := OKAY; b_user := 0 |}) gen)).
    split; [exact E|]. split; [exact Hi'|]. split; [now rewrite <- Hby|]. split.
    - apply Forall_forall. intros b Hin. apply in_map_iff in Hin. destruct Hin as (x & <- & Hin).
      rewrite Forall_forall in Hb. specialize (Hb x Hin). cbn [b_id]. tauto.
    - match goal with |- mw_resp ?bl ?bs _ _ = _ => pose proof (mw_resp_spec bl bs [] OKAY []) as HR end.
      rewrite app_nil_r in HR. rewrite HR by (unfold bursts_of; now rewrite !map_length).
      rewrite agg_okay; [reflexivity|]. rewrite map_map. apply Forall_forall.
      intros r Hin. apply in_map_iff in Hin. destruct Hin as (x & <- & _). reflexivity.
  Qed.

  Lemma read_exact c id cmd t :
    m_lanes c = L -> bus_ok L (rc_size cmd) -> rc_burst cmd = INCR -> 0 <= rc_len cmd -> 0 <= rc_addr cmd ->
    lo mod L = 0 -> hi mod L = 0 -> lo <= rc_addr cmd < hi -> rc_addr cmd + rc_len cmd <= hi -> inv t ->
    let ars := master_read c id cmd in
    exists t' rs users,
      slave_read tr L ars t = (t', rs, Ok tt) /\ inv t' /\ view t' =f view t /\
      Forall (fun r => r_id r = id) rs /\
      master_read_resp c cmd (bursts_of ars) rs =
        Some (Ok (map (fun x => view t (phi x)) (zrange (rc_addr cmd) (rc_addr cmd + rc_len cmd)), OKAY, users, [])).
  Proof.
    intros HcL HG Hbt Hlen HA Hlo Hhi Hr1 Hr2 Hi.
    destruct cmd as [A len bt size sd]. cbn [rc_addr rc_len rc_burst rc_size] in *. subst bt.
    rewrite <- HcL in HG.
    pose proof (op_read c A len size sd id HG Hlen) as Hrd. unfold og_rcmd in Hrd. rewrite Hrd. cbn zeta.
    set (ars := og_ars c A len size INCR sd id (Z.to_nat (og_C A len size)) 0) in *.
    pose proof (op_ars c A len size sd id HG HA Hlen (A + len + 1)) as Hb.
    pose proof (pow_above (A + len + 1) ltac:(lia)) as Hpow. specialize (Hb ltac:(lia) ltac:(lia)).
    fold ars in Hb.
    destruct (bus_ok_facts _ _ HG) as (q & p & Hnb & Hq & HL & Hp & Hs & HL0). rewrite HcL in HL, HL0.
    destruct (slave_read_flat L lo hi phi inv view tw tr Hft HL0 ars (view t) t Hi (feq_refl _))
      as (t' & E & Hi' & Hv).
    { apply Forall_forall. intros a Hin. pose proof Hb as Hb'. rewrite Forall_forall in Hb'.
      specialize (Hb' a Hin). destruct Hb' as (H1 & H2 & H3 & H4 & H5).
      pose proof (legal_accepts _ _ _ H1) as Hacc. rewrite HcL in Hacc.
      destruct H1 as (_ & Ha1 & _ & Ha3 & _).
      split; [lia|]. split; [lia|]. split; [exists q; rewrite H4; auto|]. split; [exact Hacc|].
      destruct (og_ars_in c A len size INCR sd id p Hnb Hp _ 0 _ ltac:(lia) Hin) as (k & Hk & ->).
      intros j Hj. unfold beats in Hj. cbn [og_ax ax_len] in Hj.
      pose proof (op_words c A len size sd id HG HA Hlen lo hi k j) as Hw. rewrite HcL in Hw.
      apply Hw; auto; lia. }
    exists t', (flat_map (fun a => map (r_beat L phi (view t) a) (zrange 0 (beats a))) ars),
      (zeros (og_C A len size)).
    split; [exact E|]. split; [exact Hi'|]. split; [exact Hv|]. split.
    - apply Forall_forall. intros r Hin. apply in_flat_map in Hin. destruct Hin as (a & Ha & Hin).
      apply in_map_iff in Hin. destruct Hin as (j & <- & _). rewrite Forall_forall in Hb.
      specialize (Hb a Ha). cbn [r_beat r_id]. tauto.
    - pose proof (op_read_resp c A len size sd id HG HA Hlen (fun x => view t (phi x))) as Hres.
      specialize (Hres ltac:(intros x; apply (ft_bytes _ _ _ _ _ _ _ _ Hft); exact Hi)).
      unfold og_rcmd in Hres. fold ars in Hres. rewrite HcL in Hres. exact Hres.
  Qed.
End Comp.

(** ** slave on an arbitrary target *)
Lemma ops_bytes_calls l : ops_bytes (map fst l) = calls_bytes l.
Proof.
  unfold ops_bytes, calls_bytes. induction l as [|e l IH]; cbn [map flat_map]; auto. now rewrite IH.
Qed.

Section Arbitrary.
  Context {T : Type} (tw : T -> Z -> list Z -> T * res unit) (tr : T -> Z -> Z -> T * res (list Z)).
  Variable L : Z.
  Hypothesis HL : 0 < L.

  Lemma sw_perform_log ops : forall t log, exists t' new rest,
    sw_perform (log_write tw) (t, log) ops =
      ((t', log ++ new), if existsb failed new then snd (sw_perform (log_write tw) (t, log) ops) else Ok tt) /\
    is_err (snd (sw_perform (log_write tw) (t, log) ops)) = existsb failed new /\
    ops = map fst new ++ rest /\ (existsb failed new = false -> rest = []).
  Proof.
    induction ops as [|[a d] ops IH]; intros t log; cbn [sw_perform].
    - exists t, [], []. rewrite app_nil_r. cbn. auto.
    - unfold log_write at 1 3 5. cbn [fst snd]. destruct (tw t a d) as [t1 r1] eqn:E1. destruct r1 as [[]|e].
      + destruct (IH t1 (log ++ [(a, d, Ok tt)])) as (t' & new & rest & H1 & H2 & H3 & H4).
        exists t', ((a, d, Ok tt) :: new), rest. cbn [existsb failed snd is_err orb].
        rewrite <- app_assoc in H1. cbn [app] in H1. rewrite H1 at 1. split; [reflexivity|].
        split; [exact H2|]. split; [|exact H4]. cbn [map fst app]. now rewrite <- H3.
      + exists t1, [(a, d, Err e)], ops. cbn [existsb failed snd is_err orb]. split; [reflexivity|].
        split; [reflexivity|]. split; [reflexivity|]. discriminate.
  Qed.

  Lemma eff_strb (sp : bool) w : (if sp then w_strb w else strb_mask L) = w_strb (eff_w sp L w).
  Proof. destruct sp; reflexivity. Qed.

  Lemma eff_data (sp : bool) w : w_data (eff_w sp L w) = w_data w.
  Proof. destruct sp; reflexivity. Qed.

  (** one beat on any target *)
  Lemma sw_beat_any (sp : bool) a n q w t log resp :
    0 <= ax_size a -> 0 <= ax_len a -> 0 <= n < beats a -> 0 < q -> L = 2 ^ ax_size a * q ->
    0 <= w_data w < 256 ^ L -> w_last w = (beats a - n =? 1) ->
    exists t' new,
      sw_beat (log_write tw) L sp (sl_at a n resp) w (t, log) =
        ((t', log ++ new), Ok (sl_at a (n + 1) (if existsb failed new then SLVERR else resp))) /\
      (exists rest, strobed L (down L (axi_beat_addr a n)) (eff_w sp L w) = calls_bytes new ++ rest /\
                    (existsb failed new = false -> rest = [])) /\
      Forall (fun e => snd (fst e) <> []) new.
  Proof.
    intros Hs Hl Hn Hq HLq Hw Hlast.
    destruct (to_bytes_fits (w_data w) L Little ltac:(lia) Hw) as (data & Hd).
    unfold sw_beat. rewrite Hd.
    replace (ss_cur (sl_at a n resp) / L * L) with (down L (axi_beat_addr a n)).
    2:{ cbn [sl_at ss_cur]. rewrite div_mul_down by lia. symmetry. now apply (sl_word L q). }
    set (word := down L (axi_beat_addr a n)) in *. rewrite eff_strb.
    destruct (beat_ops L word (eff_w sp L w) data) as (Hb & Ho); [now rewrite eff_data|lia|]. cbn zeta in Hb, Ho.
    set (ops := sw_ops word data (w_strb (eff_w sp L w)) (zrange 0 L) 0 None) in *.
    destruct (sw_perform_log ops t log) as (t' & new & rest & E & He & Hops & Hrest).
    exists t', new. split; [|split].
    - rewrite E. cbn [sl_at ss_left ss_resp ss_id ss_nb ss_burst ss_lo ss_hi].
      rewrite Hlast, eqb_reflx. f_equal. f_equal.
      fold (sl_at a n resp). rewrite sl_next_spec by auto. unfold sl_at.
      replace (beats a - n - 1) with (beats a - (n + 1)) by lia. f_equal.
      destruct (existsb failed new); [|reflexivity].
      destruct (snd (sw_perform (log_write tw) (t, log) ops)); [discriminate|reflexivity].
    - exists (ops_bytes rest). rewrite <- Hb, Hops. rewrite <- ops_bytes_calls.
      split; [unfold ops_bytes; apply flat_map_app|]. intros HF. now rewrite (Hrest HF).
    - rewrite Hops in Ho. apply Forall_app in Ho. destruct Ho as [Ho _]. rewrite Forall_map in Ho.
      eapply Forall_impl; [|exact Ho]. intros e (_ & H0 & _) Hnil. rewrite Hnil in H0. cbn in H0. lia.
  Qed.

  Lemma sw_beats_any (sp : bool) a q : 0 <= ax_size a -> 0 <= ax_len a -> 0 < q -> L = 2 ^ ax_size a * q ->
    forall ws n t log resp rest,
    0 <= n -> n + zlen ws = beats a -> Forall (fun w => 0 <= w_data w < 256 ^ L) ws ->
    (ws <> [] -> last_ok ws) ->
    exists t' news,
      sw_beats (log_write tw) L sp (length ws) (sl_at a n resp) (ws ++ rest) (t, log) =
        ((t', log ++ concat news),
         Some (Ok ({| b_id := ax_id a;
                      b_resp := if existsb failed (concat news) then SLVERR else resp; b_user := 0 |}, rest))) /\
      logged L a n (map (eff_w sp L) ws) news.
  Proof.
    intros Hs Hl Hq HLq. induction ws as [|w ws IH]; intros n t log resp rest Hn Hlen Hw Hlast.
    - exists t, []. cbn. rewrite app_nil_r. auto.
    - cbn [length app sw_beats]. inversion Hw as [|? ? Hw0 Hw1]; subst x l.
      rewrite zlen_cons in Hlen. pose proof (zlen_nonneg ws) as Hz.
      assert (Hlo : w_last w = (beats a - n =? 1) /\ (ws <> [] -> last_ok ws)).
      { specialize (Hlast ltac:(discriminate)). unfold last_ok in *. cbn [map length pred] in Hlast.
        destruct ws as [|w2 ws]; cbn [length repeat app map] in *.
        - injection Hlast as ->. change (zlen (@nil wch)) with 0 in Hlen. split; [lia|easy].
        - injection Hlast as -> Hrest. rewrite zlen_cons in Hlen, Hz.
          pose proof (zlen_nonneg ws). split; [lia|]. intros _. exact Hrest. }
      destruct Hlo as [Hlw Hlws].
      destruct (sw_beat_any sp a n q w t log resp) as (t1 & new & E1 & Hlog & Hne); auto; [lia|].
      rewrite E1.
      destruct (IH (n + 1) t1 (log ++ new) (if existsb failed new then SLVERR else resp) rest)
        as (t2 & news & E2 & Hlogs); auto; try lia.
      exists t2, (new :: news). cbn [concat]. rewrite E2, <- app_assoc. split.
      + rewrite existsb_app. destruct (existsb failed new), (existsb failed (concat news)); reflexivity.
      + cbn [map logged]. auto.
  Qed.

  (** the calls of the target for a burst, and its response *)
  Definition wburst_answer (sp : bool) (p : axc * list wch) (x : list (list (Z * list Z * res unit)) * bch) : Prop :=
    logged L (fst p) 0 (map (eff_w sp L) (snd p)) (fst x) /\
    snd x = {| b_id := ax_id (fst p);
               b_resp := if existsb failed (concat (fst x)) then SLVERR else OKAY; b_user := 0 |}.

  Lemma slave_write_any sp bursts : forall t log rest, Forall (wburst_ok L) bursts ->
    exists t' ans,
      slave_write (log_write tw) L sp (map fst bursts) (flat_map snd bursts ++ rest) (t, log) =
        ((t', log ++ flat_map (fun x => concat (fst x)) ans), map snd ans, Ok rest) /\
      Forall2 (wburst_answer sp) bursts ans.
  Proof.
    induction bursts as [|[a ws] bursts IH]; intros t log rest Hf.
    - exists t, []. cbn. rewrite app_nil_r. auto.
    - inversion Hf as [|? ? (H1 & H2 & (q & H3 & H4) & H5 & H6 & H7 & H8) Hf']; subst x l.
      cbn [fst snd] in *. cbn [map flat_map fst snd slave_write]. rewrite <- app_assoc.
      unfold sw_burst. destruct (sl_start_spec L a H1 H2) as [[_ E]|[C _]]; [|contradiction]. rewrite E.
      cbn [sl_at ss_left]. replace (Z.to_nat (beats a - 0)) with (length ws) by (unfold zlen in H6; lia).
      fold (sl_at a 0 OKAY).
      destruct (sw_beats_any sp a q H1 H2 H3 H4 ws 0 t log OKAY (flat_map snd bursts ++ rest))
        as (t1 & news & E1 & Hlog); auto; try lia.
      rewrite E1. destruct (IH t1 (log ++ concat news) rest Hf') as (t2 & ans & E2 & Hans).
      rewrite E2. exists t2, ((news, {| b_id := ax_id a; b_resp := if existsb failed (concat news) then SLVERR else OKAY; b_user := 0 |}) :: ans).
      cbn [flat_map fst map snd]. rewrite <- app_assoc. split; [reflexivity|].
      constructor; [|exact Hans]. split; [exact Hlog|reflexivity].
  Qed.

  Lemma sr_beats_any a q : 0 <= ax_size a -> 0 <= ax_len a -> 0 < q -> L = 2 ^ ax_size a * q ->
    forall m n t log, 0 <= n -> n + Z.of_nat m = beats a ->
    exists t' new,
      sr_beats (log_read tr) L m (sl_at a n OKAY) (t, log) =
        ((t', log ++ new), map (r_answer a) (combine (zseq n m) new)) /\
      map fst new = map (fun j => (down L (axi_beat_addr a j), L)) (zseq n m).
  Proof.
    intros Hs Hl Hq HLq. induction m; intros n t log Hn Hnm.
    - exists t, []. cbn. rewrite app_nil_r. auto.
    - cbn [sr_beats zseq map]. unfold sr_beat.
      replace (ss_cur (sl_at a n OKAY) / L * L) with (down L (axi_beat_addr a n)).
      2:{ cbn [sl_at ss_cur]. rewrite div_mul_down by lia. symmetry. now apply (sl_word L q). }
      unfold log_read at 1. cbn [fst snd].
      destruct (tr t (down L (axi_beat_addr a n)) L) as [t1 r1].
      rewrite sl_next_spec by (auto; lia).
      cbn [sl_at ss_left ss_resp ss_id ss_nb ss_burst ss_lo ss_hi].
      replace ({| ss_id := ax_id a; ss_nb := 2 ^ ax_size a; ss_left := beats a - n - 1;
         ss_burst := ax_burst a; ss_lo := down (2 ^ ax_size a * beats a) (ax_addr a);
         ss_hi := down (2 ^ ax_size a * beats a) (ax_addr a) + 2 ^ ax_size a * beats a;
         ss_cur := sl_addr a (n + 1); ss_resp := OKAY |}) with (sl_at a (n + 1) OKAY)
        by (unfold sl_at; f_equal; lia).
      destruct (IHm (n + 1) t1 (log ++ [(down L (axi_beat_addr a n), L, r1)]) ltac:(lia) ltac:(lia))
        as (t2 & new & E2 & Hnew).
      exists t2, ((down L (axi_beat_addr a n), L, r1) :: new).
      destruct r1 as [d|e]; rewrite E2, <- app_assoc; cbn [app map fst combine];
        (split; [|now rewrite Hnew]); f_equal; f_equal; unfold r_answer; cbn [fst snd]; f_equal; try lia.
      apply le_int_zeros.
  Qed.

  Definition rburst_answer (a : axc) (x : list (Z * Z * res (list Z))) : Prop :=
    map fst x = map (fun j => (down L (axi_beat_addr a j), L)) (zrange 0 (beats a)).

  Lemma slave_read_any ars : forall t log, Forall (rburst_ok L) ars ->
    exists t' ans,
      slave_read (log_read tr) L ars (t, log) =
        ((t', log ++ concat ans),
         flat_map (fun p => map (r_answer (fst p)) (combine (zrange 0 (beats (fst p))) (snd p))) (combine ars ans),
         Ok tt) /\
      Forall2 rburst_answer ars ans.
  Proof.
    induction ars as [|a ars IH]; intros t log Hf.
    - exists t, []. cbn. rewrite app_nil_r. auto.
    - inversion Hf as [|? ? (H1 & H2 & (q & H3 & H4) & H5) Hf']; subst x l.
      cbn [slave_read].
      destruct (sl_start_spec L a H1 H2) as [[_ E]|[C _]]; [|contradiction]. rewrite E.
      cbn [sl_at ss_left]. fold (sl_at a 0 OKAY).
      destruct (sr_beats_any a q H1 H2 H3 H4 (Z.to_nat (beats a)) 0 t log) as (t1 & new & E1 & Hnew);
        try (unfold beats; lia).
      rewrite Z.sub_0_r, E1.
      destruct (IH t1 (log ++ new) Hf') as (t2 & ans & E2 & Hans). rewrite E2.
      exists t2, (new :: ans). cbn [concat combine flat_map fst snd]. rewrite <- app_assoc.
      split; [|constructor; auto].
      + unfold zrange at 2. now rewrite Z.sub_0_r.
      + unfold rburst_answer, zrange. now rewrite Z.sub_0_r.
  Qed.
End Arbitrary.

(** a burst that is not accepted ends the task without any target access or response *)
Lemma slave_write_reject {T} (tw : T -> Z -> list Z -> T * res unit) L sp a aws ws t :
  0 <= ax_size a -> 0 <= ax_len a -> ~ accepts L a ->
  slave_write tw L sp (a :: aws) ws t = (t, [], Err AssertionError).
Proof.
  intros H1 H2 H3. cbn [slave_write]. unfold sw_burst.
  destruct (sl_start_spec L a H1 H2) as [[C _]|[_ E]]; [contradiction|]. now rewrite E.
Qed.

Lemma slave_read_reject {T} (tr : T -> Z -> Z -> T * res (list Z)) L a ars t :
  0 <= ax_size a -> 0 <= ax_len a -> ~ accepts L a ->
  slave_read tr L (a :: ars) t = (t, [], Err AssertionError).
Proof.
  intros H1 H2 H3. cbn [slave_read].
  destruct (sl_start_spec L a H1 H2) as [[C _]|[_ E]]; [contradiction|]. now rewrite E.
Qed.

(** ** FIXED bursts of full bus width *)
Lemma strobed_shift L w1 w0 w :
  strobed L w0 w = map (fun p => (fst p + (w0 - w1), snd p)) (strobed L w1 w).
Proof.
  unfold strobed. rewrite map_map. apply map_ext. intros i. cbn [fst snd]. f_equal. lia.
Qed.

Lemma addressed_shift a b d : addressed b d = map (fun p => (fst p + (b - a), snd p)) (addressed a d).
Proof.
  revert a b. induction d as [|x d IH]; intros a b; [now rewrite !addressed_nil|].
  assert (Hc : forall a, addressed a (x :: d) = (a, x) :: addressed (a + 1) d).
  { intros a0. unfold addressed. rewrite zlen_cons. pose proof (zlen_nonneg d). rewrite zrange_cons by lia.
    cbn [combine]. do 3 f_equal. lia. }
  rewrite !Hc. cbn [map fst snd]. f_equal; [f_equal; lia|]. rewrite (IH (a + 1) (b + 1)).
  apply map_ext. intros y. f_equal. lia.
Qed.

Section Fixed.
  Variables (c : mcfg) (A size : Z) (sd : side) (id : Z) (D : list Z) (wu : wuser_t).
  Let L := m_lanes c.
  Let len := zlen D.
  Hypothesis HG : bus_ok (m_lanes c) size.
  Hypothesis Hfull : m_lanes c = 2 ^ size.
  Hypothesis HA : 0 <= A.
  Hypothesis Hal : A mod m_lanes c = 0.
  Hypothesis HD : are_bytes D.

  Notation C := (og_C A len size).
  Notation gen := (og_gen c A len size FIXED sd id D wu).

  Lemma fixed_chunk k last : 0 <= k < C ->
    strobed L A (og_w c A len size D wu k last) = addressed A (zslice D (k * L) ((k + 1) * L)).
  Proof.
    destruct (bus_ok_facts _ _ HG) as (q & p & Hnb & Hq & HL & Hp & Hs & HL0).
    assert (Hlen : 0 <= len) by apply zlen_nonneg.
    assert (Hq1 : q = 1) by nia. subst q.
    intros Hk. rewrite (strobed_shift L (down L (og_ba A size k)) A).
    change L with (m_lanes c) at 2 3; rewrite (og_strobed c A len size 1 p Hnb Hq HL Hp HA Hlen D wu HD eq_refl k last Hk).
    assert (Hu : A = 2 ^ size * og_u A size).
    { unfold og_u. rewrite Hfull in Hal. pose proof (Z.div_mod A (2 ^ size) ltac:(lia)). lia. }
    assert (Hba : og_ba A size k = A + k * L).
    { unfold og_ba, L. rewrite Hfull. rewrite Hu at 2. ring. }
    assert (Hd : down L (og_ba A size k) = A + k * L).
    { rewrite Hba. rewrite Hu. unfold L. rewrite Hfull.
      replace (2 ^ size * og_u A size + k * 2 ^ size) with (2 ^ size * (og_u A size + k)) by ring.
      rewrite down_mul. reflexivity. }
    pose proof (og_cycles c A len size Hnb Hlen) as (HC & HC2 & HC3 & HC4). specialize (HC3 ltac:(lia)).
    assert (HkL : k * L < len).
    { assert (2 ^ size * (og_u A size + k) <= 2 ^ size * (og_u A size + (C - 1)))
        by (apply Z.mul_le_mono_nonneg_l; lia).
      replace (2 ^ size * (og_u A size + (C - 1))) with (2 ^ size * (og_u A size + C) - 2 ^ size) in * by ring.
      unfold og_ba in Hba. lia. }
    assert (HkL0 : 0 <= k * L) by (apply Z.mul_nonneg_nonneg; unfold L; lia).
    assert (Hba1 : og_ba A size (k + 1) = A + k * L + L).
    { unfold og_ba, L. rewrite Hfull. rewrite Hu at 2. ring. }
    assert (Ho : og_off A len size k = k * L) by (unfold og_off; rewrite Hba; lia).
    assert (Ho1 : og_off A len size (k + 1) = Z.min len (k * L + L)).
    { unfold og_off. rewrite Hba1. unfold L in *. lia. }
    rewrite Hd, Ho, Ho1. rewrite (addressed_shift (A + k * L) A). f_equal.
    f_equal. replace ((k + 1) * L) with (k * L + L) by ring.
    destruct (Z.le_ge_cases (k * L + L) len); [now rewrite Z.min_r by lia|].
    rewrite Z.min_l by lia. unfold zslice, len.
    rewrite !firstn_all2; auto; rewrite skipn_length; unfold len, zlen in *; lia.
  Qed.

  Lemma fixed_burst k0 : forall m n, 0 <= n -> 0 <= k0 -> k0 + n + Z.of_nat m <= C ->
    burst_bytes L (og_ax c A len size FIXED sd id k0) n (og_beats c A len size D wu (k0 + n) m) =
    flat_map (fun k => addressed A (zslice D (k * L) ((k + 1) * L))) (zseq (k0 + n) m).
  Proof.
    destruct (bus_ok_facts _ _ HG) as (q & p & Hnb & Hq & HL & Hp & Hs & HL0).
    assert (HdA : down L A = A) by (unfold down; unfold L; lia).
    induction m; intros n Hn Hk0 Hkm; cbn [og_beats burst_bytes zseq flat_map]; [reflexivity|].
    unfold axi_beat_addr at 1. cbn [og_ax ax_burst ax_addr og_cur]. rewrite HdA.
    rewrite fixed_chunk by lia. f_equal.
    replace (k0 + n + 1) with (k0 + (n + 1)) by lia. apply IHm; lia.
  Qed.

  Lemma fixed_gen fuel : forall k, 0 <= k <= C -> C - k <= Z.of_nat fuel ->
    all_bytes L (gen fuel k) =
    flat_map (fun k => addressed A (zslice D (k * L) ((k + 1) * L))) (zrange k C).
  Proof.
    destruct (bus_ok_facts _ _ HG) as (q & p & Hnb & Hq & HL & Hp & Hs & HL0).
    induction fuel; intros k Hk Hf; cbn [og_gen].
    - rewrite zrange_empty by lia. reflexivity.
    - destruct (Z.ltb_spec k C); [|rewrite zrange_empty by lia; reflexivity].
      pose proof (og_bl_range c A len size FIXED p Hnb Hp k ltac:(lia)) as (Hb1 & _).
      unfold all_bytes. cbn [flat_map fst snd].
      fold (all_bytes L (gen fuel (k + og_bl c A len size FIXED k))).
      pose proof (fixed_burst k (Z.to_nat (og_bl c A len size FIXED k)) 0 ltac:(lia) ltac:(lia) ltac:(lia)) as HB.
      rewrite Z.add_0_r in HB. rewrite HB. rewrite IHfuel by lia.
      rewrite (zrange_split k (k + og_bl c A len size FIXED k) C) by lia. rewrite flat_map_app. f_equal.
      unfold zrange at 1. do 2 f_equal. lia.
  Qed.

  Lemma fixed_write :
    let evs := fst (master_write c id (og_cmd A size FIXED sd D wu)) in
    snd (master_write c id (og_cmd A size FIXED sd D wu)) = Ok tt /\
    exists bursts, pair_bursts (aw_of evs) (w_of evs) = Some bursts /\
      Forall (fun b => ax_burst (fst b) = FIXED /\ ax_addr (fst b) = A /\ last_ok (snd b)) bursts /\
      all_bytes L bursts =
      flat_map (fun k => addressed A (zslice D (k * L) ((k + 1) * L))) (zrange 0 ((len + L - 1) / L)).
  Proof.
    destruct (bus_ok_facts _ _ HG) as (q & p & Hnb & Hq & HL & Hp & Hs & HL0).
    assert (Hlen : 0 <= len) by apply zlen_nonneg.
    rewrite (master_write_gen c A len size FIXED sd id q p) by first [assumption|reflexivity].
    cbn [fst snd]. split; [reflexivity|]. exists (gen (Z.to_nat C) 0).
    rewrite aw_of_flatten, w_of_flatten.
    pose proof (og_gen_lengths c A len size FIXED sd id p Hnb Hp D wu (Z.to_nat C) 0 ltac:(lia)) as Hlens.
    split; [apply pair_bursts_gen; exact Hlens|]. split.
    - apply Forall_forall. intros [a ws] Hin.
      destruct (og_gen_in c A len size FIXED sd id p Hnb Hp D wu _ 0 _ ltac:(lia) Hin) as (k & Hk & E).
      injection E as -> ->. cbn [fst snd og_ax ax_burst ax_addr og_cur].
      pose proof (og_bl_range c A len size FIXED p Hnb Hp k Hk) as (Hb1 & _).
      split; [reflexivity|]. split; [reflexivity|]. apply og_beats_last. lia.
    - pose proof (og_cycles c A len size Hnb Hlen) as (HC & _).
      rewrite fixed_gen by lia. f_equal. f_equal. unfold og_C, cycles_of, num_bytes, L.
      rewrite <- Hfull. rewrite Hal. f_equal. lia.
  Qed.
End Fixed.
