(** Lemmas for the APB master connected to the slave. *)
From Coq Require Import ZArith Lia List Bool.
From Coq Require Import ZifyBool ZifyNat.
From Verif Require Import Py S_flat M_axi S_axi P_axi P_axislave P_axiop P_axicomp M_axil S_axil P_axil M_apb S_apb.
Import ListNotations.
Open Scope Z_scope.

Lemma zrange_snoc a b : a <= b -> zrange a (b + 1) = zrange a b ++ [b].
Proof.
  intros H. rewrite (zrange_split a b (b + 1)) by lia. f_equal. rewrite zrange_cons by lia. now rewrite zrange_empty by lia.
Qed.
Lemma starts_app a b : starts (a ++ b) = starts a ++ starts b.
Proof. induction a as [|[] a IH]; cbn; congruence. Qed.
Lemma sets_app a b : sets (a ++ b) = sets a ++ sets b.
Proof. induction a as [|[] a IH]; cbn; congruence. Qed.

Section Words.
Variables (L : Z) (ep : bool).
Hypothesis HL : 0 < L.

Definition owd (c : acmd) (k : Z) : pword :=
  match c with
  | ACW w => let a := lw_a L (lc_addr w) (lc_prot w) k in let d := lw_w L (lc_addr w) (lc_data w) k in
             {| pw_addr := la_addr a; pw_prot := lc_prot w; pw_write := true; pw_data := lw_data d; pw_strb := lw_strb d |}
  | ACR r => {| pw_addr := lite_addr L (lr_addr r) k; pw_prot := lr_prot r; pw_write := false; pw_data := 0; pw_strb := 0 |}
  end.
Definition ooff (c : acmd) (k : Z) : Z :=
  match c with ACW w => if k =? ac_cycles L c then zlen (lc_data w) else lg_off L (lc_addr w) k | ACR _ => 0 end.

Lemma ac_len_nonneg c : op_ok c -> 0 <= ac_len c.
Proof. destruct c as [w|r]; cbn; intros; auto. apply zlen_nonneg. Qed.
Lemma ac_cycles_nonneg c : op_ok c -> 0 <= ac_cycles L c.
Proof. intros H. apply ac_len_nonneg in H. pose proof (lg_facts L (ac_addr c) (ac_len c) HL H). unfold ac_cycles. lia. Qed.
Lemma ooff_0 c : 0 < ac_cycles L c -> ooff c 0 = 0.
Proof. intros H. destruct c; cbn [ooff]; auto. replace (0 =? _) with false by lia. reflexivity. Qed.

Lemma a_word_spec c k : op_ok c -> 0 <= k < ac_cycles L c -> a_word L c k (ooff c k) = Ok (owd c k, ooff c (k + 1)).
Proof.
  destruct c as [[A D p]|r]; [|reflexivity]. cbn [op_ok lc_data]. intros HD Hk. pose proof (zlen_nonneg D) as Hn.
  unfold ac_cycles in Hk. cbn [ac_addr ac_len lc_addr lc_data] in Hk.
  destruct (lg_cycle L A (zlen D) HL Hn k) as (H1 & H2 & H3 & H4 & H5 & H6 & H7 & H8 & _); [exact Hk|].
  cbn [a_word owd ooff lc_data lc_addr lc_prot]. unfold ac_cycles. cbn [ac_addr ac_len lc_addr lc_data].
  set (C := lite_cycles L A (zlen D)) in *.
  replace (k =? C) with false by lia. rewrite mw_val_range by (auto; lia). unfold lw_w, lw_a, lw_part. fold C. cbn [la_addr lw_data lw_strb].
  rewrite H6. f_equal. f_equal. destruct (Z.eqb_spec k (C - 1)), (Z.eqb_spec (k + 1) C); auto; lia.
Qed.

Context {T : Type}.
Variable tw : T -> Z -> list Z -> T * res unit.
Variable tr : T -> Z -> Z -> T * res (list Z).

(** the first k words of an operation: target, data read, responses *)
Definition prog (c : acmd) (k : Z) (t : T) : T * list Z * resp_t :=
  match c with
  | ACW w => let '(t', bs, _) := lite_slave_write tw L true (map (lw_a L (lc_addr w) (lc_prot w)) (zrange 0 k))
                                   (map (lw_w L (lc_addr w) (lc_data w)) (zrange 0 k)) t in (t', [], fold_left agg_resp bs OKAY)
  | ACR r => let '(t', rs) := lite_slave_read tr L (map (fun k => {| la_addr := lite_addr L (lr_addr r) k; la_prot := lr_prot r |}) (zrange 0 k)) t in
             (t', fst (lite_read_loop L r (ac_cycles L c) 0 rs [] OKAY), fold_left agg_resp (map lr_resp rs) OKAY)
  end.

Lemma prog_0 c t : prog c 0 t = (t, [], OKAY).
Proof. destruct c; reflexivity. Qed.

Lemma lsw_app a1 : forall w1 a2 w2 t t1 bs, length a1 = length w1 -> lite_slave_write tw L true a1 w1 t = (t1, bs, Ok ([], [])) ->
  lite_slave_write tw L true (a1 ++ a2) (w1 ++ w2) t =
  let '(t2, bs2, r) := lite_slave_write tw L true a2 w2 t1 in (t2, bs ++ bs2, r).
Proof.
  induction a1 as [|a a1 IH]; intros [|w w1] a2 w2 t t1 bs Hl E; try discriminate.
  - cbn in E. injection E as <- <-. cbn [app]. destruct (lite_slave_write tw L true a2 w2 t) as [[? ?] ?]. reflexivity.
  - cbn [app lite_slave_write] in *. destruct (lite_sw tw L true a w t) as [t' [b|e]]; [|discriminate].
    destruct (lite_slave_write tw L true a1 w1 t') as [[t'' bs'] r'] eqn:E'. injection E as <- <- ->.
    rewrite (IH w1 a2 w2 t' _ _ (f_equal pred Hl) E').
    destruct (lite_slave_write tw L true a2 w2 t'') as [[? ?] ?]. reflexivity.
Qed.
Lemma lsr_app a1 : forall a2 t, lite_slave_read tr L (a1 ++ a2) t =
  let '(t1, r1) := lite_slave_read tr L a1 t in let '(t2, r2) := lite_slave_read tr L a2 t1 in (t2, r1 ++ r2).
Proof.
  induction a1 as [|a a1 IH]; intros a2 t; cbn [app lite_slave_read].
  - destruct (lite_slave_read tr L a2 t). reflexivity.
  - destruct (lite_sr tr L a t) as [t' r]. rewrite IH. destruct (lite_slave_read tr L a1 t') as [t1 r1].
    destruct (lite_slave_read tr L a2 t1). reflexivity.
Qed.
Lemma lrl_app cmd C r1 : forall r2 k d r0, lite_read_loop L cmd C k (r1 ++ r2) d r0 =
  let '(d1, r0') := lite_read_loop L cmd C k r1 d r0 in lite_read_loop L cmd C (k + zlen r1) r2 d1 r0'.
Proof.
  induction r1 as [|r r1 IH]; intros r2 k d r0; cbn [app lite_read_loop].
  - change (zlen (@nil lrd)) with 0. now rewrite Z.add_0_r.
  - rewrite IH. rewrite zlen_cons. destruct (lite_read_loop L cmd C (k + 1) r1 _ _). f_equal. lia.
Qed.
Lemma lsr_len a : forall t, zlen (snd (lite_slave_read tr L a t)) = zlen a.
Proof.
  induction a as [|x a IH]; intros t; cbn [lite_slave_read]; auto. destruct (lite_sr tr L x t) as [t' r].
  specialize (IH t'). destruct (lite_slave_read tr L a t') as [t2 rs]. cbn [snd] in *. rewrite !zlen_cons. lia.
Qed.
(** all words of a write that were started come to an end *)
Lemma lsw_ok D A p (HD : are_bytes D) n : forall k t, 0 <= k -> k + Z.of_nat n <= lite_cycles L A (zlen D) ->
  exists t' bs, lite_slave_write tw L true (map (lw_a L A p) (zseq k n)) (map (lw_w L A D) (zseq k n)) t = (t', bs, Ok ([], [])).
Proof.
  induction n as [|n IH]; intros k t Hk Hc; cbn [zseq map lite_slave_write]; [eauto|].
  destruct (lw_w_fits L A D HL HD k) as (Hf & _); [lia|].
  unfold lite_sw. destruct (to_bytes_fits (lw_data (lw_w L A D k)) L Little ltac:(lia) Hf) as (data & Hd). rewrite Hd.
  destruct (sw_perform tw t _) as [t1 r]. destruct (IH (k + 1) t1) as (t2 & bs & E); [lia|lia|]. rewrite E. eauto.
Qed.

Lemma prog_S c k t t1 d r : op_ok c -> 0 <= k < ac_cycles L c -> prog c k t = (t1, d, r) ->
  exists t2 x e, v_access tw tr L (pw_addr (owd c k) / L * L) (owd c k) t1 = Ok (t2, x, e) /\
    prog c (k + 1) t = (t2, d ++ match c with ACW _ => [] | ACR _ => a_bytes L c k (match x with Some z => z | None => 0 end) end,
                        if e then SLVERR else r) /\
    (match c with ACW _ => True | ACR _ => x <> None end).
Proof.
  destruct c as [[A D p]|[A n p]]; cbn [op_ok lc_data lr_len]; unfold ac_cycles; cbn [ac_addr ac_len lc_addr lc_data lr_addr lr_len]; intros Hok Hk E.
  - cbn [prog lc_addr lc_data lc_prot] in *.
    destruct (lsw_ok D A p Hok (Z.to_nat k) 0 t ltac:(lia) ltac:(lia)) as (t' & bs & E').
    assert (Hz : zrange 0 k = zseq 0 (Z.to_nat k)) by (unfold zrange; now rewrite Z.sub_0_r).
    rewrite Hz, E' in E. injection E as -> <- <-.
    rewrite zrange_snoc by lia. rewrite !map_app. rewrite Hz.
    rewrite (lsw_app _ _ _ _ _ t1 bs) by (rewrite ?map_length; auto). cbn [map lite_slave_write].
    destruct (lw_w_fits L A D HL Hok k) as (Hf & _); [lia|].
    destruct (to_bytes_fits (lw_data (lw_w L A D k)) L Little ltac:(lia) Hf) as (data & Hd).
    unfold lite_sw, v_access. cbn [owd pw_write pw_data pw_addr pw_strb lc_addr lc_data lc_prot]. rewrite Hd.
    destruct (sw_perform tw t1 _) as [t2 rr]. exists t2, None, (v_err rr). split; [reflexivity|]. split; [|exact I].
    rewrite fold_left_app. destruct rr; reflexivity.
  - cbn [prog lr_addr lr_len lr_prot] in *. rewrite zrange_snoc by lia. rewrite map_app, lsr_app.
    pose proof (lsr_len (map (fun k => {| la_addr := lite_addr L A k; la_prot := p |}) (zrange 0 k)) t) as Hlen.
    destruct (lite_slave_read tr L (map _ (zrange 0 k)) t) as [t' rs] eqn:E'. cbn [snd] in Hlen. injection E as -> <- <-.
    rewrite zlen_map, zlen_zrange in Hlen by lia.
    cbn [map lite_slave_read]. unfold lite_sr, v_access. cbn [owd pw_write pw_addr lr_addr lr_prot la_addr].
    destruct (tr t1 (lite_addr L A k / L * L) L) as [t2 rr].
    exists t2, (Some (le_int (match rr with Ok d => d | Err _ => zeros L end))), (v_err rr). split; [reflexivity|]. split; [|discriminate].
    destruct rr as [dd|ee]; cbv iota beta zeta; rewrite lrl_app;
      destruct (lite_read_loop L _ _ 0 rs [] OKAY) as [d1 r1]; cbn [lite_read_loop fst v_err];
      rewrite map_app, fold_left_app; cbn [map fold_left lr_resp lr_data];
      unfold a_bytes; cbn [ac_addr ac_len lr_addr lr_len]; replace (0 + zlen rs) with k by lia; reflexivity.
Qed.

Lemma prog_all c t t1 d r : op_ok c -> prog c (ac_cycles L c) t = (t1, d, r) ->
  apb_serve tw tr L ep t c = (t1, a_result c d (if ep then r else OKAY)).
Proof.
  destruct c as [[A D p]|[A n p]]; cbn [op_ok lc_data lr_len prog apb_serve]; intros Hok E.
  - rewrite lite_write_spec by auto. cbn [fst]. rewrite law_of_pairs, lw_of_pairs.
    cbn [lc_addr lc_data lc_prot] in *. unfold ac_cycles in E. cbn [ac_addr ac_len lc_addr lc_data] in E.
    destruct (lite_slave_write tw L true _ _ t) as [[t' bs] rr]. injection E as -> <- <-. reflexivity.
  - unfold lite_read. cbn [lr_addr lr_len lr_prot] in *. unfold ac_cycles in E. cbn [ac_addr ac_len lr_addr lr_len] in E.
    destruct (lite_slave_read tr L _ t) as [t' rs]. injection E as -> <- <-. unfold lite_read_resp.
    rewrite lite_read_loop_resp. reflexivity.
Qed.

Lemma prog_part c k t t1 d r : op_ok c -> 0 <= k <= ac_cycles L c -> prog c k t = (t1, d, r) -> apb_part tw tr L t c (Z.to_nat k) = t1.
Proof.
  intros Hok Hk E. assert (Hf : forall C, 0 <= k <= C -> firstn (Z.to_nat k) (zrange 0 C) = zrange 0 k).
  { intros C HC. rewrite (zrange_split 0 k C) by lia. rewrite firstn_app.
    assert (Hl : length (zrange 0 k) = Z.to_nat k) by (rewrite zrange_length; lia).
    rewrite Hl, Nat.sub_diag, firstn_O, app_nil_r. rewrite <- Hl. apply firstn_all. }
  destruct c as [[A D p]|[A n p]]; cbn [op_ok lc_data lr_len prog apb_part] in *; unfold ac_cycles in Hk; cbn [ac_addr ac_len lc_addr lc_data lr_addr lr_len] in Hk.
  - rewrite lite_write_spec by auto. cbn [fst]. rewrite law_of_pairs, lw_of_pairs. rewrite !firstn_map, Hf by auto.
    cbn [lc_addr lc_data lc_prot] in *.
    destruct (lite_slave_write tw L true _ _ t) as [[t' bs] rr]. injection E as -> <- <-. reflexivity.
  - unfold lite_read. rewrite firstn_map, Hf by auto. cbn [lr_addr lr_len lr_prot] in *.
    destruct (lite_slave_read tr L _ t) as [t' rs]. injection E as -> <- <-. reflexivity.
Qed.

Lemma serve_all_app a : forall b t, serve_all tw tr L ep t (a ++ b) =
  let '(t1, r1) := serve_all tw tr L ep t a in let '(t2, r2) := serve_all tw tr L ep t1 b in (t2, r1 ++ r2).
Proof.
  induction a as [|x a IH]; intros b t; cbn [app serve_all].
  - destruct (serve_all tw tr L ep t b). reflexivity.
  - destruct (apb_serve tw tr L ep t (snd x)) as [t' r]. rewrite IH. destruct (serve_all tw tr L ep t' a) as [t1 r1].
    destruct (serve_all tw tr L ep t1 b). reflexivity.
Qed.
Lemma serve_all_len a : forall t, length (snd (serve_all tw tr L ep t a)) = length a.
Proof.
  induction a as [|x a IH]; intros t; cbn [serve_all]; auto. destruct (apb_serve tw tr L ep t (snd x)) as [t' r].
  specialize (IH t'). destruct (serve_all tw tr L ep t' a). cbn in *. lia.
Qed.

(** ** the invariant of the system *)
Variable t0 : T.
Local Notation serve := (serve_all tw tr L ep t0).

Definition at_word (r : arun) (t1 tk : T) : Prop :=
  let c := snd (ru_op r) in
  op_ok c /\ 0 <= ru_k r < ac_cycles L c /\ ru_off r = ooff c (ru_k r + 1) /\ ru_word r = owd c (ru_k r) /\
  exists d rs, prog c (ru_k r) t1 = (tk, d, rs) /\ (match c with ACR _ => ru_data r = d | ACW _ => True end) /\
    ru_resp r = (if ep then rs else OKAY).
(** slave waiting for psel *)
Definition idle_inv (m : apb) (ops : list aop) (se : list (aop * option aresp)) (t : T) : Prop :=
  exists done t1, serve done = (t1, se) /\
  match b_task m with
  | AStart | AGet => ops = done ++ b_q m /\ t = t1 /\ b_psel m = false
  | AGot x => ops = done ++ x :: b_q m /\ t = t1 /\ b_psel m = false
  | APaus r => ops = done ++ ru_op r :: b_q m /\ at_word r t1 t /\ b_psel m = false
  | ASetup r => ops = done ++ ru_op r :: b_q m /\ at_word r t1 t /\ b_psel m = true /\ b_word m = ru_word r
  | _ => False
  end.
(** slave at an access *)
Definition acc_inv (m : apb) (v : aslv T) (ops : list aop) (se : list (aop * option aresp)) : Prop :=
  exists done t1 r, serve done = (t1, se) /\ b_task m = AAcc r /\ ops = done ++ ru_op r :: b_q m /\
  b_word m = ru_word r /\
  ((v_task v = VPaus (pw_addr (ru_word r) / L * L) /\ v_pready v = false /\ at_word r t1 (v_t v)) \/
   (v_task v = VAck /\ v_pready v = true /\ exists tk x e, at_word r t1 tk /\
      v_access tw tr L (pw_addr (ru_word r) / L * L) (ru_word r) tk = Ok (v_t v, x, e) /\
      (forall z, x = Some z -> v_prdata v = z) /\ (ep = true -> v_pslverr v = e))).
Definition sinv (y : asys T) (ops : list aop) (se : list (aop * option aresp)) : Prop :=
  Forall (fun x => op_ok (snd x)) ops /\ Forall op_ok (b_pend (k_m y)) /\
  ((v_task (k_s y) = VIdle /\ v_pready (k_s y) = false /\ idle_inv (k_m y) ops se (v_t (k_s y))) \/
   acc_inv (k_m y) (k_s y) ops se).

Lemma a_beat_inv pause s x k off data resp ops done t1 t d rs se :
  b_psel s = false -> op_ok (snd x) -> 0 <= k < ac_cycles L (snd x) -> off = ooff (snd x) k ->
  ops = done ++ x :: b_q s -> serve done = (t1, se) -> prog (snd x) k t1 = (t, d, rs) ->
  (match snd x with ACR _ => data = d | ACW _ => True end) -> resp = (if ep then rs else OKAY) ->
  snd (a_beat L pause s x k off data resp) = [] /\ idle_inv (fst (a_beat L pause s x k off data resp)) ops se t /\
  b_pend (fst (a_beat L pause s x k off data resp)) = b_pend s.
Proof.
  intros Hp Hok Hk Hoff Hops Hs Hpr Hd Hr. unfold a_beat. rewrite Hoff, a_word_spec by auto.
  set (r := {| ru_op := x; ru_k := k |}).
  assert (Hw : at_word r t1 t).
  { unfold at_word, r. cbn [ru_op ru_k ru_off ru_word ru_data ru_resp]. repeat (split; [auto; lia|]). eauto 10. }
  split; [reflexivity|]. split; [|destruct pause; reflexivity]. exists done, t1. split; [exact Hs|].
  destruct pause; cbn; auto.
Qed.

Lemma a_loop_inv pause q : forall s ops done t1 se, b_psel s = false -> Forall (fun x => op_ok (snd x)) q ->
  ops = done ++ q -> serve done = (t1, se) ->
  let '(s', o) := a_loop L pause q s in
  starts o = [] /\ idle_inv s' ops (se ++ sets o) t1 /\ b_pend s' = b_pend s.
Proof.
  induction q as [|x q IH]; intros s ops done t1 se Hp Hq Hops Hs; cbn [a_loop].
  - split; [reflexivity|]. split; [|reflexivity]. cbn [sets]. rewrite app_nil_r. exists done, t1. split; auto. cbn. auto.
  - apply Forall_cons_iff in Hq as [Hx Hq]. pose proof (ac_cycles_nonneg _ Hx) as HC.
    destruct (Z.ltb_spec 0 (ac_cycles L (snd x))) as [Hc|Hc].
    + set (s1 := b_set_cur _ _).
      destruct (a_beat_inv pause s1 x 0 0 [] OKAY ops done t1 t1 [] OKAY se) as (E & Hi & Hb); auto; try lia.
      * now rewrite ooff_0.
      * apply prog_0.
      * destruct (snd x); auto.
      * destruct ep; auto.
      * destruct (a_beat L pause s1 x 0 0 [] OKAY) as [s' o]. cbn [fst snd] in *. subst o. cbn [starts sets]. rewrite app_nil_r. auto.
    + set (s1 := b_complete _ x _). specialize (IH s1 ops (done ++ [x]) t1 (se ++ [(x, Some (a_result (snd x) [] OKAY))])).
      destruct (a_loop L pause q s1) as [s' o]. cbn [starts sets]. destruct IH as (E & Hi & Hb); auto.
      * rewrite <- app_assoc. exact Hops.
      * rewrite serve_all_app, Hs. cbn [serve_all].
        rewrite (prog_all (snd x) t1 t1 [] OKAY) by (auto; replace (ac_cycles L (snd x)) with 0 by lia; apply prog_0).
        destruct ep; reflexivity.
      * rewrite <- app_assoc in Hi. cbn [app] in Hi. auto.
Qed.

(** the master sees pready *)
Lemma a_ack_inv pause prdata pslverr m r ops done t1 tk t2 x e se :
  serve done = (t1, se) -> ops = done ++ ru_op r :: b_q m -> Forall (fun x => op_ok (snd x)) ops -> at_word r t1 tk ->
  v_access tw tr L (pw_addr (ru_word r) / L * L) (ru_word r) tk = Ok (t2, x, e) ->
  (forall z, x = Some z -> prdata = z) -> (ep = true -> pslverr = e) ->
  let '(m', o) := a_ack L ep pause prdata pslverr m r in
  starts o = [] /\ idle_inv m' ops (se ++ sets o) t2 /\ b_pend m' = b_pend m.
Proof.
  intros Hs Hops Hok (Hx & Hk & Hoff & Hw & d & rs & Hpr & Hd & Hr) Hacc Hz He. unfold a_ack. cbv zeta.
  set (X := ru_op r) in *. set (k := ru_k r) in *. set (C := ac_cycles L (snd X)) in *.
  set (data := ru_data r ++ _). set (resp := if ep && pslverr then SLVERR else ru_resp r).
  destruct (prog_S (snd X) k t1 tk d rs Hx Hk Hpr) as (t2' & x' & e' & Hacc' & HprS & Hx').
  rewrite <- Hw, Hacc in Hacc'. injection Hacc' as <- <- <-.
  set (d' := d ++ _) in HprS.
  assert (Hd' : match snd X with ACR _ => data = d' | ACW _ => True end).
  { unfold data, d', X in *. destruct (snd (ru_op r)); auto. rewrite Hd. f_equal. f_equal. destruct x as [z|]; [now apply Hz|]. now destruct Hx'. }
  assert (Hr' : resp = if ep then (if e then SLVERR else rs) else OKAY).
  { unfold resp. destruct ep; cbn [andb]; auto. now rewrite He, Hr by auto. }
  destruct (Z.ltb_spec (k + 1) C) as [Hc|Hc].
  - set (s1 := b_set_sig _ _ _ _).
    destruct (a_beat_inv pause s1 X (k + 1) (ru_off r) data resp ops done t1 t2 d' (if e then SLVERR else rs) se) as (E & Hi & Hb); auto.
    { lia. }
    destruct (a_beat L pause s1 X (k + 1) (ru_off r) data resp) as [s' o]. cbn [fst snd] in *. subst o. cbn [starts sets].
    rewrite app_nil_r. auto.
  - set (s1 := b_set_sig _ _ _ _). set (D := a_result _ _ _).
    assert (Hserve : apb_serve tw tr L ep t1 (snd X) = (t2, D)).
    { rewrite (prog_all (snd X) t1 t2 d' (if e then SLVERR else rs)); auto.
      - unfold D. rewrite Hr'. f_equal. destruct (snd X); cbn [a_result]; auto. now rewrite Hd'.
      - replace (ac_cycles L (snd X)) with (k + 1) by (fold C; lia). exact HprS. }
    pose proof (a_loop_inv pause (b_q s1) (b_complete s1 X D) ops (done ++ [X]) t2 (se ++ [(X, Some D)])) as HL'.
    destruct (a_loop L pause (b_q s1) (b_complete s1 X D)) as [s' o]. destruct HL' as (E & Hi & Hb).
    + reflexivity.
    + subst ops. apply Forall_app in Hok as [_ Hok]. apply Forall_cons_iff in Hok as [_ Hok]. exact Hok.
    + rewrite <- app_assoc. exact Hops.
    + rewrite serve_all_app, Hs. cbn [serve_all]. now rewrite Hserve.
    + cbn [starts sets]. rewrite <- app_assoc in Hi. auto.
Qed.

Lemma v_serve_inv sp r t1 (v : aslv T) m ops done se : serve done = (t1, se) -> b_task m = AAcc r -> ops = done ++ ru_op r :: b_q m ->
  b_word m = ru_word r -> v_pready v = false -> at_word r t1 (v_t v) ->
  acc_inv m (v_serve tw tr L ep sp (pw_addr (ru_word r) / L * L) (ru_word r) v) ops se.
Proof.
  intros Hs Ht Hops Hw Hp Ha. exists done, t1, r. repeat (split; [assumption|]). unfold v_serve. destruct sp.
  - left. cbn. auto.
  - right. destruct Ha as (Hx & Hk & Hoff & Hwd & d & rs & Hpr & Hd & Hr).
    destruct (prog_S (snd (ru_op r)) (ru_k r) t1 (v_t v) d rs Hx Hk Hpr) as (t2 & x & e & Hacc & _ & _). rewrite <- Hwd in Hacc.
    rewrite Hacc. cbn. split; [reflexivity|]. split; [reflexivity|]. exists (v_t v), x, e. split.
    + repeat (split; [assumption|]). eauto 10.
    + split; [exact Hacc|]. split; [now intros z ->|]. now intros ->.
Qed.

Lemma k_step_inv y o ops se : sinv y ops se -> no_reset o -> kop_ok o ->
  let '(y', os) := k_step tw tr L ep y o in sinv y' (ops ++ starts os) (se ++ sets os).
Proof.
  intros (Hok & Hpe & Hi) Hn Hko. destruct y as [m v]. cbn [k_m k_s] in *.
  assert (Hissue : forall s c, op_ok c -> Forall op_ok (b_pend s) -> b_task s = b_task m -> b_q s = b_q m -> b_psel s = b_psel m -> b_word s = b_word m ->
    sinv {| k_m := fst (b_issue s c); k_s := v |} (ops ++ [(b_next s, c)]) se).
  { intros s c Hc Hpend E1 E2 E3 E4. split; [apply Forall_app; auto|]. split; [exact Hpend|].
    destruct Hi as [(H1 & H2 & done & t1 & Hs & Hm)|(done & t1 & r & Hs & Ht & Hops & Hw & Hm)].
    - left. repeat (split; [assumption|]). exists done, t1. split; [exact Hs|]. cbn. rewrite E1, E2, E3, E4.
      destruct (b_task m); auto; destruct Hm as [-> Hm]; (split; [rewrite <- app_assoc; reflexivity|exact Hm]).
    - right. exists done, t1, r. cbn. rewrite E1, E2, E4. repeat (split; [assumption|]). split; [rewrite Hops, <- app_assoc; reflexivity|]. auto. }
  assert (Hsame : forall s, b_task s = b_task m -> b_q s = b_q m -> b_psel s = b_psel m -> b_word s = b_word m -> Forall op_ok (b_pend s) ->
    sinv {| k_m := s; k_s := v |} (ops ++ []) (se ++ [])).
  { intros s E1 E2 E3 E4 E5. rewrite !app_nil_r. split; [exact Hok|]. split; [exact E5|].
    destruct Hi as [(H1 & H2 & done & t1 & Hs & Hm)|(done & t1 & r & Hs & Ht & Hops & Hw & Hm)].
    - left. repeat (split; [assumption|]). exists done, t1. split; [exact Hs|]. cbn. rewrite E1, E2, E3, E4. exact Hm.
    - right. exists done, t1, r. cbn. rewrite E1, E2, E4. auto 10. }
  destruct o as [[c|c|n| |n|p pr pd pe|b]|mp sp|b]; cbn [k_step b_step k_m k_s]; try destruct Hn.
  - specialize (Hissue m c Hko Hpe eq_refl eq_refl eq_refl eq_refl). cbn [b_issue fst starts sets] in *. now rewrite app_nil_r.
  - apply Hsame; auto. cbn. apply Forall_app; auto.
  - destruct (nth_error (b_pend m) n) as [c|] eqn:En; [|now apply Hsame].
    assert (Hc : op_ok c) by (rewrite Forall_forall in Hpe; apply Hpe; eapply nth_error_In; eauto).
    set (s := b_set_pend _ _). assert (Hps : Forall op_ok (b_pend s)).
    { cbn. apply Forall_app. split; [|]; apply Forall_forall; intros z Hz; rewrite Forall_forall in Hpe; apply Hpe.
      - rewrite <- (firstn_skipn n (b_pend m)). apply in_or_app. auto.
      - rewrite <- (firstn_skipn (S n) (b_pend m)). apply in_or_app. auto. }
    specialize (Hissue s c Hc Hps eq_refl eq_refl eq_refl eq_refl). cbn [b_issue fst starts sets] in *. now rewrite app_nil_r.
  - destruct (b_task m) eqn:Et; try (apply Hsame; auto; fail). destruct (b_q m) as [|x q] eqn:Eq; [apply Hsame; auto|].
    cbn [starts sets]. rewrite !app_nil_r. split; [exact Hok|]. split; [exact Hpe|].
    destruct Hi as [(H1 & H2 & done & t1 & Hs & Hm)|(done & t1 & r & Hs & Ht & _)]; [|congruence].
    left. repeat (split; [assumption|]). exists done, t1. split; [exact Hs|]. rewrite Et, Eq in Hm. cbn. auto.
  - destruct (nth_error (b_wait m) n) as [[x [d|]]|]; apply Hsame; auto.
  - apply Hsame; auto.
  - destruct Hi as [(H1 & H2 & done & t1 & Hs & Hm)|(done & t1 & r & Hs & Ht & Hops & Hw & Hm)].
    + unfold a_edge. unfold v_edge. rewrite H1. destruct (b_task m) as [| | |x|r|r|r|] eqn:Et; try destruct Hm.
      * destruct H0 as [Hv Hp]; subst t1. pose proof (a_loop_inv mp (b_q m) m ops done (v_t v) se Hp) as HA. rewrite Hp.
        destruct (a_loop L mp (b_q m) m) as [m' os]. destruct HA as (E & Hi' & Hb); auto.
        { subst ops. now apply Forall_app in Hok as [_ Hok]. }
        rewrite E, app_nil_r. split; [exact Hok|]. split; [cbn; congruence|]. left. auto.
      * destruct H0 as [Hv Hp]; subst t1. rewrite Hp. cbn [starts sets]. rewrite !app_nil_r. split; [exact Hok|]. split; [exact Hpe|].
        left. repeat (split; [assumption|]). exists done, (v_t v). cbn [k_m]. rewrite Et. auto.
      * destruct H0 as [Hv Hp]; subst t1. pose proof (a_loop_inv mp (x :: b_q m) m ops done (v_t v) se Hp) as HA. rewrite Hp.
        destruct (a_loop L mp (x :: b_q m) m) as [m' os]. destruct HA as (E & Hi' & Hb); auto.
        { subst ops. now apply Forall_app in Hok as [_ Hok]. }
        rewrite E, app_nil_r. split; [exact Hok|]. split; [cbn; congruence|]. left. auto.
      * destruct H0 as [Ha Hp]. rewrite Hp. cbn [starts sets]. rewrite !app_nil_r. split; [exact Hok|].
        split; [destruct mp; exact Hpe|]. left. repeat (split; [assumption|]). exists done, t1. split; [exact Hs|].
        cbn [k_m k_s]. destruct mp; [rewrite Et; auto|]. cbn. auto.
      * destruct H0 as (Ha & Hp & Hw). rewrite Hp, Hw. cbn [starts sets]. rewrite !app_nil_r. split; [exact Hok|].
        split; [exact Hpe|]. right. cbn [k_m k_s]. eapply v_serve_inv; eauto.
    + unfold a_edge. rewrite Ht. unfold v_edge.
      destruct Hm as [(H1 & H2 & Ha)|(H1 & H2 & tk & x & e & Ha & Hacc & Hz & He)]; rewrite H1, H2.
      * cbn [starts sets]. rewrite !app_nil_r. split; [exact Hok|]. split; [exact Hpe|]. right. cbn [k_m k_s].
        rewrite Hw. eapply v_serve_inv; eauto.
      * pose proof (a_ack_inv mp (v_prdata v) (v_pslverr v) m r ops done t1 tk (v_t v) x e se Hs Hops Hok Ha Hacc Hz He) as HA.
        destruct (a_ack L ep mp (v_prdata v) (v_pslverr v) m r) as [m' os]. destruct HA as (E & Hi' & Hb).
        rewrite E, app_nil_r. split; [exact Hok|]. split; [cbn; congruence|]. left. auto.
Qed.

Lemma k_run_inv h : forall y ops se, sinv y ops se -> Forall no_reset h -> Forall kop_ok h ->
  let '(y', os) := k_run tw tr L ep y h in sinv y' (ops ++ starts os) (se ++ sets os).
Proof.
  induction h as [|o h IH]; intros y ops se Hi Hn Hk; cbn [k_run].
  - cbn. now rewrite !app_nil_r.
  - apply Forall_cons_iff in Hn as [Hn Hn']. apply Forall_cons_iff in Hk as [Hk Hk'].
    pose proof (k_step_inv y o ops se Hi Hn Hk) as H1. destruct (k_step tw tr L ep y o) as [y1 o1].
    specialize (IH y1 _ _ H1 Hn' Hk'). destruct (k_run tw tr L ep y1 h) as [y2 o2].
    rewrite starts_app, sets_app, !app_assoc. exact IH.
Qed.
Lemma sys0_inv : sinv (sys0 t0) [] [].
Proof. split; [constructor|]. split; [constructor|]. left. cbn. repeat (split; [reflexivity|]). exists [], t0. repeat split; reflexivity. Qed.

(** ** what is left to do *)
Fixpoint words (q : list aop) : Z := match q with [] => 0 | x :: q' => ac_cycles L (snd x) + words q' end.
Definition mu (y : asys T) : Z :=
  let m := k_m y in
  match b_task m with
  | AStart => 2 * words (b_q m) + 1
  | AGet => match b_q m with [] => 0 | q => 2 * words q + 2 end
  | AGot x => 2 * words (x :: b_q m) + 1
  | APaus r => 2 * (ac_cycles L (snd (ru_op r)) - ru_k r) + 2 * words (b_q m) + 1
  | ASetup r => 2 * (ac_cycles L (snd (ru_op r)) - ru_k r) + 2 * words (b_q m)
  | AAcc r => 2 * (ac_cycles L (snd (ru_op r)) - ru_k r) + 2 * words (b_q m) - (if v_pready (k_s y) then 1 else 0)
  | _ => 0
  end.
Ltac mucbn := unfold mu, a_drive; cbn [fst snd k_m k_s b_task b_q b_set_task b_set_sig b_set_cur b_set_q words ru_op ru_k v_pready].
Lemma words_nonneg (q : list aop) : Forall (fun x => op_ok (snd x)) q -> 0 <= words q.
Proof. induction 1 as [|x q Hx Hq IH]; cbn [words]; [lia|]. pose proof (ac_cycles_nonneg _ Hx). lia. Qed.

Lemma a_loop_mu q : forall s v, Forall (fun x => op_ok (snd x)) q ->
  (forall o, In o q -> exists w off, a_word L (snd o) 0 0 = Ok (w, off) \/ ac_cycles L (snd o) <= 0) ->
  mu {| k_m := fst (a_loop L false q s); k_s := v |} <= 2 * words q.
Proof.
  induction q as [|x q IH]; intros s v Hq Hw; cbn [a_loop].
  - cbn. lia.
  - apply Forall_cons_iff in Hq as [Hx Hq]. pose proof (ac_cycles_nonneg _ Hx) as HC. pose proof (words_nonneg q Hq) as HW.
    destruct (Z.ltb_spec 0 (ac_cycles L (snd x))) as [Hc|Hc].
    + unfold a_beat. destruct (Hw x (or_introl eq_refl)) as (w & off & [E|E]); [|lia]. rewrite E. mucbn. lia.
    + set (s1 := b_complete _ x _). specialize (IH s1 v Hq). destruct (a_loop L false q s1) as [s' o]. cbn [fst words] in *.
      specialize (IH (fun o Ho => Hw o (or_intror Ho))). lia.
Qed.
Lemma q_words (q : list aop) : Forall (fun x => op_ok (snd x)) q ->
  forall o, In o q -> exists w off, a_word L (snd o) 0 0 = Ok (w, off) \/ ac_cycles L (snd o) <= 0.
Proof.
  intros Hq o Ho. rewrite Forall_forall in Hq. specialize (Hq o Ho).
  destruct (Z.ltb_spec 0 (ac_cycles L (snd o))) as [Hc|Hc].
  - pose proof (a_word_spec (snd o) 0 Hq ltac:(lia)) as E. rewrite ooff_0 in E by lia. eauto.
  - exists pword0, 0. auto.
Qed.

Lemma sinv_q y ops se : sinv y ops se -> Forall (fun x => op_ok (snd x)) (b_q (k_m y)) /\
  (match b_task (k_m y) with AGot x => op_ok (snd x) | APaus r | ASetup r | AAcc r => op_ok (snd (ru_op r)) /\ 0 <= ru_k r < ac_cycles L (snd (ru_op r))
     | AKill | ADead => False | _ => True end).
Proof.
  destruct y as [m v]. intros (Hok & _ & [(H1 & H2 & done & t1 & Hs & Hm)|(done & t1 & r & Hs & Ht & Hops & Hw & Hm)]); cbn [k_m k_s] in *.
  - destruct (b_task m) as [| | |x|r|r|r|]; try destruct Hm; subst ops; apply Forall_app in Hok as [_ Hok]; auto;
      apply Forall_cons_iff in Hok as [Hx Hok]; split; auto; destruct H0 as [(_ & Hk & _) _]; auto.
  - rewrite Ht. subst ops. apply Forall_app in Hok as [_ Hok]. apply Forall_cons_iff in Hok as [Hx Hok]. split; auto. split; auto.
    destruct Hm as [(_ & _ & _ & Hk & _)|(_ & _ & tk & x & e & (_ & Hk & _) & _)]; auto.
Qed.
Lemma mu_nonneg y ops se : sinv y ops se -> 0 <= mu y.
Proof.
  intros Hi. destruct (sinv_q _ _ _ Hi) as (Hq & Ht). apply words_nonneg in Hq. unfold mu.
  destruct (b_task (k_m y)) as [| | |x|r|r|r|]; try lia.
  - destruct (b_q (k_m y)); lia.
  - cbn [words]. pose proof (ac_cycles_nonneg _ Ht). lia.
  - destruct (v_pready (k_s y)); lia.
Qed.
Lemma mu_0 y ops se : sinv y ops se -> mu y = 0 -> se = snd (serve ops) /\ v_t (k_s y) = fst (serve ops).
Proof.
  intros Hi Hm. destruct (sinv_q _ _ _ Hi) as (Hq & Ht). apply words_nonneg in Hq. unfold mu in Hm.
  destruct (b_task (k_m y)) as [| | |x|r|r|r|] eqn:Et; try lia.
  - destruct (b_q (k_m y)) eqn:Eq; [|lia].
    destruct Hi as (_ & _ & [(_ & _ & done & t1 & Hs & Hi)|(done & t1 & r & _ & E & _)]); [|congruence].
    rewrite Et, Eq, app_nil_r in Hi. destruct Hi as (-> & -> & _). now rewrite Hs.
  - destruct (v_pready (k_s y)); lia.
Qed.

Lemma edge_mu y ops se : sinv y ops se -> 0 < mu y -> b_task (k_m y) <> AGet ->
  mu (fst (k_step tw tr L ep y (KEdge false false))) < mu y.
Proof.
  intros Hi Hpos Hg. destruct (sinv_q _ _ _ Hi) as (Hq & Htask). pose proof (words_nonneg _ Hq) as HW. destruct y as [m v].
  destruct Hi as (Hok & _ & [(H1 & H2 & done & t1 & Hs & Hm)|(done & t1 & r & Hs & Ht & Hops & Hw & Hm)]); cbn [k_m k_s k_step] in *.
  - unfold a_edge. unfold mu at 2. cbn [k_m k_s]. destruct (b_task m) as [| | |x|r|r|r|] eqn:Et; try destruct Hm; try congruence.
    + pose proof (a_loop_mu (b_q m) m (v_edge tw tr L ep false (b_psel m) (b_word m) v) Hq (q_words _ Hq)) as HA.
      destruct (a_loop L false (b_q m) m). cbn [fst] in *. lia.
    + assert (Hxq : Forall (fun x => op_ok (snd x)) (x :: b_q m)) by (constructor; auto).
      pose proof (a_loop_mu (x :: b_q m) m (v_edge tw tr L ep false (b_psel m) (b_word m) v) Hxq (q_words _ Hxq)) as HA.
      destruct (a_loop L false (x :: b_q m) m). cbn [fst] in *. lia.
    + mucbn. lia.
    + destruct H0 as ((Hx & Hk & Hoff & Hwd & d & rs & Hpr & Hd & Hr) & Hp & Hw). unfold v_edge. rewrite H1, Hp, Hw. unfold v_serve.
      destruct (prog_S (snd (ru_op r)) (ru_k r) t1 (v_t v) d rs Hx Hk Hpr) as (t2 & x & e & Hacc & _ & _). rewrite <- Hwd in Hacc.
      rewrite Hacc. mucbn. lia.
  - unfold a_edge. unfold mu at 2. cbn [k_m k_s]. rewrite Ht in *.
    destruct Hm as [(H1 & H2 & Ha)|(H1 & H2 & tk & x & e & Ha & Hacc & Hz & He)]; rewrite H2 in *.
    + destruct Ha as (Hx & Hk & Hoff & Hwd & d & rs & Hpr & Hd & Hr). unfold v_edge. rewrite H1, Hw. unfold v_serve.
      destruct (prog_S (snd (ru_op r)) (ru_k r) t1 (v_t v) d rs Hx Hk Hpr) as (t2 & x & e & Hacc & _ & _). rewrite <- Hwd in Hacc.
      rewrite Hacc. unfold mu. cbn [fst k_m k_s v_pready]. rewrite Ht. lia.
    + unfold a_ack. cbv zeta. destruct Ha as (Hx & Hk & Hoff & Hwd & _).
      destruct (Z.ltb_spec (ru_k r + 1) (ac_cycles L (snd (ru_op r)))) as [Hc|Hc].
      * unfold a_beat. rewrite Hoff, a_word_spec by (auto; lia). mucbn. lia.
      * set (s1 := b_set_sig _ _ _ _). set (s2 := b_complete _ _ _).
        pose proof (a_loop_mu (b_q s1) s2 (v_edge tw tr L ep false (b_psel m) (b_word m) v) Hq (q_words _ Hq)) as HA.
        destruct (a_loop L false (b_q s1) s2) as [s' o]. cbn [fst] in *. change (b_q s1) with (b_q m) in HA. lia.
Qed.
Lemma round_mu y ops se : sinv y ops se -> 0 < mu y -> mu (fst (k_run tw tr L ep y calm_round)) < mu y.
Proof.
  intros Hi Hpos. unfold calm_round. cbn [k_run].
  pose proof (k_step_inv y (KM BWake) ops se Hi I I) as H1.
  pose proof (edge_mu y ops se Hi Hpos) as He. destruct y as [m v]. cbn [k_step b_step k_m k_s] in *.
  destruct (b_task m) eqn:Et; cbv iota beta in *; cbn [k_step k_m k_s] in *; try (
    match goal with |- context [a_edge ?a ?b ?c ?d ?e ?f ?g] => destruct (a_edge a b c d e f g) end; cbn [fst] in *; apply He; discriminate).
  destruct (b_q m) as [|x q] eqn:Eq; cbv iota beta in *; cbn [k_step k_m k_s] in *.
  { unfold mu in Hpos. cbv zeta in Hpos. cbn [k_m] in Hpos. rewrite Et in Hpos. rewrite Eq in Hpos. lia. }
  set (m1 := b_set_task _ _) in *.
  assert (E1 : mu {| k_m := m1; k_s := v |} < mu {| k_m := m; k_s := v |}).
  { unfold mu. cbn [k_m k_s]. rewrite Et, Eq. cbn [words b_task b_q m1 b_set_task b_set_q]. lia. }
  pose proof (edge_mu {| k_m := m1; k_s := v |} _ _ H1) as He1. cbn [k_step k_m k_s] in He1.
  match goal with |- context [a_edge ?a ?b ?c ?d ?e ?f ?g] => destruct (a_edge a b c d e f g) end. cbn [fst] in *.
  assert (0 < mu {| k_m := m1; k_s := v |}).
  { destruct (sinv_q _ _ _ Hi) as (Hq & _). cbn [k_m] in Hq. rewrite Eq in Hq. apply words_nonneg in Hq.
    unfold mu. cbn [k_m k_s words b_task b_q m1 b_set_task b_set_q] in *. lia. }
  specialize (He1 H ltac:(discriminate)). lia.
Qed.

Lemma k_run_app h1 : forall h2 y, k_run tw tr L ep y (h1 ++ h2) =
  let '(y1, o1) := k_run tw tr L ep y h1 in let '(y2, o2) := k_run tw tr L ep y1 h2 in (y2, o1 ++ o2).
Proof.
  induction h1 as [|o h1 IH]; intros h2 y; cbn [app k_run].
  - destruct (k_run tw tr L ep y h2). reflexivity.
  - destruct (k_step tw tr L ep y o) as [y1 o1]. rewrite IH. destruct (k_run tw tr L ep y1 h1) as [y2 o2].
    destruct (k_run tw tr L ep y2 h2). now rewrite app_assoc.
Qed.
Lemma rounds_ok n : Forall no_reset (concat (repeat calm_round n)) /\ Forall kop_ok (concat (repeat calm_round n)).
Proof. induction n as [|n [IH1 IH2]]; cbn; split; repeat constructor; auto. Qed.
Lemma round_starts y : starts (snd (k_run tw tr L ep y calm_round)) = [].
Proof.
  assert (HA : forall p q s, starts (snd (a_loop L p q s)) = []).
  { intros p q. induction q as [|x q IH]; intros s; cbn [a_loop]; auto. destruct (0 <? _).
    - unfold a_beat. destruct (a_word _ _ _ _) as [[]|]; reflexivity.
    - specialize (IH (b_complete (b_set_cur (b_set_q s q) (Some x)) x (a_result (snd x) [] OKAY))). destruct (a_loop L p q _). exact IH. }
  unfold calm_round. cbn [k_run].
  assert (HB : forall m a b c d, starts (snd (a_edge L ep a b c d m)) = []).
  { intros m a b c d. unfold a_edge. destruct (b_task m); auto. destruct b; auto. unfold a_ack. cbv zeta. destruct (_ <? _).
    - unfold a_beat. destruct (a_word _ _ _ _) as [[]|]; reflexivity.
    - match goal with |- context [a_loop L a ?q ?s] => specialize (HA a q s); destruct (a_loop L a q s) end. exact HA. }
  destruct (k_step tw tr L ep y (KM BWake)) as [y1 o1] eqn:E1.
  assert (starts o1 = []). { cbn [k_step b_step] in E1. destruct (b_task (k_m y)); try (injection E1 as <- <-; reflexivity). destruct (b_q (k_m y)); injection E1 as <- <-; reflexivity. }
  cbn [k_step]. specialize (HB (k_m y1) false (v_pready (k_s y1)) (v_prdata (k_s y1)) (v_pslverr (k_s y1))).
  destruct (a_edge L ep false _ _ _ (k_m y1)). cbn [snd] in *. rewrite !starts_app, H, HB. reflexivity.
Qed.

Lemma rounds_done n : forall y ops se, sinv y ops se -> mu y <= Z.of_nat n ->
  let '(y', o) := k_run tw tr L ep y (concat (repeat calm_round n)) in
  starts o = [] /\ sinv y' ops (se ++ sets o) /\ mu y' = 0.
Proof.
  induction n as [|n IH]; intros y ops se Hi Hm.
  - cbn. rewrite app_nil_r. pose proof (mu_nonneg _ _ _ Hi). split; [auto|]. split; [auto|lia].
  - cbn [repeat concat]. rewrite k_run_app. pose proof (k_run_inv calm_round y ops se Hi) as H1.
    pose proof (round_starts y) as Hst. pose proof (round_mu y ops se Hi) as Hmu.
    destruct (k_run tw tr L ep y calm_round) as [y1 o1] eqn:E1. cbn [fst snd] in *.
    specialize (H1 ltac:(repeat constructor) ltac:(repeat constructor)). rewrite Hst, app_nil_r in H1.
    assert (Hm1 : mu y1 <= Z.of_nat n).
    { destruct (Z.ltb_spec 0 (mu y)) as [Hp|Hp]; [specialize (Hmu Hp); lia|].
      assert (Hz : mu y = 0) by (pose proof (mu_nonneg _ _ _ Hi); lia).
      enough (mu y1 = 0) by lia. clear Hmu Hm IH.
      destruct (sinv_q _ _ _ Hi) as (Hq & Htk). apply words_nonneg in Hq.
      destruct y as [m v]. unfold mu in Hz. cbn [k_m k_s] in *. destruct (b_task m) as [| | |x|r|r|r|] eqn:Et; try lia.
      - destruct (b_q m) eqn:Eq; [|lia]. unfold calm_round in E1. cbn [k_run k_step b_step k_m k_s] in E1. rewrite Et, Eq in E1.
        unfold a_edge in E1. cbn [k_m] in E1. rewrite Et in E1. injection E1 as <- <-. unfold mu. cbn [k_m]. now rewrite Et, Eq.
      - destruct (v_pready v); lia. }
    specialize (IH y1 ops _ H1 Hm1). destruct (k_run tw tr L ep y1 (concat (repeat calm_round n))) as [y2 o2].
    rewrite starts_app, sets_app, Hst, app_assoc. exact IH.
Qed.
End Words.
