(** The read system of M_sys.v: the slave's task on any target. *)
From Coq Require Import ZArith Lia List Bool.
From Coq Require Import ZifyBool ZifyNat.
From Verif Require Import Py S_flat M_axi S_axi P_axi P_axislave P_axiop P_axiread P_axicomp
  M_liteeng M_axieng S_axieng P_axieng P_axiattr T_axieng M_sys S_sys P_sys P_syswr P_axisframe.
Import ListNotations.
Open Scope Z_scope.

Lemma le_int_shift d j : are_bytes d -> 0 <= j -> Z.land (Z.shiftr (le_int d) (j * 8)) 255 = znth 0 d j.
Proof.
  intros Hd Hj. destruct (Z.ltb_spec j (zlen d)) as [Hlt|Hge].
  - rewrite <- (lane_byte_le_int d j) by (auto; lia).
    unfold lane_byte. rewrite Z.shiftr_div_pow2 by lia. change 255 with (Z.ones 8). rewrite Z.land_ones by lia.
    change (2 ^ 8) with 256. f_equal. f_equal. change 256 with (2 ^ 8). rewrite <- Z.pow_mul_r by lia. f_equal. lia.
  - assert (Hn : znth 0 d j = 0) by (unfold znth; apply nth_overflow; unfold zlen in Hge; lia). rewrite Hn.
    pose proof (le_int_bound d Hd) as Hr. rewrite Z.shiftr_div_pow2 by lia. rewrite Z.div_small; [reflexivity|].
    split; [lia|]. eapply Z.lt_le_trans; [apply Hr|]. change 256 with (2 ^ 8). rewrite <- Z.pow_mul_r by (pose proof (zlen_nonneg d); lia).
    apply Z.pow_le_mono_r; lia.
Qed.

Lemma zrange_map_add (f : Z -> Z) a n : map (fun j => f (a + j)) (zrange 0 n) = map f (zrange a (a + n)).
Proof.
  unfold zrange. rewrite Z.sub_0_r. replace (a + n - a) with n by lia. generalize (Z.to_nat n) as m. intros m.
  assert (K : forall b, map (fun j => f (a + j)) (zseq b m) = map f (zseq (a + b) m)).
  { induction m as [|m IH]; intros b; cbn [zseq map]; [reflexivity|]. f_equal. rewrite IH. do 2 f_equal. lia. }
  rewrite K. now rewrite Z.add_0_r.
Qed.

Lemma epat_range a : 0 <= ax_len a -> r_epat a = map (fun j => j =? beats a - 1) (zrange 0 (beats a)).
Proof.
  intros Ha. unfold r_epat, beats. rewrite (zrange_split 0 (ax_len a) (ax_len a + 1)) by lia. rewrite map_app. f_equal.
  - assert (H : Z.to_nat (ax_len a) = length (zrange 0 (ax_len a))) by (rewrite zrange_length; f_equal; lia). rewrite H.
    assert (K : Forall (fun j => (j =? ax_len a + 1 - 1) = false) (zrange 0 (ax_len a))).
    { apply Forall_forall. intros j Hj. apply in_zrange in Hj. lia. }
    clear H. induction K as [|x l Hx K IH]; cbn; auto. now rewrite Hx, <- IH.
  - rewrite zrange_cons, zrange_empty by lia. cbn [map]. f_equal. lia.
Qed.

Section R.
Context {T : Type}.
Variable tr : T -> Z -> Z -> T * res (list Z).
Variable c : mcfg.
Local Notation L := (m_lanes c).
Local Notation TL := (T * list rcall)%type.
Local Notation lr := (log_read tr).
(** others may change the target, not the log *)
Variable pk : (rslv TL -> rslv TL) -> Prop.
Hypothesis Hpk : forall f, pk f -> exists g, f = rs_poke (fun tl => (g (fst tl), snd tl)).
Local Notation act := (rs_act lr L).
Local Notation trace := (strace r_kind (rs_act lr L) (rs_in L) pk).
Local Notation trace0 := (strace r_kind (rs_act lr L) (rs_in L) nopk).

Definition okr (o : rop) (u : Z) : Prop := read_legal L o.
Definition Jr (s : rslv TL) : Prop := exists tl, s = RIdle tl.
Definition rlog (s : rslv TL) : list rcall := snd (rs_target s).

Lemma op_ar o u : okr o u -> 0 < L /\ Forall (rburst_ok L) (r_sends c o u) /\ Forall (fun a => ax_id a = u) (r_sends c o u).
Proof.
  intros (HG & Hbt & HA & Hlen). unfold r_sends. destruct o as [[n i] [A len bt size sd]].
  cbn [snd rc_addr rc_len rc_burst rc_size] in *. subst bt.
  pose proof (op_read c A len size sd u HG Hlen) as Hr. unfold og_rcmd in Hr. rewrite Hr. clear Hr.
  pose proof (op_ars c A len size sd u HG HA Hlen (A + len + 1)) as Hb.
  pose proof (pow_above (A + len + 1) ltac:(lia)) as Hpow. specialize (Hb ltac:(lia) ltac:(lia)).
  destruct (bus_ok_facts _ _ HG) as (q & p & Hnb & Hq & HL & Hp & Hs & HL0).
  split; [exact HL0|]. split.
  - eapply Forall_impl; [|exact Hb]. intros a (H1 & H2 & H3 & H4 & H5). cbn beta in *.
    pose proof (legal_accepts _ _ _ H1) as Hacc. destruct H1 as (_ & Ha1 & _ & Ha3 & _).
    split; [lia|]. split; [lia|]. split; [exists q; rewrite H4; auto|exact Hacc].
  - eapply Forall_impl; [|exact Hb]. intros a H. cbn beta in *. tauto.
Qed.

(** ** where the task is *)
Definition rst (s : rslv TL) (rem : list axc) : Prop :=
  Forall (rburst_ok L) rem /\
  match s with
  | RIdle _ => True
  | RRead b _ => exists a n, b = sl_at a n OKAY /\ rburst_ok L a /\ 0 <= n < beats a
  | RResp r b _ => exists a n, b = sl_at a (n + 1) OKAY /\ rburst_ok L a /\ 0 <= n < beats a
  | RDead _ => False
  end.

Lemma rb_pos a : rburst_ok L a -> 0 < L.
Proof. intros (H1 & _ & (q & Hq & ->) & _). pose proof (Z.pow_pos_nonneg 2 (ax_size a) ltac:(lia) H1). nia. Qed.

Lemma read_step a n t log : rburst_ok L a -> 0 <= n < beats a ->
  let w := down L (axi_beat_addr a n) in let r := snd (tr t w L) in
  act (RRead (sl_at a n OKAY) (t, log)) =
    ATau (RResp (r_answer a (n, (w, L, r))) (sl_at a (n + 1) OKAY) (fst (tr t w L), log ++ [(w, L, r)])).
Proof.
  intros Hb Hn. pose proof (rb_pos a Hb) as HLp. destruct Hb as (H1 & H2 & (q & Hq & HLq) & _). cbv zeta. cbn [rs_act]. unfold sr_beat.
  replace (ss_cur (sl_at a n OKAY) / L * L) with (down L (axi_beat_addr a n)).
  2:{ cbn [sl_at ss_cur]. rewrite div_mul_down by lia. symmetry. apply (sl_word L q); auto; lia. }
  unfold log_read at 1. cbn [fst snd]. destruct (tr t (down L (axi_beat_addr a n)) L) as [t1 r1]. cbn [fst snd].
  rewrite sl_next_spec by (auto; lia). cbn [sl_at ss_left ss_resp ss_id ss_nb ss_burst ss_lo ss_hi].
  replace ({| ss_id := ax_id a; ss_nb := 2 ^ ax_size a; ss_left := beats a - n - 1;
     ss_burst := ax_burst a; ss_lo := down (2 ^ ax_size a * beats a) (ax_addr a);
     ss_hi := down (2 ^ ax_size a * beats a) (ax_addr a) + 2 ^ ax_size a * beats a;
     ss_cur := sl_addr a (n + 1); ss_resp := OKAY |}) with (sl_at a (n + 1) OKAY)
    by (unfold sl_at; f_equal; lia).
  assert (Hla : (beats a - n =? 1) = (n =? beats a - 1)) by lia. rewrite Hla.
  destruct r1 as [d|e]; unfold r_answer; cbn [fst snd]; [reflexivity|]. now rewrite le_int_zeros.
Qed.
Lemma read_start a (tl : TL) : rburst_ok L a -> rs_in L (RIdle tl) a = RRead (sl_at a 0 OKAY) tl.
Proof.
  intros (H1 & H2 & H3 & H4). cbn [rs_in].
  destruct (sl_start_spec L a H1 H2) as [[_ E]|[Hc _]]; [|contradiction]. rewrite E. unfold r_beats. cbn [sl_at ss_left].
  assert (Hb : 1 <= beats a) by (unfold beats; lia). replace (0 <? beats a - 0) with true by lia. reflexivity.
Qed.
Lemma r_beats_at a n (tl : TL) : 0 <= n < beats a ->
  r_beats (sl_at a (n + 1) OKAY) tl = if n + 1 <? beats a then RRead (sl_at a (n + 1) OKAY) tl else RIdle tl.
Proof. intros Hn. unfold r_beats. cbn [sl_at ss_left]. now replace (0 <? beats a - (n + 1)) with (n + 1 <? beats a) by lia. Qed.

Lemma rst_poke f s rem : pk f -> rst s rem -> rst (f s) rem.
Proof. intros Hf. destruct (Hpk f Hf) as [g ->]. now destruct s. Qed.
Lemma rst_trace s es o sa : trace s es o sa -> forall more, rst s (es ++ more) -> rst sa more.
Proof.
  induction 1 as [s|s e es o s' Ha Ht IH|s r s1 es o s' Ha Ht IH|s s1 es o s' Ha Ht IH|s f es o s' Hf Ht IH]; intros more [H0 H]; auto.
  - split; auto.
  - apply IH. cbn [app] in H0. inversion H0 as [|? ? Hb H0']; subst. destruct s as [tl|b [t log]|r b tl|tl]; try discriminate.
    + rewrite read_start by auto. split; [exact H0'|]. exists e, 0. split; [reflexivity|]. split; [exact Hb|]. destruct Hb as (H1 & H2 & H3). unfold beats; lia.
    + destruct H as (a & n & -> & Hb' & Hn). rewrite read_step in Ha by auto. discriminate.
  - apply IH. split; [exact H0|]. destruct s as [tl|b [t log]|r' b tl|tl]; try discriminate.
    + destruct H as (a & n & -> & Hb' & Hn). rewrite read_step in Ha by auto. discriminate.
    + injection Ha as -> <-. destruct H as (a & n & -> & Hb' & Hn). rewrite r_beats_at by auto.
      destruct (Z.ltb_spec (n + 1) (beats a)); [|exact I]. exists a, (n + 1). split; [reflexivity|]. split; [exact Hb'|lia].
  - apply IH. split; [exact H0|]. destruct s as [tl|b [t log]|r' b tl|tl]; try discriminate.
    destruct H as (a & n & -> & Hb' & Hn). rewrite read_step in Ha by auto. injection Ha as <-. exists a, n. auto.
  - apply IH. apply rst_poke; auto. split; auto.
Qed.

(** it can always finish a burst *)
Lemma burst_go m : forall a n t log, rburst_ok L a -> 0 <= n -> n + Z.of_nat (S m) = beats a ->
  exists o tl, trace0 (RRead (sl_at a n OKAY) (t, log)) [] o (RIdle tl).
Proof.
  induction m as [|m IH]; intros a n t log Hb Hn Hm; pose proof (read_step a n t log Hb ltac:(lia)) as Hs; cbv zeta in Hs.
  - eexists [_], _. eapply st_tau; [exact Hs|]. eapply st_emit; [reflexivity|]. rewrite r_beats_at by lia.
    replace (n + 1 <? beats a) with false by lia. constructor.
  - destruct (IH a (n + 1) (fst (tr t (down L (axi_beat_addr a n)) L)) (log ++ [(down L (axi_beat_addr a n), L, snd (tr t (down L (axi_beat_addr a n)) L))]) Hb ltac:(lia) ltac:(lia)) as (o & tl & Ht).
    eexists (_ :: o), tl. eapply st_tau; [exact Hs|]. eapply st_emit; [reflexivity|]. rewrite r_beats_at by lia.
    replace (n + 1 <? beats a) with true by lia. exact Ht.
Qed.
Lemma burst_go' a n tl : rburst_ok L a -> 0 <= n < beats a -> exists o tl', trace0 (RRead (sl_at a n OKAY) tl) [] o (RIdle tl').
Proof. intros Hb Hn. destruct tl as [t log]. apply (burst_go (Z.to_nat (beats a - n - 1))); auto; lia. Qed.
Lemma idle_go rem : forall tl, Forall (rburst_ok L) rem -> exists rest s', trace0 (RIdle tl) rem rest s' /\ Jr s'.
Proof.
  induction rem as [|a rem IH]; intros tl H.
  - exists [], (RIdle tl). split; [constructor|now exists tl].
  - inversion H as [|? ? Hb H']; subst. destruct (burst_go' a 0 tl Hb) as (o1 & tl1 & H1).
    { destruct Hb as (_ & H2 & _). unfold beats. lia. }
    destruct (IH tl1 H') as (o2 & s' & H2 & H3). exists (o1 ++ o2), s'. split; [|exact H3].
    apply st_in; [reflexivity|]. rewrite read_start by auto. change rem with ([] ++ rem). eapply strace_app; eauto.
Qed.
Lemma rst_go s rem : rst s rem -> exists rest s', trace0 s rem rest s' /\ Jr s'.
Proof.
  intros [H0 H]. destruct s as [tl|b tl|r b tl|tl].
  - now apply idle_go.
  - destruct H as (a & n & -> & Hb & Hn). destruct (burst_go' a n tl Hb Hn) as (o1 & tl1 & H1).
    destruct (idle_go rem tl1 H0) as (o2 & s' & H2 & H3). exists (o1 ++ o2), s'. split; [|exact H3]. change rem with ([] ++ rem). eapply strace_app; eauto.
  - destruct H as (a & n & -> & Hb & Hn). destruct (Z.ltb_spec (n + 1) (beats a)) as [Hlt|Hge].
    + destruct (burst_go' a (n + 1) tl Hb ltac:(lia)) as (o1 & tl1 & H1).
      destruct (idle_go rem tl1 H0) as (o2 & s' & H2 & H3). exists (r :: o1 ++ o2), s'. split; [|exact H3].
      eapply st_emit; [reflexivity|]. rewrite r_beats_at by auto. replace (n + 1 <? beats a) with true by lia. change rem with ([] ++ rem). eapply strace_app; eauto.
    + destruct (idle_go rem tl H0) as (o2 & s' & H2 & H3). exists (r :: o2), s'. split; [|exact H3].
      eapply st_emit; [reflexivity|]. rewrite r_beats_at by auto. replace (n + 1 <? beats a) with false by lia. exact H2.
  - destruct H.
Qed.

(** ** what it answers and calls *)
Definition rans (es : list axc) (rs : list rch) (cs : list rcall) : Prop :=
  exists ans, Forall2 (rburst_answer L) es ans /\
    rs = flat_map (fun p => map (r_answer (fst p)) (combine (zrange 0 (beats (fst p))) (snd p))) (combine es ans) /\ cs = concat ans.
Definition rbeat a n es rs cs : Prop := exists new rs' cs',
  map fst new = map (fun j => (down L (axi_beat_addr a j), L)) (zrange n (beats a)) /\
  rs = map (r_answer a) (combine (zrange n (beats a)) new) ++ rs' /\ cs = new ++ cs' /\ rans es rs' cs'.
Definition rfin (s : rslv TL) (es : list axc) (rs : list rch) (cs : list rcall) : Prop :=
  Forall (rburst_ok L) es ->
  match s with
  | RIdle _ => rans es rs cs
  | RRead b _ => forall a n, b = sl_at a n OKAY -> rburst_ok L a -> 0 <= n < beats a -> rbeat a n es rs cs
  | RResp r b _ => forall a n, b = sl_at a (n + 1) OKAY -> rburst_ok L a -> 0 <= n < beats a -> exists rs', rs = r :: rs' /\ rbeat a (n + 1) es rs' cs
  | RDead _ => True
  end.

Lemma rlog_poke f s : pk f -> rlog (f s) = rlog s.
Proof. intros Hf. destruct (Hpk f Hf) as [g ->]. now destruct s. Qed.
Lemma rlog_in s e : rlog (rs_in L s e) = rlog s.
Proof. destruct s as [tl| | |]; cbn [rs_in]; auto. destruct (sl_start L e); auto. unfold r_beats. now destruct (0 <? _). Qed.
Lemma rlog_emit s r s1 : act s = AEmit r s1 -> rlog s1 = rlog s.
Proof.
  destruct s as [tl|b tl|r' b tl|tl]; try discriminate.
  - cbn [rs_act]. destruct (sr_beat lr L b tl) as [[t' r1] s']. discriminate.
  - intros H. injection H as -> <-. unfold r_beats. now destruct (0 <? _).
Qed.
Lemma rlog_tau s s1 : act s = ATau s1 -> exists e, rlog s1 = rlog s ++ [e] /\ rreplays tr (fst (rs_target s)) [e] (fst (rs_target s1)).
Proof.
  destruct s as [tl|b [t log]|r' b tl|tl]; try discriminate. cbn [rs_act]. unfold sr_beat, log_read. cbn [fst snd].
  destruct (tr t (ss_cur b / L * L) L) as [t1 r1] eqn:E. destruct (match r1 with Ok d => _ | Err _ => _ end) as [data resp]. intros H. injection H as <-.
  eexists. split; [reflexivity|]. cbn. rewrite E. auto.
Qed.

Lemma rans_nil : rans [] [] [].
Proof. exists []. repeat split; constructor. Qed.

Lemma rfin_trace s es o s' : trace s es o s' -> Jr s' -> exists new, rlog s' = rlog s ++ new /\ rfin s es o new.
Proof.
  induction 1 as [s|s e es o s' Ha Ht IH|s r s1 es o s' Ha Ht IH|s s1 es o s' Ha Ht IH|s f es o s' Hf Ht IH]; intros Hj.
  - exists []. rewrite app_nil_r. split; auto. destruct Hj as [tl ->]. intros _. exact rans_nil.
  - destruct (IH Hj) as (new & E & HF). clear IH. exists new. rewrite rlog_in in E. split; [exact E|]. intros Hf. inversion Hf as [|? ? Hb Hf']; subst.
    destruct s as [tl|b [t log]|r b tl|tl]; try discriminate; [|intros a n -> Hb' Hn; rewrite read_step in Ha by auto; discriminate].
    rewrite read_start in HF by auto. destruct (HF Hf' e 0 eq_refl Hb) as (nw & rs' & cs' & H1 & H2 & H3 & (ans & H4 & H5 & H6)).
    { destruct Hb as (_ & H2 & _). unfold beats. lia. }
    exists (nw :: ans). split; [constructor; [exact H1|exact H4]|]. split; [cbn [combine flat_map fst snd]; now rewrite <- H5|cbn [concat]; now rewrite <- H6].
  - destruct (IH Hj) as (new & E & HF). clear IH. exists new. rewrite (rlog_emit _ _ _ Ha) in E. split; [exact E|]. intros Hf.
    destruct s as [tl|b [t log]|r' b tl|tl]; try discriminate; [intros a n -> Hb' Hn; rewrite read_step in Ha by auto; discriminate|].
    injection Ha as -> <-. intros a n -> Hb Hn. exists o. split; auto. rewrite r_beats_at in HF by auto.
    destruct (Z.ltb_spec (n + 1) (beats a)) as [Hlt|Hge].
    + apply (HF Hf); auto; lia.
    + exists [], o, new. rewrite zrange_empty by lia. split; [reflexivity|]. split; [reflexivity|]. split; [reflexivity|]. exact (HF Hf).
  - destruct (IH Hj) as (new & E & HF). clear IH. destruct (rlog_tau _ _ Ha) as (e & E1 & _).
    exists (e :: new). split; [rewrite E, E1, <- app_assoc; reflexivity|]. intros Hf.
    destruct s as [tl|b [t log]|r' b tl|tl]; try discriminate. intros a n -> Hb Hn.
    rewrite read_step in Ha by auto. injection Ha as <-. unfold rlog in E1. cbn [rs_target snd] in E1. apply app_inv_head in E1. injection E1 as <-.
    destruct (HF Hf a n eq_refl Hb Hn) as (rs' & -> & nw & rs'' & cs' & H1 & H2 & -> & H4).
    exists ((down L (axi_beat_addr a n), L, snd (tr t (down L (axi_beat_addr a n)) L)) :: nw), rs'', cs'.
    rewrite (zrange_cons n (beats a)) by lia. cbn [map fst combine app]. rewrite <- H1, <- H2. auto.
  - destruct (IH Hj) as (new & E & HF). exists new. rewrite E, (rlog_poke f s Hf). split; auto.
    destruct (Hpk f Hf) as [g ->]. now destruct s.
Qed.

(** ** IDs and RLAST *)
Lemma burst_pat a new : 0 <= ax_len a -> rburst_answer L a new ->
  map (fun r => (r_id r, r_last r)) (map (r_answer a) (combine (zrange 0 (beats a)) new)) = map (pair (ax_id a)) (r_epat a).
Proof.
  intros Ha Hn. rewrite epat_range by auto. rewrite !map_map. unfold rburst_answer in Hn.
  assert (Hlen : length new = length (zrange 0 (beats a))) by (apply (f_equal (@length (Z * Z))) in Hn; rewrite !map_length in Hn; exact Hn).
  clear Hn. revert new Hlen. induction (zrange 0 (beats a)) as [|j l IH]; intros [|x new] Hlen; try discriminate; [reflexivity|].
  cbn [combine map]. f_equal. apply IH. now injection Hlen.
Qed.
Lemma rans_pat es rs cs : Forall (rburst_ok L) es -> rans es rs cs ->
  map (fun r => (r_id r, r_last r)) rs = flat_map (fun a => map (pair (ax_id a)) (r_epat a)) es.
Proof.
  intros Hf (ans & HF & -> & _). induction HF as [|a x es ans Hx HF IH]; [reflexivity|]. inversion Hf as [|? ? (_ & H2 & _) Hf']; subst.
  cbn [combine flat_map fst snd]. rewrite map_app, IH by auto. f_equal. now apply burst_pat.
Qed.

Lemma pat_filter t es : forall rs, map (fun r => (r_id r, r_last r)) rs = flat_map (fun a => map (pair (ax_id a)) (r_epat a)) es ->
  map r_last (filter (fun r => r_id r =? t) rs) = owedE r_epat ax_id t es.
Proof.
  intros rs H. assert (K : forall l : list rch, map r_last (filter (fun r => r_id r =? t) l) = map snd (filter (fun p => fst p =? t) (map (fun r => (r_id r, r_last r)) l))).
  { induction l as [|r l IH]; cbn; auto. destruct (r_id r =? t); cbn; now rewrite IH. }
  rewrite K, H. unfold owedE. clear. induction es as [|a es IH]; [reflexivity|]. cbn [flat_map filter]. rewrite filter_app, map_app, IH.
  assert (K2 : forall l : list bool, map snd (filter (fun p : Z * bool => fst p =? t) (map (pair (ax_id a)) l)) = if ax_id a =? t then l else []).
  { intros l. destruct (ax_id a =? t) eqn:E; induction l as [|b l IH2]; cbn; auto; rewrite E; cbn; now rewrite ?IH2. }
  rewrite K2. destruct (ax_id a =? t); reflexivity.
Qed.

Lemma r_conf A es more o tl s' : okA okr A -> sendsA (r_sends c) A = es ++ more -> trace (RIdle tl) es o s' -> tag_ok r_epat r_chk r_id ax_id es o.
Proof.
  intros HA Hs Ht.
  assert (Hf : Forall (rburst_ok L) es).
  { assert (K : Forall (rburst_ok L) (sendsA (r_sends c) A)).
    { clear Ht Hs. induction HA as [|[o1 u1] A Ho HA IH]; [constructor|]. unfold sendsA in *. cbn [flat_map fst snd]. apply Forall_app. split; [|exact IH]. now apply op_ar. }
    rewrite Hs in K. now apply Forall_app in K. }
  pose proof (rst_trace _ _ _ _ Ht [] ltac:(rewrite app_nil_r; split; [exact Hf|exact I])) as Hst.
  destruct (rst_go _ _ Hst) as (rest & s2 & T2 & J2).
  assert (T3 : trace (RIdle tl) es (o ++ rest) s2).
  { rewrite <- (app_nil_r es). eapply strace_app; [exact Ht|]. now apply strace_weaken. }
  destruct (rfin_trace _ _ _ _ T3 J2) as (new & _ & F). pose proof (rans_pat _ _ _ Hf (F Hf)) as HP. intros t. cbv zeta.
  pose proof (pat_filter t _ _ HP) as HK. rewrite filter_app, map_app in HK. rewrite <- HK. split.
  - rewrite app_length, map_length. lia.
  - intros i r b Hi Hb. rewrite nth_error_app1 in Hb by (rewrite map_length; apply nth_error_Some; congruence).
    rewrite nth_error_map, Hi in Hb. cbn in Hb. injection Hb as <-. unfold r_chk. apply eqb_reflx.
Qed.

(** ** an operation *)
Lemma ars_words A len size sd u fuel : bus_ok L size -> 0 <= A -> 0 <= len -> forall k, 0 <= k -> k <= og_C A len size -> og_C A len size - k <= Z.of_nat fuel ->
  flat_map (fun a => map (fun j => (down L (axi_beat_addr a j), L)) (zrange 0 (beats a))) (og_ars c A len size INCR sd u fuel k) =
  map (fun j => (down L (2 ^ size * j), L)) (zrange (og_u A size + k) (og_u A size + og_C A len size)).
Proof.
  intros HG HA Hlen. destruct (bus_ok_facts _ _ HG) as (q & p & Hnb & Hq & HL & Hp & Hs & HL0).
  induction fuel; intros k Hk HkC Hf; cbn [og_ars].
  - rewrite zrange_empty by lia. reflexivity.
  - destruct (Z.ltb_spec k (og_C A len size)); [|rewrite zrange_empty by lia; reflexivity].
    pose proof (og_bl_range c A len size INCR p Hnb Hp k ltac:(lia)) as (Hb1 & Hb2). cbn [flat_map].
    set (bl := og_bl c A len size INCR k) in *. rewrite IHfuel by lia.
    rewrite (zrange_split (og_u A size + k) (og_u A size + k + bl) (og_u A size + og_C A len size)) by lia. rewrite map_app.
    replace (og_u A size + (k + bl)) with (og_u A size + k + bl) by lia. f_equal.
    replace (beats (og_ax c A len size INCR sd u k)) with bl by (unfold beats; cbn [og_ax ax_len]; fold bl; lia).
    unfold zrange. rewrite Z.sub_0_r. replace (og_u A size + k + bl - (og_u A size + k)) with bl by lia.
    assert (K : forall m b, 0 <= b -> map (fun j => (down L (axi_beat_addr (og_ax c A len size INCR sd u k) j), L)) (zseq b m) =
      map (fun j => (down L (2 ^ size * j), L)) (zseq (og_u A size + k + b) m)).
    { induction m as [|m IHm]; intros b Hb; cbn [zseq map]; [reflexivity|]. rewrite IHm by lia. f_equal; [|do 2 f_equal; lia].
      f_equal. rewrite (og_word c A len size INCR sd u q p) by (auto; lia). unfold og_ba. do 2 f_equal. lia. }
    rewrite K by lia. now rewrite Z.add_0_r.
Qed.

Lemma rans_calls es rs cs : rans es rs cs ->
  map fst cs = flat_map (fun a => map (fun j => (down L (axi_beat_addr a j), L)) (zrange 0 (beats a))) es /\
  Forall2 (fun r (e : rcall) => r_data r = (match snd e with Ok d => le_int d | Err _ => 0 end) /\
                                r_resp r = (match snd e with Ok _ => OKAY | Err _ => SLVERR end)) rs cs.
Proof.
  intros (ans & HF & -> & ->). induction HF as [|a x es ans Hx HF [IH1 IH2]]; [split; [reflexivity|constructor]|].
  cbn [concat combine flat_map fst snd]. rewrite map_app, IH1. unfold rburst_answer in Hx. split; [now rewrite Hx|]. apply Forall2_app; auto.
  clear - Hx. assert (Hlen : length x = length (zrange 0 (beats a))) by (apply (f_equal (@length (Z * Z))) in Hx; rewrite !map_length in Hx; exact Hx).
  clear Hx. revert x Hlen. induction (zrange 0 (beats a)) as [|j l IH]; intros [|y x] Hlen; try discriminate; cbn; constructor; auto.
Qed.

Lemma ans_nth cs : forall rs k, Forall2 (fun r (e : rcall) => r_data r = (match snd e with Ok d => le_int d | Err _ => 0 end) /\
    r_resp r = (match snd e with Ok _ => OKAY | Err _ => SLVERR end)) rs cs ->
  r_data (nth k rs (r_answer {| ax_id := 0; ax_addr := 0; ax_len := 0; ax_size := 0; ax_burst := INCR; ax_side := ex_side |} (0, no_call))) =
  match snd (nth k cs no_call) with Ok d => le_int d | Err _ => 0 end.
Proof.
  induction cs as [|e cs IH]; intros rs k H; inversion H as [|r ? rs' ? Hr H']; subst.
  - destruct k; reflexivity.
  - destruct k; cbn [nth]; [apply Hr|now apply IH].
Qed.

Lemma rans_fetched o u rs cs : okr o u -> rans (r_sends c o u) rs cs ->
  fetched c (o, u) (rs, cs) /\ length rs = length (pat (r_sends c) r_epat o u).
Proof.
  intros Hok HF.
  destruct (op_ar o u Hok) as (HL0 & Hb & Hid).
  pose proof (rans_pat _ _ _ Hb HF) as HP. destruct (rans_calls _ _ _ HF) as (Hc & H2). clear HF.
  assert (Hlast : map r_last rs = flat_map r_epat (r_sends c o u)).
  { apply (f_equal (map snd)) in HP. rewrite map_map in HP. cbn [snd] in HP. etransitivity; [exact HP|]. clear. induction (r_sends c o u) as [|a l IH]; [reflexivity|].
    cbn [flat_map]. rewrite map_app, IH, map_map. cbn [snd]. now rewrite map_id. }
  assert (Hlen : length rs = length (pat (r_sends c) r_epat o u)) by (unfold pat; rewrite <- Hlast, map_length; reflexivity).
  split; [|exact Hlen]. clear Hlen.
  split; [|split].
  - assert (K : Forall (fun p : Z * bool => fst p = u) (map (fun r => (r_id r, r_last r)) rs)).
    { rewrite HP. clear - Hid. induction Hid as [|a l Ha Hid IH]; [constructor|]. cbn [flat_map]. apply Forall_app. split; [|exact IH].
      rewrite Forall_map. apply Forall_forall. auto. }
    rewrite Forall_map in K. exact K.
  - rewrite Hc. destruct Hok as (HG & Hbt & HA & Hln). unfold r_sends. destruct o as [[n i] [A len bt size sd]].
    cbn [snd rc_addr rc_len rc_burst rc_size] in *. subst bt.
    pose proof (op_read c A len size sd u HG Hln) as Hr. unfold og_rcmd in Hr. rewrite Hr.
    destruct (bus_ok_facts _ _ HG) as (q & p & Hnb & Hq & HL & Hp & Hs & _).
    pose proof (og_cycles c A len size Hnb Hln) as (HC & _).
    rewrite ars_words by (auto; lia). unfold read_calls. cbn [rc_addr rc_len rc_size]. rewrite Z.add_0_r. f_equal. f_equal.
    unfold og_u, og_C, cycles_of, num_bytes. pose proof (Z.div_mod A (2 ^ size) ltac:(lia)) as Hdm.
    rewrite <- Z.div_add_l by lia. f_equal. lia.
  - intros Hcok. destruct Hok as (HG & Hbt & HA & Hln). unfold read_returns, r_sends in *. destruct o as [[n i] [A len bt size sd]].
    cbn [snd rc_addr rc_len rc_burst rc_size] in *. subst bt.
    pose proof (op_read c A len size sd u HG Hln) as Hr. unfold og_rcmd in Hr. rewrite Hr in *.
    set (r0 := r_answer {| ax_id := 0; ax_addr := 0; ax_len := 0; ax_size := 0; ax_burst := INCR; ax_side := ex_side |} (0, no_call)).
    destruct (op_read_any c A len size sd u HG HA Hln rs r0 Hlast) as (Hlr & users & HR). unfold og_rcmd in HR. rewrite HR.
    destruct (bus_ok_facts _ _ HG) as (q & p & Hnb & Hq & HL & Hp & Hs & _).
    pose proof (og_cycles c A len size Hnb Hln) as (HC & HC2 & HC3 & _). pose proof (og_A c A len size Hnb) as HAu.
    assert (Hlc : length cs = length rs) by (clear - H2; induction H2; cbn; congruence).
    f_equal. f_equal.
    + apply map_ext_in. intros x Hx. apply in_zrange in Hx. unfold lane_of, r0. rewrite (ans_nth _ _ _ H2).
      fold (og_u A size). unfold call_byte.
      set (k := x / 2 ^ size - og_u A size).
      assert (Hk : 0 <= k < og_C A len size).
      { unfold k. pose proof (Z.div_mod x (2 ^ size) ltac:(lia)) as Hdx. pose proof (Z.mod_pos_bound x (2 ^ size) ltac:(lia)) as Hmx. split.
        - assert (og_u A size <= x / 2 ^ size) by (unfold og_u; apply Z.div_le_mono; lia). lia.
        - assert (Hl : 2 ^ size * (x / 2 ^ size) < 2 ^ size * (og_u A size + og_C A len size)) by lia.
          apply Z.mul_lt_mono_pos_l in Hl; lia. }
      assert (Hin : In (znth no_call cs k) cs).
      { unfold znth. apply nth_In. rewrite Hlc, Hlr. lia. }
      assert (Hfst : fst (znth no_call cs k) = (down L (2 ^ size * (x / 2 ^ size)), L)).
      { pose proof (ars_words A len size sd u (Z.to_nat (og_C A len size)) HG HA Hln 0 ltac:(lia) ltac:(lia) ltac:(lia)) as Hw. rewrite <- Hc in Hw.
        unfold znth. rewrite <- (map_nth fst), Hw. rewrite (nth_indep _ _ (down L (2 ^ size * 0), L)).
        - rewrite (map_nth (fun j => (down L (2 ^ size * j), L))). unfold zrange. rewrite zseq_nth by lia. do 3 f_equal. unfold k. lia.
        - rewrite map_length, zrange_length. lia. }
      fold (znth no_call cs k). rewrite Forall_forall in Hcok. specialize (Hcok _ Hin). unfold rcall_ok in Hcok.
      destruct (snd (znth no_call cs k)) as [d|e]; [|now rewrite Z.shiftr_0_l].
      destruct Hcok as [Hd1 Hd2]. rewrite Hfst. cbn [fst].
      pose proof (Z.mod_pos_bound x L HL0). rewrite le_int_shift by (auto; lia). f_equal.
      assert (Hdx : down L (2 ^ size * (x / 2 ^ size)) = down L x).
      { rewrite HL. pose proof (Z.div_mod x (2 ^ size) ltac:(lia)) as Hdx. pose proof (Z.mod_pos_bound x (2 ^ size) ltac:(lia)) as Hmx.
        rewrite !(down_within (2 ^ size) q (x / 2 ^ size)); auto; lia. }
      rewrite Hdx. unfold down. lia.
    + assert (H1 : Forall (fun b => b = OKAY \/ b = SLVERR) (map r_resp rs) /\ existsb rerr (map r_resp rs) = existsb rfailed cs).
      { clear - H2. induction H2 as [|r e rs cs (_ & Hx) HF [IH1 IH2]]; [cbn; auto|]. cbn [map existsb]. rewrite IH2, Hx. unfold rfailed, is_err. split.
        - constructor; auto. destruct (snd e); auto.
        - now destruct (snd e). }
      destruct H1 as [H1 <-]. apply agg_slv. exact H1.
Qed.
Lemma op_fetched s o u rs s' : Jr s -> okr o u -> trace s (r_sends c o u) rs s' -> Jr s' ->
  exists cs, rlog s' = rlog s ++ cs /\ fetched c (o, u) (rs, cs) /\ length rs = length (pat (r_sends c) r_epat o u).
Proof.
  intros [tl ->] Hok Ht Hj. destruct (rfin_trace _ _ _ _ Ht Hj) as (cs & E & HF). exists cs. split; [exact E|].
  destruct (op_ar o u Hok) as (HL0 & Hb & Hid). specialize (HF Hb). now apply rans_fetched.
Qed.

Lemma r_ext s o u es more rs sa : Jr s -> okr o u -> r_sends c o u = es ++ more -> trace s es rs sa ->
  exists rest s', trace0 sa more rest s' /\ Jr s'.
Proof.
  intros [tl ->] Hok Hs Ht. apply rst_go. eapply rst_trace; [exact Ht|]. rewrite <- Hs. split; [now apply op_ar|exact I].
Qed.
Lemma r_sem s o u rs s' : Jr s -> okr o u -> trace s (r_sends c o u) rs s' -> Jr s' ->
  length rs = length (pat (r_sends c) r_epat o u) /\ Forall (fun r => r_id r = u) rs.
Proof. intros H1 H2 H3 H4. destruct (op_fetched _ _ _ _ _ H1 H2 H3 H4) as (cs & _ & (K & _) & K2). auto. Qed.

(** ** the log *)
Lemma rtrace_log s es o s' : trace s es o s' -> exists more, rlog s' = rlog s ++ more.
Proof.
  induction 1 as [s|s e es o s' Ha Ht IH|s r s1 es o s' Ha Ht IH|s s1 es o s' Ha Ht IH|s f es o s' Hf Ht IH].
  - exists []. now rewrite app_nil_r.
  - now rewrite rlog_in in IH.
  - now rewrite (rlog_emit _ _ _ Ha) in IH.
  - destruct IH as (more & ->). destruct (rlog_tau _ _ Ha) as (e & -> & _). exists (e :: more). now rewrite <- app_assoc.
  - now rewrite (rlog_poke f s Hf) in IH.
Qed.
Lemma rreplays_app l1 : forall l2 t t1 t2, rreplays tr t l1 t1 -> rreplays tr t1 l2 t2 -> rreplays tr t (l1 ++ l2) t2.
Proof.
  induction l1 as [|[[a d] r] l1 IH]; intros l2 t t1 t2 H1 H2; cbn in *; [now subst|]. destruct H1. eauto.
Qed.
Lemma rtrace_replays s es o s' : trace0 s es o s' -> exists more, rlog s' = rlog s ++ more /\ rreplays tr (fst (rs_target s)) more (fst (rs_target s')).
Proof.
  induction 1 as [s|s e es o s' Ha Ht IH|s r s1 es o s' Ha Ht IH|s s1 es o s' Ha Ht IH|s f es o s' [] Ht IH].
  - exists []. rewrite app_nil_r. split; reflexivity.
  - rewrite rlog_in in IH. assert (K : rs_target (rs_in L s e) = rs_target s).
    { destruct s as [tl| | |]; cbn [rs_in]; auto. destruct (sl_start L e); auto. unfold r_beats. now destruct (0 <? _). }
    now rewrite K in IH.
  - rewrite (rlog_emit _ _ _ Ha) in IH. assert (K : rs_target s1 = rs_target s).
    { destruct s as [tl|b tl|r' b tl|tl]; try discriminate.
      - cbn [rs_act] in Ha. destruct (sr_beat lr L b tl) as [[t' r1] s2]. discriminate.
      - injection Ha as -> <-. unfold r_beats. now destruct (0 <? _). }
    now rewrite K in IH.
  - destruct IH as (more & -> & HR). destruct (rlog_tau _ _ Ha) as (e & -> & HR1). exists (e :: more). split; [now rewrite <- app_assoc|].
    change (e :: more) with ([e] ++ more). eapply rreplays_app; eauto.
Qed.

Definition busyr (s : rslv TL) : Prop := match s with RIdle _ => False | _ => True end.
Lemma rbusy_emits s es o s' : trace0 s es o s' -> es = [] -> busyr s -> Jr s' -> o <> [].
Proof.
  induction 1 as [s|s e es o s' Ha Ht IH|s r s1 es o s' Ha Ht IH|s s1 es o s' Ha Ht IH|s f es o s' [] Ht IH]; intros He Hb Hj; try discriminate.
  - destruct Hj as [tl ->]. destruct Hb.
  - apply IH; auto. destruct s as [tl|b tl|r' b tl|tl]; try discriminate. cbn [rs_act] in Ha. destruct (sr_beat lr L b tl) as [[t' r1] s2]. injection Ha as <-. exact I.
Qed.
Lemma r_last_emits o u es e : okr o u -> r_sends c o u = es ++ [e] -> forall s rs s', trace0 s [e] rs s' -> Jr s' -> rs <> [].
Proof.
  intros Hok Hs. destruct (op_ar o u Hok) as (_ & Hb & _). rewrite Hs in Hb. apply Forall_app in Hb as [_ Hb]. inversion Hb as [|? ? Hbe _]; subst.
  intros s rs s' H. remember [e] as l eqn:El. revert El. induction H as [s|s x xs o' s' Ha Ht IH|s r s1 xs o' s' Ha Ht IH|s s1 xs o' s' Ha Ht IH|s f xs o' s' [] Ht IH]; intros El Hj; try discriminate.
  - injection El as -> ->. eapply rbusy_emits; [exact Ht|reflexivity| |exact Hj].
    destruct s as [tl|b tl|r' b tl|tl]; try exact I. rewrite read_start by auto. exact I.
  - now apply IH.
Qed.

Lemma rquiet_log s es o s' : trace s es o s' -> es = [] -> Jr s -> rlog s' = rlog s /\ Jr s'.
Proof.
  induction 1 as [s|s e es o s' Ha Ht IH|s r s1 es o s' Ha Ht IH|s s1 es o s' Ha Ht IH|s f es o s' Hf Ht IH]; intros He [tl ->]; try discriminate; auto.
  - split; [reflexivity|now exists tl].
  - destruct (IH He) as [E1 E2]; [destruct (Hpk f Hf) as [g ->]; eexists; reflexivity|]. split; auto. rewrite E1. destruct (Hpk f Hf) as [g ->]. reflexivity.
Qed.

(** ** the instance *)
Local Notation otrr := (otr (r_sends c) r_kind (rs_act lr L) (rs_in L) pk okr Jr).
Lemma otr_fetched s A rss s' : otrr s A rss s' -> exists ex, rss = map fst ex /\ Forall2 (fetched c) A ex /\
  rlog s' = rlog s ++ concat (map snd ex).
Proof.
  induction 1 as [s s' Hj Ht Hj'|s o u rs s1 A rss s2 Hj Hok Ht Hj1 Ho (ex & -> & HF & El)].
  - exists []. split; auto. split; [constructor|]. cbn [map concat]. rewrite app_nil_r. eapply rquiet_log; eauto.
  - destruct (op_fetched _ _ _ _ _ Hj Hok Ht Hj1) as (cs & E & H1 & _).
    exists ((rs, cs) :: ex). split; auto. cbn [map concat snd]. split; [constructor; auto|rewrite El, E, app_assoc; reflexivity].
Qed.

Lemma r_htag o u e : In e (r_sends c o u) -> r_opens e = true -> ax_id e = u.
Proof. intros H _. eapply mr_loop_tag. exact H. Qed.

Variable idn : Z.
Hypothesis Hidn : 0 < idn.
Variable t0 : T.
Local Notation step := (rsys_step c idn lr L).
Local Notation s0 := (RIdle (t0, [])).

Theorem rsys_main h : Forall (P_sys.poke_ok pk) h -> let '(y, l) := rsys_run c idn lr L (t0, []) h in
  let A := assigned op_id idn 0 (xstarted l) in
  let log := rlog (y_s y) in
  Forall (fun p => read_legal L (fst p)) A ->
  xcrashed l = false /\
  (forall d, In d (xcompleted l) -> exists u, snd (fst d) = Some u) /\
  exists ex es o more rest sN, sendsA (r_sends c) A = es ++ more /\ trace s0 es o (y_s y) /\ trace0 (y_s y) more rest sN /\ rlog sN = concat (map snd ex) /\
    Forall2 (fetched c) A ex /\ is_prefix log (concat (map snd ex)) /\
    (forall u, exists k, (k <= length (with_tag u A))%nat /\
       completed_on u l = combine (firstn k (with_tag u A)) (firstn k (map fst (on_tag u A ex)))) /\
    (forall i o u, nth_error A i = Some (o, u) -> rc_len (snd o) <> 0 ->
       (length (with_tag u (firstn i A)) < length (completed_on u l))%nat ->
       is_prefix (concat (map snd (firstn (S i) ex))) log) /\
    (quiescent step y -> log = concat (map snd ex) /\ e_pend (y_m y) = [] /\
       forall u, completed_on u l = combine (with_tag u A) (map fst (on_tag u A ex))).
Proof.
  intros Hh.
  assert (Hpk0 : forall f (s : rslv TL) k, pk f -> act (f s) = AWait k <-> act s = AWait k).
  { intros f s k Hf. destruct (Hpk f Hf) as [g ->]. destruct s as [tl|b tl|r b tl|tl]; cbn [rs_poke rs_act]; try tauto; try (split; discriminate).
    destruct (sr_beat lr L b _) as [[t1 r1] s1]. destruct (sr_beat lr L b tl) as [[t2 r2] s2]. split; discriminate. }
  assert (HJpk : forall f s, pk f -> Jr (f s) <-> Jr s).
  { intros f s Hf. destruct (Hpk f Hf) as [g ->]. unfold Jr. destruct s; cbn; split; intros [tl E]; try discriminate; eexists; reflexivity. }
  assert (HJr : forall s, Jr s -> ready act s) by (intros s [tl ->]; exists true; reflexivity).
  assert (Htau : forall s s', act s = ATau s' -> exists r s'', act s' = AEmit r s'').
  { intros s s'; destruct s as [tl|b tl|r b tl|tl]; try discriminate. cbn [rs_act]. destruct (sr_beat lr L b tl) as [[t1 r1] s1].
    intros E; injection E as <-. cbn [rs_act]. eauto. }
  assert (Htau0 : forall s s' s'', act s = ATau s' -> strace r_kind (rs_act lr L) (rs_in L) nopk s' [] [] s'' -> ~ Jr s'') by (intros s s' s'' Ha; apply (tau_emit _ _ _ Jr HJr); eauto).
  pose proof (sys_main (r_sends c) r_opens r_epat r_chk r_id op_id idn r_kind (rs_act lr L) (rs_in L) pk Hpk0 okr Jr HJr HJpk r_ext r_sem Htau0
    ax_id r_htag) as M.
  assert (H0 : forall e, r_opens e = false -> r_epat e = []) by discriminate.
  assert (H1 : forall e, r_opens e = true -> exists k, r_epat e = repeat false k ++ [true]) by (intros e _; eexists; reflexivity).
  specialize (M H0 H1 Hidn s0 (ex_intro _ (t0, []) eq_refl)).
  assert (Hc : forall A es more o s', okA okr A -> sendsA (r_sends c) A = es ++ more -> trace s0 es o s' -> tag_ok r_epat r_chk r_id ax_id es o).
  { intros A es more o s' K1 K2 K3. eapply r_conf; eauto. }
  specialize (M Hc r_last_emits h Hh). unfold rsys_run. destruct (y_run _ _ _ _ _ _ _ _ _ _ _ h) as [y l]. cbn zeta.
  intros HA. specialize (M HA). change (asgs op_id idn l) with (assigned op_id idn 0 (xstarted l)) in M.
  set (A := assigned op_id idn 0 (xstarted l)) in *.
  destruct M as (Hcr & _ & Hcomp & B1 & r1 & sm & es' & o' & B2 & r2 & rest & sN & es & more & o & HO & Hcomp2 & Hdone & Hq).
  pose proof HO as (K1 & K2 & K3 & K4 & K5 & K6 & K7 & K8 & K9 & K10).
  split; [exact Hcr|]. split; [exact Hcomp|].
  assert (Htr : trace s0 es o (y_s y)).
  { rewrite K4, K5. eapply strace_app; [|exact K6]. eapply otr_strace; eauto. }
  destruct (otr_fetched _ _ _ _ K2) as (ex1 & -> & HF1 & El1). destruct (otr_fetched _ _ _ _ K3) as (ex2 & -> & HF2 & El2).
  change (rlog s0) with (@nil rcall) in El1. cbn [app] in El1.
  set (ex := ex1 ++ ex2). assert (HF : Forall2 (fetched c) A ex) by (rewrite K1; now apply Forall2_app).
  assert (Hlen : length ex = length A) by (clear - HF; induction HF; cbn; congruence).
  assert (ElN : rlog sN = concat (map snd ex)) by (rewrite El2, El1; unfold ex; rewrite map_app, concat_app; reflexivity).
  destruct (rtrace_log _ _ _ _ (strace_weaken _ _ _ pk _ _ _ _ K7)) as (lg & Hlg).
  destruct (rtrace_log _ _ _ _ K6) as (lg1 & Hlg1).
  exists ex, es, o, more, rest, sN. split; [rewrite K1, K4; unfold sendsA in *; rewrite flat_map_app, K8, <- app_assoc; reflexivity|]. split; [exact Htr|]. split; [exact K7|]. split; [exact ElN|]. split; [exact HF|].
  split; [exists lg; congruence|]. rewrite <- map_app in Hcomp2, Hq. fold ex in Hcomp2, Hq. split; [|split].
  - intros u. rewrite <- combine_on_tag by auto. apply Hcomp2.
  - intros i p u Hi Hd Hk. apply nth_error_split in Hi. destruct Hi as (A1 & A2 & HAA & Hi1).
    rewrite HAA in Hk. rewrite <- Hi1, firstn_app, Nat.sub_diag, firstn_all in Hk. cbn [firstn] in Hk. rewrite app_nil_r in Hk.
    assert (Hok : read_legal L p). { rewrite HAA in HA. apply Forall_app in HA as [_ HA]. inversion HA; auto. }
    assert (Hpat : pat (r_sends c) r_epat p u <> []).
    { unfold pat, r_sends. destruct Hok as (HG & Hbt & HA0 & Hln). destruct p as [[n i'] [A0 len bt size sd]].
      cbn [snd rc_addr rc_len rc_burst rc_size] in *. subst bt.
      pose proof (op_read c A0 len size sd u HG Hln) as Hr. unfold og_rcmd in Hr. rewrite Hr. clear Hr.
      destruct (bus_ok_facts _ _ HG) as (q & p & Hnb & _).
      pose proof (og_cycles c A0 len size Hnb Hln) as (HC & _ & _ & HC4). destruct (Z.to_nat (og_C A0 len size)) as [|m] eqn:Em; [lia|].
      cbn [og_ars]. replace (0 <? og_C A0 len size) with true by lia. cbn [flat_map]. unfold r_epat at 1. intros E. apply app_eq_nil in E as [E _]. apply app_eq_nil in E as [_ E]. discriminate. }
    assert (Hb1 : (i < length B1)%nat) by (rewrite <- Hi1; exact (Hdone A1 p u A2 HAA Hpat Hk)).
    assert (Hl1 : length ex1 = length B1) by (clear - HF1; induction HF1; cbn; congruence).
    unfold ex. rewrite firstn_app. replace (S i - length ex1)%nat with 0%nat by lia. cbn [firstn]. rewrite app_nil_r.
    unfold is_prefix. rewrite Hlg1, El1. exists (concat (map snd (skipn (S i) ex1)) ++ lg1).
    rewrite <- (firstn_skipn (S i) ex1) at 1. rewrite map_app, concat_app, <- app_assoc. reflexivity.
  - intros Hqq. destruct (Hq Hqq) as (_ & _ & Hpe & HsN & Hall). split; [|split; [exact Hpe|]].
    + rewrite <- HsN. exact ElN.
    + intros u. rewrite <- combine_on_tag by auto. apply Hall.
Qed.
End R.

(** the bus words of a read lie in the range *)
Lemma read_calls_range L cmd lo hi : bus_ok L (rc_size cmd) -> 0 <= rc_addr cmd -> 0 <= rc_len cmd ->
  lo mod L = 0 -> hi mod L = 0 -> lo <= rc_addr cmd < hi -> rc_addr cmd + rc_len cmd <= hi ->
  Forall (fun e => lo <= fst e /\ fst e + L <= hi /\ fst e mod L = 0 /\ snd e = L) (read_calls L cmd).
Proof.
  intros HG HA Hlen Hlo Hhi H1 H2. destruct (bus_ok_facts _ _ HG) as (q & p & Hnb & Hq & HL & Hp & Hs & HL0).
  unfold read_calls. rewrite Forall_map. apply Forall_forall. intros k Hk. apply in_zrange in Hk. cbn [fst snd].
  set (nb := 2 ^ rc_size cmd) in *. set (A := rc_addr cmd) in *. set (len := rc_len cmd) in *.
  assert (Hx : nb * (A / nb) <= A < nb * (A / nb) + nb).
  { pose proof (Z.div_mod A nb ltac:(lia)). pose proof (Z.mod_pos_bound A nb Hnb). lia. }
  assert (Hy : nb * ((A + len + nb - 1) / nb) <= A + len + nb - 1) by (apply Z.mul_div_le; lia).
  assert (Hk1 : nb * (A / nb) <= nb * k) by (apply Z.mul_le_mono_nonneg_l; lia).
  assert (Hk2 : nb * (k + 1) <= nb * ((A + len + nb - 1) / nb)) by (apply Z.mul_le_mono_nonneg_l; lia).
  assert (Hd : down L A <= down L (nb * k)).
  { replace (down L A) with (down L (nb * (A / nb))).
    - rewrite !down_eq by lia. apply Z.mul_le_mono_nonneg_l; [lia|]. apply Z.div_le_mono; lia.
    - rewrite HL. rewrite !(down_within nb q (A / nb)); auto; lia. }
  assert (Hm : down L (nb * k) mod L = 0) by (rewrite down_eq by lia; rewrite Z.mul_comm; apply Z.mod_mul; lia).
  assert (Hu : nb * k < hi).
  { destruct (Z.le_gt_cases (nb * k) A); [lia|]. lia. }
  split; [|split; [|auto]].
  - etransitivity; [|exact Hd]. rewrite down_eq by lia. pose proof (Z.div_mod lo L ltac:(lia)).
    assert (lo / L <= A / L) by (apply Z.div_le_mono; lia). assert (L * (lo / L) <= L * (A / L)) by (apply Z.mul_le_mono_nonneg_l; lia). lia.
  - rewrite down_eq by lia. pose proof (Z.div_mod hi L ltac:(lia)).
    assert (Hle : L * (nb * k / L) <= nb * k) by (apply Z.mul_div_le; lia).
    assert (Hlt : L * (nb * k / L) < L * (hi / L)) by lia. apply Z.mul_lt_mono_pos_l in Hlt; [|lia].
    assert (L * (nb * k / L + 1) <= L * (hi / L)) by (apply Z.mul_le_mono_nonneg_l; lia). lia.
Qed.

Definition word_of (L : Z) (phi : Z -> Z) (m : flat) (e : rcall) : Prop :=
  exists d, snd e = Ok d /\ are_bytes d /\ d = map (fun x => m (phi x)) (zrange (fst (fst e)) (fst (fst e) + L)).
(** a read whose calls returned bytes of memories returns these bytes *)
Lemma fetched_mem c phi o u rs cs (g : nat -> flat) : read_legal (m_lanes c) o -> fetched c (o, u) (rs, cs) ->
  (forall k e, nth_error cs k = Some e -> word_of (m_lanes c) phi (g k) e) ->
  read_returns c o u rs = Some (map (fun x => g (Z.to_nat (x / 2 ^ rc_size (snd o) - rc_addr (snd o) / 2 ^ rc_size (snd o))) (phi x))
                                  (zrange (rc_addr (snd o)) (rc_addr (snd o) + rc_len (snd o))), OKAY).
Proof.
  intros (HG & _ & HA & Hlen) (_ & H2 & H3) Hg. destruct (bus_ok_facts _ _ HG) as (q & p & Hnb & Hq & HL & Hp & Hs & HL0).
  set (L := m_lanes c) in *. set (nb := 2 ^ rc_size (snd o)) in *. set (A := rc_addr (snd o)) in *. set (len := rc_len (snd o)) in *.
  assert (Hin : forall e, In e cs -> snd (fst e) = L /\ exists k, word_of L phi (g k) e).
  { intros e He. split.
    - assert (K : In (fst e) (map fst cs)) by now apply in_map. rewrite H2 in K. unfold read_calls in K. apply in_map_iff in K. destruct K as (k & <- & _). reflexivity.
    - apply In_nth_error in He. destruct He as (k & Hk). exists k. now apply Hg. }
  rewrite H3.
  2:{ apply Forall_forall. intros e He. destruct (Hin e He) as (E1 & k & d & E2 & E3 & E4). unfold rcall_ok. rewrite E2, E1. split; auto. rewrite E4.
      unfold zlen. rewrite map_length, zrange_length. lia. }
  replace (existsb rfailed cs) with false.
  2:{ symmetry. apply not_true_is_false. intros K. apply existsb_exists in K. destruct K as (e & He & K). destruct (Hin e He) as (_ & k & d & E2 & _).
      unfold rfailed in K. rewrite E2 in K. discriminate. }
  f_equal. f_equal. apply map_ext_in. intros x Hx. apply in_zrange in Hx. fold nb A.
  assert (Hx1 : nb * (x / nb) <= x < nb * (x / nb) + nb).
  { pose proof (Z.div_mod x nb ltac:(lia)). pose proof (Z.mod_pos_bound x nb Hnb). lia. }
  assert (Hk0 : 0 <= x / nb - A / nb) by (assert (A / nb <= x / nb) by (apply Z.div_le_mono; lia); lia).
  assert (Hk1 : x / nb < (A + len + nb - 1) / nb).
  { assert ((x + nb) / nb <= (A + len + nb - 1) / nb) by (apply Z.div_le_mono; lia). replace (x + nb) with (x + 1 * nb) in H by lia. rewrite Z.div_add in H; lia. }
  set (k := Z.to_nat (x / nb - A / nb)). assert (Hk : (k < length cs)%nat).
  { rewrite <- (map_length fst), H2. unfold read_calls. rewrite map_length, zrange_length. fold nb A len. unfold k. lia. }
  destruct (nth_error cs k) as [e|] eqn:Ee; [|apply nth_error_None in Ee; lia].
  replace (znth no_call cs (x / nb - A / nb)) with e by (unfold znth; fold k; symmetry; now apply nth_error_nth).
  assert (Ef : fst e = (down L (nb * (x / nb)), L)).
  { assert (E : nth_error (map fst cs) k = Some (fst e)) by (now apply map_nth_error). rewrite H2 in E. unfold read_calls in E. fold nb A len in E.
    rewrite (map_nth_error _ k (zrange (A / nb) ((A + len + nb - 1) / nb)) (d := x / nb)) in E; [injection E as <-; reflexivity|].
    replace (x / nb) with (A / nb + Z.of_nat k) by (unfold k; lia).
    assert (Hkl : (k < length (zrange (A / nb) ((A + len + nb - 1) / nb)))%nat) by (rewrite zrange_length; unfold k; lia).
    rewrite (nth_error_nth' _ 0 Hkl). f_equal. pose proof (znth_zrange0 0 (A / nb) ((A + len + nb - 1) / nb) (Z.of_nat k) ltac:(unfold k; lia)) as Z0.
    unfold znth in Z0. now rewrite Nat2Z.id in Z0. }
  destruct (Hg k e Ee) as (d & E1 & _ & E2). unfold call_byte. rewrite E1, E2, Ef. cbn [fst].
  assert (Hw : down L (nb * (x / nb)) <= x < down L (nb * (x / nb)) + L).
  { assert (Ed : down L (nb * (x / nb)) = down L x) by (rewrite HL; rewrite !(down_within nb q (x / nb)); auto; lia). rewrite Ed, down_eq by lia.
    pose proof (Z.div_mod x L ltac:(lia)). pose proof (Z.mod_pos_bound x L HL0). lia. }
  rewrite (znth_map _ 0) by (rewrite zlen_zrange; lia). rewrite znth_zrange0 by lia. f_equal. f_equal. lia.
Qed.
