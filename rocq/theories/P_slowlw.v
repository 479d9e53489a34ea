(** AxiLiteMasterWrite with an AxiLiteSlaveWrite on a slow target, as an instance of P_litesys.v. *)
From Coq Require Import ZArith Lia List Bool.
From Coq Require Import ZifyBool ZifyNat.
From Verif Require Import Py S_flat M_axi S_axi P_axi P_axislave P_axiop P_axicomp M_axil S_axil P_axil
  M_liteeng S_liteeng P_liteeng M_sys S_sys P_sys P_syswr M_litesys S_litesys P_litesys P_litewr M_slowslv S_slowslv.
Import ListNotations.
Open Scope Z_scope.

(** the writes ops were made, with these results, up to the first that raised *)
Definition stopped (ops : list (Z * list Z)) (new : list call) : Prop :=
  exists rest, ops = map fst new ++ rest /\ (existsb failed new = false -> rest = []).
Lemma stopped_nil : stopped [] [].
Proof. exists []. auto. Qed.
Lemma stopped_calls L (HL : 0 < L) a w data new : to_bytes (lw_data w) L Little = Ok data ->
  stopped (sw_ops (la_addr a / L * L) data (lw_strb w) (zrange 0 L) 0 None) new -> lite_calls L true a w new.
Proof.
  intros Hd (rest & Hops & Hrest). rewrite div_mul_down in Hops by lia. set (word := down L (la_addr a)) in *.
  destruct (beat_ops L word (lw_wch w) data Hd ltac:(lia)) as (Hb & Ho). cbn zeta in Hb, Ho. cbn [lw_wch w_strb] in Hb, Ho. rewrite Hops in Hb, Ho. split.
  - exists (ops_bytes rest). rewrite <- ops_bytes_calls. split; [|intros HF; now rewrite (Hrest HF)].
    unfold ops_bytes in *. rewrite <- flat_map_app. symmetry. exact Hb.
  - apply Forall_app in Ho. destruct Ho as [Ho _]. rewrite Forall_map in Ho.
    eapply Forall_impl; [|exact Ho]. intros e (_ & H0 & _) Hnil. rewrite Hnil in H0. cbn in H0. lia.
Qed.

Section W.
Context {T : Type}.
Variable tw : T -> Z -> list Z -> T * res unit.
Variable L : Z.
Hypothesis HL : 0 < L.
Local Notation TL := (T * list call)%type.
Local Notation lw := (log_write tw).
Local Notation act := (lss_act lw).
Variable pk : (lwslow TL -> lwslow TL) -> Prop.
Hypothesis Hpk : forall f, pk f -> exists g, f = lss_poke (fun tl => (g (fst tl), snd tl)).
Local Notation trace := (strace lw_kind act (lss_in L true) pk).
Local Notation trace0 := (strace lw_kind act (lss_in L true) nopk).
Notation word := (lax * lwd)%type.
Local Notation fits := (fits L).
Local Notation lans := (lans L).

Definition Js (s : lwslow TL) : Prop := exists tl, s = LSIdle tl.
Definition slog (s : lwslow TL) : list call := snd (lss_target s).

(** a step of the task by itself *)
Lemma tau_step ops t log s1 : act (LSWr ops (t, log)) = ATau s1 ->
  (ops = [] /\ s1 = LSResp OKAY (t, log)) \/
  exists a d ops', ops = (a, d) :: ops' /\
    let '(t', r) := tw t a d in s1 = match r with Ok _ => ls_next ops' (t', log ++ [(a, d, r)]) | Err _ => LSResp SLVERR (t', log ++ [(a, d, r)]) end.
Proof.
  destruct ops as [|[a d] ops']; cbn [lss_act]; [intros H; injection H as <-; auto|]. unfold log_write. cbn [fst snd].
  intros H. right. exists a, d, ops'. split; [reflexivity|]. destruct (tw t a d) as [t' r]. destruct r; now injection H as <-.
Qed.
Lemma tau_wr s s1 : act s = ATau s1 -> exists ops t log, s = LSWr ops (t, log).
Proof. destruct s as [|? ?|ops [t log]| |]; try discriminate. eauto. Qed.

(** the calls that are still to be made fit in one bus word *)
Definition sok (s : lwslow TL) : Prop := match s with LSWr ops _ => exists wd, wd mod L = 0 /\ Forall (op_ok wd L) ops | _ => True end.
Lemma sok_next ops t wd : wd mod L = 0 -> Forall (op_ok wd L) ops -> sok (ls_next ops t).
Proof. intros H1 H2. destruct ops; cbn; eauto. Qed.
Lemma sok_in s e : sok s -> sok (lss_in L true s e).
Proof.
  intros H. destruct s as [t|a t|ops t|b t|t], e as [a'|w]; cbn [lss_in]; auto; try exact I.
  destruct (to_bytes (lw_data w) L Little) as [data|] eqn:Ed; [|exact I].
  destruct (beat_ops L (la_addr a / L * L) (lw_wch w) data Ed ltac:(lia)) as (_ & Ho). cbn zeta in Ho. cbn [lw_wch w_strb] in Ho.
  eapply sok_next; [|exact Ho]. apply Z.mod_mul. lia.
Qed.
Lemma slog_next ops t : slog (ls_next ops t) = snd t.
Proof. now destruct ops. Qed.
Lemma target_next {X} ops (t : X) : lss_target (ls_next ops t) = t.
Proof. now destruct ops. Qed.
Lemma in_log0 (s : lwslow TL) e : lss_target (lss_in L true s e) = lss_target s.
Proof.
  destruct s as [t|a t|ops t|b t|t], e as [a'|w]; cbn [lss_in]; auto.
  destruct (to_bytes (lw_data w) L Little); [apply target_next|reflexivity].
Qed.
Lemma poke_log f s : pk f -> slog (f s) = slog s.
Proof. intros Hf. destruct (Hpk f Hf) as [g ->]. now destruct s. Qed.
Lemma poke_sok f s : pk f -> sok s -> sok (f s).
Proof. intros Hf. destruct (Hpk f Hf) as [g ->]. now destruct s. Qed.
Lemma tau_log s s1 : act s = ATau s1 -> sok s ->
  exists new, slog s1 = slog s ++ new /\ Forall (call_ok L) new /\ sok s1 /\ replays tw (fst (lss_target s)) new (fst (lss_target s1)).
Proof.
  intros Ha Hs. destruct (tau_wr _ _ Ha) as (ops & t & log & ->). destruct (tau_step _ _ _ _ Ha) as [[-> ->]|(a & d & ops' & -> & E)].
  - exists []. cbn. rewrite app_nil_r. auto.
  - destruct (tw t a d) as [t' r] eqn:Et. destruct Hs as (wd & Hw & Ho). inversion Ho as [|? ? O1 O2]; subst. exists [(a, d, r)].
    assert (Hc : Forall (call_ok L) [(a, d, r)]).
    { apply (call_ok_of tw {| m_lanes := L; m_mbl := 0 |} wd ((a, d) :: ops') [(a, d, r)] ops' HL Hw Ho). reflexivity. }
    split; [destruct r; [apply slog_next|reflexivity]|]. split; [exact Hc|]. split; [destruct r; [eapply sok_next; eauto|exact I]|].
    cbn [replays lss_target fst]. rewrite Et. split; [reflexivity|]. cbn [fst]. destruct r; [now rewrite target_next|reflexivity].
Qed.
Lemma trace_log s es o s' : trace s es o s' -> sok s -> exists more, slog s' = slog s ++ more /\ Forall (call_ok L) more.
Proof.
  induction 1 as [s|s e es o s' Ha Ht IH|s r s1 es o s' Ha Ht IH|s s1 es o s' Ha Ht IH|s f es o s' Hf Ht IH]; intros Hs.
  - exists []. rewrite app_nil_r. auto.
  - destruct (IH (sok_in _ e Hs)) as (more & -> & Hm). exists more. unfold slog. rewrite in_log0. auto.
  - destruct s as [|? ?|[|[? ?] ?] ?| |]; try discriminate; [cbn in Ha; destruct (lw t z l) as [? []]; discriminate|]. injection Ha as -> <-. apply IH. exact I.
  - destruct (tau_log _ _ Ha Hs) as (new & E & H1 & H2 & _). destruct (IH H2) as (more & -> & Hm). exists (new ++ more). split; [now rewrite E, app_assoc|now apply Forall_app].
  - destruct (IH (poke_sok f s Hf Hs)) as (more & -> & Hm). exists more. rewrite (poke_log f s Hf). auto.
Qed.
Lemma trace_replays s es o s' : trace0 s es o s' -> sok s -> exists more, slog s' = slog s ++ more /\
  replays tw (fst (lss_target s)) more (fst (lss_target s')).
Proof.
  induction 1 as [s|s e es o s' Ha Ht IH|s r s1 es o s' Ha Ht IH|s s1 es o s' Ha Ht IH|s f es o s' [] Ht IH]; intros Hs.
  - exists []. rewrite app_nil_r. cbn. auto.
  - destruct (IH (sok_in _ e Hs)) as (more & -> & Hm). exists more. unfold slog. rewrite in_log0 in *. auto.
  - destruct s as [|? ?|[|[? ?] ?] ?| |]; try discriminate; [cbn in Ha; destruct (lw t z l) as [? []]; discriminate|]. injection Ha as -> <-. apply IH. exact I.
  - destruct (tau_log _ _ Ha Hs) as (new & E & H1 & H2 & H3). destruct (IH H2) as (more & -> & Hm). exists (new ++ more). split; [now rewrite E, app_assoc|eapply replays_app; eauto].
Qed.

(** ** where the task is: the transfers still to come *)
Definition sst_at (s : lwslow TL) (rem : list lev) : Prop :=
  match s with
  | LSIdle _ | LSWr _ _ | LSResp _ _ => exists ws, rem = levs ws /\ Forall fits ws
  | LSGot a _ => exists w ws, rem = LW w :: levs ws /\ Forall fits ((a, w) :: ws)
  | LSDead _ => False
  end.
Lemma at_next ops t ws : Forall fits ws -> sst_at (ls_next ops t) (levs ws).
Proof. destruct ops; cbn; eauto. Qed.
Lemma at_in s e rem : sst_at s (e :: rem) -> ready (R := resp_t) act s -> sst_at (lss_in L true s e) rem /\ act s = AWait (lw_kind e).
Proof.
  intros H [k Hk]. destruct s as [tl|a tl|ops [t log]|b tl|tl]; try discriminate; cbn [sst_at] in H.
  - destruct H as (ws & Hr & Hf). destruct ws as [|[a w] ws]; [discriminate|]. rewrite levs_cons in Hr. injection Hr as -> ->.
    cbn [lss_in sst_at fst snd]. split; [|reflexivity]. eauto.
  - destruct H as (w & ws & Hr & Hf). injection Hr as -> ->. inversion Hf as [|? ? F1 F2]; subst.
    cbn [lss_in]. destruct (to_bytes_fits (lw_data w) L Little ltac:(lia) F1) as (data & ->). split; [now apply at_next|reflexivity].
  - exfalso. destruct ops as [|[a d] ops]; [discriminate|]. cbn [lss_act] in Hk. destruct (lw (t, log) a d) as [? []]; discriminate.
Qed.
Lemma at_tau s s1 rem : act s = ATau s1 -> sst_at s rem -> sst_at s1 rem.
Proof.
  intros Ha H. destruct (tau_wr _ _ Ha) as (ops & t & log & ->). destruct H as (ws & -> & Hf).
  destruct (tau_step _ _ _ _ Ha) as [[-> ->]|(a & d & ops' & -> & E)]; [cbn; eauto|]. destruct (tw t a d) as [t' r]. subst s1. destruct r; [now apply at_next|cbn; eauto].
Qed.
Lemma at_poke f s rem : pk f -> sst_at s rem -> sst_at (f s) rem.
Proof. intros Hf. destruct (Hpk f Hf) as [g ->]. now destruct s. Qed.
Lemma emit_resp s r s1 : act s = AEmit r s1 -> exists tl, s = LSResp r tl /\ s1 = LSIdle tl.
Proof. destruct s as [|? ?|[|[? ?] ?] [? ?]| |]; try discriminate; [cbn; destruct (lw _ _ _) as [? []]; discriminate|]. intros H. injection H as -> <-. eauto. Qed.
Lemma wait_cases s k : act s = AWait k -> (exists tl, s = LSIdle tl) \/ exists a tl, s = LSGot a tl.
Proof. destruct s as [|? ?|[|[? ?] ?] [? ?]| |]; try discriminate; eauto. cbn. destruct (lw _ _ _) as [? []]; discriminate. Qed.
Lemma at_trace s es o sa : trace s es o sa -> forall more, sst_at s (es ++ more) -> sst_at sa more.
Proof.
  induction 1 as [s|s e es o s' Ha Ht IH|s r s1 es o s' Ha Ht IH|s s1 es o s' Ha Ht IH|s f es o s' Hf Ht IH]; intros more H; auto.
  - apply IH. apply at_in; auto. eexists; eauto.
  - apply IH. destruct (emit_resp _ _ _ Ha) as (tl & -> & ->). exact H.
  - apply IH. eapply at_tau; eauto.
  - apply IH. now apply at_poke.
Qed.
Lemma wr_go ops : forall t log, exists b tl, forall es o s', trace0 (LSResp b tl) es o s' -> trace0 (LSWr ops (t, log)) es o s'.
Proof.
  induction ops as [|[a d] ops IH]; intros t log.
  - exists OKAY, (t, log). intros es o s' H. eapply st_tau; [reflexivity|exact H].
  - destruct (tw t a d) as [t' r] eqn:Et.
    assert (Ha : act (LSWr ((a, d) :: ops) (t, log)) = ATau (match r with Ok _ => ls_next ops (t', log ++ [(a, d, r)]) | Err _ => LSResp SLVERR (t', log ++ [(a, d, r)]) end)).
    { cbn [lss_act]. unfold log_write. cbn [fst snd]. rewrite Et. now destruct r. }
    destruct r as [u|er].
    + destruct ops as [|x ops].
      * exists OKAY, (t', log ++ [(a, d, Ok u)]). intros es o s' H. eapply st_tau; [exact Ha|exact H].
      * destruct (IH t' (log ++ [(a, d, Ok u)])) as (b & tl & K). exists b, tl. intros es o s' H. eapply st_tau; [exact Ha|]. cbn [ls_next]. now apply K.
    + exists SLVERR, (t', log ++ [(a, d, Err er)]). intros es o s' H. eapply st_tau; [exact Ha|exact H].
Qed.
Lemma at_go rem : forall s, sst_at s rem -> exists rest s', trace0 s rem rest s' /\ Js s'.
Proof.
  assert (W : forall rm, (forall s, ready (R := resp_t) act s -> sst_at s rm -> exists rest s', trace0 s rm rest s' /\ Js s') ->
    forall s, sst_at s rm -> exists rest s', trace0 s rm rest s' /\ Js s').
  { intros rm K s H.
    assert (KR : forall b tl, sst_at (LSResp b tl) rm -> exists rest s', trace0 (LSResp b tl) rm rest s' /\ Js s').
    { intros b tl H1. destruct (K (LSIdle tl)) as (rest & s' & Ht & Hj); [now eexists|exact H1|]. exists (b :: rest), s'. split; auto. eapply st_emit; [reflexivity|auto]. }
    destruct s as [tl|a tl|ops [t log]|b tl|tl]; [apply K; [now eexists|exact H]|apply K; [now eexists|exact H]| |now apply KR|contradiction].
    destruct (wr_go ops t log) as (b & tl & Kw). destruct (KR b tl H) as (rest & s' & Ht & Hj). exists rest, s'. split; auto. }
  induction rem as [|e rem IH]; apply W; intros s Hr H.
  - destruct Hr as [k Hk]. destruct (wait_cases _ _ Hk) as [[tl ->]|(a & tl & ->)].
    + exists [], (LSIdle tl). split; [constructor|]. now exists tl.
    + destruct H as (w & ws & E & _). discriminate.
  - destruct (at_in s e rem H Hr) as [H1 H2]. destruct (IH _ H1) as (rest & s' & Ht & Hj). exists rest, s'. split; auto. now apply st_in.
Qed.

(** ** the calls of the target and the responses *)
Definition sfin (s : lwslow TL) (rem : list lev) (rs : list resp_t) (cs : list call) : Prop :=
  match s with
  | LSIdle _ => forall ws, rem = levs ws -> Forall fits ws -> lans ws rs cs
  | LSGot a _ => forall w ws, rem = LW w :: levs ws -> Forall fits ((a, w) :: ws) -> lans ((a, w) :: ws) rs cs
  | LSWr ops _ => forall ws, rem = levs ws -> Forall fits ws ->
      exists new rs' cs', stopped ops new /\ lans ws rs' cs' /\ rs = (if existsb failed new then SLVERR else OKAY) :: rs' /\ cs = new ++ cs'
  | LSResp b _ => forall ws, rem = levs ws -> Forall fits ws -> exists rs', lans ws rs' cs /\ rs = b :: rs'
  | LSDead _ => True
  end.
Lemma sfin_next ops t rem rs cs : sfin (ls_next ops t) rem rs cs -> sfin (LSWr ops t) rem rs cs.
Proof.
  destruct ops as [|x ops]; [|auto]. cbn [ls_next sfin]. intros H ws Hr Hf. destruct (H ws Hr Hf) as (rs' & H1 & ->). exists [], rs', cs. split; [apply stopped_nil|]. auto.
Qed.
Lemma sfin_trace s es o s' : trace s es o s' -> sok s -> Js s' -> exists new, slog s' = slog s ++ new /\ sfin s es o new.
Proof.
  induction 1 as [s|s e es o s' Ha Ht IH|s r s1 es o s' Ha Ht IH|s s1 es o s' Ha Ht IH|s f es o s' Hf Ht IH]; intros Hs Hj.
  - exists []. rewrite app_nil_r. split; auto. destruct Hj as [tl ->]. cbn [sfin]. intros [|p ws] Hr _; [|discriminate]. exists []. repeat split; constructor.
  - destruct (IH (sok_in _ e Hs) Hj) as (new & E & HF). clear IH. exists new. split; [rewrite E; unfold slog; now rewrite in_log0|].
    destruct (wait_cases _ _ Ha) as [[tl ->]|(a & tl & ->)]; cbn [sfin].
    + intros [|[a w] ws] Hr Hf; [discriminate|]. rewrite levs_cons in Hr. injection Hr as -> ->. cbn [lss_in sfin fst snd] in HF. now apply HF.
    + intros w ws Hr Hf. injection Hr as -> ->. inversion Hf as [|? ? F1 F2]; subst. cbn [lss_in] in HF.
      destruct (to_bytes_fits (lw_data w) L Little ltac:(lia) F1) as (data & Ed). rewrite Ed in HF. apply sfin_next in HF.
      destruct (HF ws eq_refl F2) as (nw & rs' & cs' & H1 & (ans & A1 & -> & ->) & -> & ->). exists (nw :: ans). split; [|split; reflexivity].
      constructor; [|exact A1]. cbn [fst snd]. eapply stopped_calls; eauto.
  - destruct (emit_resp _ _ _ Ha) as (tl & -> & ->). destruct (IH I Hj) as (new & E & HF). exists new. split; [exact E|].
    cbn [sfin] in *. intros ws Hr Hg. exists o. split; auto.
  - destruct (tau_log _ _ Ha Hs) as (n1 & E1 & _ & Hs1 & _). destruct (IH Hs1 Hj) as (new & E & HF). clear IH. exists (n1 ++ new). split; [rewrite E, E1, app_assoc; reflexivity|].
    destruct (tau_wr _ _ Ha) as (ops & t & log & ->). destruct (tau_step _ _ _ _ Ha) as [[-> ->]|(a & d & ops' & -> & Es)].
    + cbn in E1. assert (n1 = []) as -> by (apply (app_inv_head log); rewrite app_nil_r; auto). exact (sfin_next [] (t, log) es o new HF).
    + destruct (tw t a d) as [t' r] eqn:Et.
      assert (n1 = [(a, d, r)]) as -> by (apply (app_inv_head log); subst s1; destruct r; [rewrite slog_next in E1|]; auto).
      destruct r as [u|er]; subst s1.
      * apply sfin_next in HF. cbn [sfin] in *. intros ws Hr Hg. destruct (HF ws Hr Hg) as (nw & rs' & cs' & (rest & R1 & R2) & H2 & -> & ->).
        exists ((a, d, Ok u) :: nw), rs', cs'. split; [exists rest; cbn [map app fst existsb failed]; split; [now rewrite R1|exact R2]|]. auto.
      * cbn [sfin] in *. intros ws Hr Hg. destruct (HF ws Hr Hg) as (rs' & H2 & ->). exists [(a, d, Err er)], rs', new. split; [exists ops'; split; [reflexivity|discriminate]|]. auto.
  - destruct (IH (poke_sok f s Hf Hs) Hj) as (new & E & HF). exists new. rewrite E, (poke_log f s Hf). split; auto.
    destruct (Hpk f Hf) as [g ->]. now destruct s.
Qed.

(** ** the operation as a whole *)
Lemma op_served s o rs s' : Js s -> lite_write_legal o -> trace s (lite_w_sends L o) rs s' -> Js s' ->
  exists cs, slog s' = slog s ++ cs /\ lite_written L o (rs, cs) /\ length rs = lite_w_need L o.
Proof.
  intros [tl ->] Hok Ht Hj. destruct (sfin_trace _ _ _ _ Ht I Hj) as (cs & E & HF). exists cs. split; [exact E|].
  destruct (trace_log _ _ _ _ Ht I) as (cs' & E' & Hco). rewrite E in E'. apply app_inv_head in E'. subst cs'. clear E Ht.
  destruct (op_words tw L HL o Hok) as (ws & Hev & Hf & Hby & Hn). cbn [sfin] in HF. destruct (HF ws Hev Hf) as (ans & HA & -> & ->). clear HF.
  assert (Hlen : length ans = length ws) by (clear - HA; induction HA; cbn; congruence).
  split; [|rewrite map_length; congruence]. cbn [lite_written]. split; [|split; [exact Hco|]].
  - unfold lite_write_resp. rewrite agg_slv.
    + replace (existsb rerr _) with (existsb failed (concat ans)); [reflexivity|]. clear. induction ans as [|x ans IH]; [reflexivity|].
      cbn [concat map existsb]. rewrite existsb_app, IH. now destruct (existsb failed x).
    + clear. induction ans; cbn; constructor; auto. destruct (existsb failed a); auto.
  - rewrite <- Hby. clear - HA HL. induction HA as [|p x ws ans ((rest & Hs & Hr) & Hne) HA (I1 & I2 & I3)]; [split; [intros ? []|split; [reflexivity|apply spared_nil]]|].
    cbn [flat_map concat]. rewrite calls_bytes_app. destruct p as [a [d sb]]. cbn [fst snd lw_data lw_strb] in Hs, Hr |- *.
    split; [|split]; [| |apply spared_app; auto; eapply spared_word; eauto; exact (strobed_word L (la_addr a) (lw_wch {| lw_data := d; lw_strb := sb |}) HL)]; rewrite Hs.
    + apply incl_app; intros z Hz; rewrite !in_app_iff; auto.
    + rewrite existsb_app. intros Hf. apply orb_false_iff in Hf as [F1 F2]. rewrite (Hr F1), app_nil_r. f_equal. now apply I2.
Qed.
Lemma s_ext s o es more rs sa : Js s -> lite_write_legal o -> lite_w_sends L o = es ++ more -> trace s es rs sa ->
  exists rest s', trace0 sa more rest s' /\ Js s'.
Proof.
  intros [tl ->] Hok Hs Ht. apply at_go. eapply at_trace; [exact Ht|]. rewrite <- Hs. cbn [sst_at].
  destruct (op_words tw L HL o Hok) as (ws & Hev & Hf & _). eauto.
Qed.
Lemma in_not_J a tl w : ~ Js (lss_in L true (LSGot a tl) (LW w)).
Proof. intros [x Hx]. cbn [lss_in] in Hx. destruct (to_bytes _ _ _); [|discriminate]. unfold ls_next in Hx. destruct (sw_ops _ _ _ _ _ _); discriminate. Qed.
Lemma tau_not_J s s1 : act s = ATau s1 -> ~ Js s1.
Proof.
  intros Ha [x Hx]. destruct (tau_wr _ _ Ha) as (ops & t & log & ->). destruct (tau_step _ _ _ _ Ha) as [[-> ->]|(a & d & ops' & -> & E)]; [discriminate|].
  destruct (tw t a d) as [t' []]; subst s1; [|discriminate]. destruct ops'; discriminate.
Qed.
Lemma busy_emits s es o s' : trace0 s es o s' -> ~ Js s -> Js s' -> o <> [].
Proof.
  induction 1 as [s|s e es o s' Ha Ht IH|s r s1 es o s' Ha Ht IH|s s1 es o s' Ha Ht IH|s f es o s' [] Ht IH]; intros Hb Hj.
  - tauto.
  - apply IH; auto. destruct (wait_cases _ _ Ha) as [[tl ->]|(a & tl & ->)]; [destruct Hb; now exists tl|].
    destruct e; [exact Hb|]. apply in_not_J.
  - discriminate.
  - apply IH; auto. eapply tau_not_J; eauto.
Qed.
Lemma s_last o es e : lite_write_legal o -> lite_w_sends L o = es ++ [e] -> forall s rs s', trace0 s [e] rs s' -> Js s' -> rs <> [].
Proof.
  intros Hok Hs. assert (Hw : exists w, e = LW w).
  { destruct (op_words tw L HL o Hok) as (ws & Hev & _). rewrite Hev in Hs. destruct ws as [|p ws] using rev_ind; [destruct es; discriminate|].
    unfold levs in Hs. rewrite flat_map_app in Hs. cbn [flat_map app] in Hs.
    change (flat_map (fun p : word => [LAW (fst p); LW (snd p)]) ws ++ [LAW (fst p); LW (snd p)]) with
      (flat_map (fun p : word => [LAW (fst p); LW (snd p)]) ws ++ [LAW (fst p)] ++ [LW (snd p)]) in Hs.
    rewrite app_assoc in Hs. apply app_inj_tail in Hs as [_ <-]. eauto. }
  destruct Hw as [w ->]. intros s rs s' Ht Hj.
  remember [LW w] as es1 eqn:E1. revert E1. induction Ht as [s|s e es1 o1 s' Ha Ht IH|s r s1 es1 o1 s' Ha Ht IH|s s1 es1 o1 s' Ha Ht IH|s f es1 o1 s' [] Ht IH]; intros E1.
  - discriminate.
  - injection E1 as -> ->. eapply busy_emits; [exact Ht| |exact Hj]. destruct (wait_cases _ _ Ha) as [[tl ->]|(a & tl & ->)]; [discriminate|]. apply in_not_J.
  - discriminate.
  - now apply IH.
Qed.
Lemma s_tau s s' s'' : act s = ATau s' -> trace0 s' [] [] s'' -> ~ Js s''.
Proof. intros Ha Ht Hj. apply (busy_emits _ _ _ _ Ht); auto. eapply tau_not_J; eauto. Qed.

Local Notation otrl := (otr (fun o (_ : Z) => lite_w_sends L o) lw_kind act (lss_in L true) pk (fun o (_ : Z) => lite_write_legal o) Js).
Lemma otr_written s A rss s' : otrl s A rss s' -> exists ex, rss = map fst ex /\ Forall2 (lite_written L) (map fst A) ex /\
  slog s' = slog s ++ concat (map snd ex).
Proof.
  induction 1 as [s s' Hj Ht Hj'|s o u rs s1 A rss s2 Hj Hok Ht Hj1 Ho (ex & -> & HF & El)].
  - exists []. split; auto. split; [constructor|]. cbn [map concat]. destruct Hj as [tl ->]. destruct (sfin_trace _ _ _ _ Ht I Hj') as (new & E & F). rewrite E. f_equal.
    cbn [sfin] in F. destruct (F [] eq_refl (Forall_nil _)) as (ans & A1 & _ & ->). now inversion A1.
  - destruct (op_served _ _ _ _ Hj Hok Ht Hj1) as (cs & E & Hw & _).
    exists ((rs, cs) :: ex). split; auto. cbn [map concat snd fst]. split; [|rewrite El, E, app_assoc; reflexivity]. constructor; auto.
Qed.
Lemma trace_sok s es o s' : trace s es o s' -> sok s -> sok s'.
Proof.
  induction 1 as [s|s e es o s' Ha Ht IH|s r s1 es o s' Ha Ht IH|s s1 es o s' Ha Ht IH|s f es o s' Hf Ht IH]; intros Hs; auto.
  - apply IH. now apply sok_in.
  - destruct (emit_resp _ _ _ Ha) as (tl & -> & ->). now apply IH.
  - destruct (tau_log _ _ Ha Hs) as (_ & _ & _ & H & _). auto.
  - apply IH. now apply poke_sok.
Qed.

Variable t0 : T.
Local Notation step := (lssys_step L lw true).
Local Notation s0 := (LSIdle (t0, [])).

Theorem lssys_main h : Forall (upoke_ok pk) h -> let '(y, l) := lssys_run L lw true (t0, []) h in
  let A := started l in
  let log := slog (u_s y) in
  Forall lite_write_legal A ->
  exists ex es o more rest sN, trace s0 es o (u_s y) /\ trace0 (u_s y) more rest sN /\ slog sN = concat (map snd ex) /\
    Forall2 (lite_written L) A ex /\ is_prefix log (concat (map snd ex)) /\
    (exists k, (k <= length A)%nat /\ completed l = combine (firstn k A) (firstn k (map fst ex)) /\
       is_prefix (concat (map snd (firstn k ex))) log) /\
    (uquiescent step y -> log = concat (map snd ex) /\ g_pend (u_m y) = [] /\ completed l = combine A (map fst ex)).
Proof.
  intros Hh.
  assert (Hpk0 : forall f (s : lwslow TL) k, pk f -> act (f s) = AWait k <-> act s = AWait k).
  { intros f s k Hf. destruct (Hpk f Hf) as [g ->]. destruct s as [|? ?|[|[a d] ops] [t log]| |]; cbn [lss_poke fst snd]; try tauto; try (split; discriminate).
    cbn [lss_act]. destruct (lw _ a d) as [? []], (lw _ a d) as [? []]; split; discriminate. }
  assert (HJpk : forall f s, pk f -> Js (f s) <-> Js s).
  { intros f s Hf. destruct (Hpk f Hf) as [g ->]. unfold Js. destruct s; cbn; split; intros [tl E]; try discriminate; eexists; reflexivity. }
  assert (HJr : forall s, Js s -> ready (R := resp_t) act s) by (intros s [tl ->]; exists true; reflexivity).
  assert (Hsem : forall s o rs s', Js s -> lite_write_legal o -> trace s (lite_w_sends L o) rs s' -> Js s' -> length rs = lite_w_need L o).
  { intros s o rs s' J1 Hok Ht J2. destruct (op_served _ _ _ _ J1 Hok Ht J2) as (cs & _ & _ & Hn). exact Hn. }
  pose proof (sys_main (lite_w_sends L) (lite_w_need L) lw_kind act (lss_in L true) pk Hpk0 lite_write_legal Js HJr HJpk s_ext Hsem s_tau s_last
    s0 (ex_intro _ (t0, []) eq_refl) h Hh) as M.
  unfold lssys_run. destruct (u_run _ _ _ _ _ _ h) as [y l]. cbn zeta in *. intros HA. specialize (M HA).
  destruct M as (Hfl & B1 & r1 & sm & es' & o' & B2 & r2 & rest & sN & es & more & o & HO & (k & Hk & Hcomp) & Hq).
  pose proof HO as (K1 & K2 & K3 & K4 & K5 & K6 & K7 & K8 & K9 & K10).
  assert (Ht1 : trace s0 (sendsA (fun o (_ : Z) => lite_w_sends L o) B1) (concat r1) sm) by (eapply otr_strace; eauto).
  assert (Htr : trace s0 es o (u_s y)).
  { rewrite K4, K5. eapply strace_app; [|exact K6]. exact Ht1. }
  pose proof (trace_sok _ _ _ _ Ht1 I) as Hs1. pose proof (trace_sok _ _ _ _ Htr I) as Hs2.
  destruct (otr_written _ _ _ _ K2) as (ex1 & -> & HF1 & El1). destruct (otr_written _ _ _ _ K3) as (ex2 & -> & HF2 & El2).
  change (slog s0) with (@nil call) in El1. cbn [app] in El1.
  set (ex := ex1 ++ ex2).
  assert (HF : Forall2 (lite_written L) (started l) ex).
  { pose proof (Forall2_app HF1 HF2) as F. rewrite <- map_app, <- K1 in F. unfold tag0 in F. rewrite map_map in F. cbn [fst] in F. rewrite map_id in F. exact F. }
  assert (ElN : slog sN = concat (map snd ex)) by (rewrite El2, El1; unfold ex; rewrite map_app, concat_app; reflexivity).
  destruct (trace_log _ _ _ _ (strace_weaken _ _ _ pk _ _ _ _ K7) Hs2) as (lg & Hlg & _).
  destruct (trace_log _ _ _ _ K6 Hs1) as (lg1 & Hlg1 & _).
  rewrite <- map_app in Hcomp, Hq. fold ex in Hcomp, Hq.
  exists ex, es, o, more, rest, sN. split; [exact Htr|]. split; [exact K7|]. split; [exact ElN|]. split; [exact HF|].
  split; [exists lg; congruence|]. split.
  - exists k. assert (Hl1 : length ex1 = length B1) by (clear - HF1; rewrite <- (map_length fst B1); induction HF1; cbn; congruence).
    split; [|split; [exact Hcomp|]].
    + apply (f_equal (@length _)) in K1. rewrite app_length in K1. unfold tag0 in K1. rewrite map_length in K1. lia.
    + unfold ex. rewrite firstn_app. replace (k - length ex1)%nat with 0%nat by lia. cbn [firstn]. rewrite app_nil_r.
      exists (concat (map snd (skipn k ex1)) ++ lg1). rewrite Hlg1, El1. rewrite <- (firstn_skipn k ex1) at 1. rewrite map_app, concat_app, <- app_assoc. reflexivity.
  - intros Hqq. destruct (Hq Hqq) as (_ & _ & Hpe & HsN & Hall). split; [rewrite <- HsN; exact ElN|]. split; [exact Hpe|exact Hall].
Qed.
End W.

(** without changes by others *)
Theorem lssys_main0 {T} (tw : T -> Z -> list Z -> T * res unit) L t0 h : 0 < L -> Forall uno_poke h ->
  let '(y, l) := lssys_run L (log_write tw) true (t0, []) h in
  let A := started l in
  let '(t, log) := lss_target (u_s y) in
  Forall lite_write_legal A ->
  exists ex tN, Forall2 (lite_written L) A ex /\ is_prefix log (concat (map snd ex)) /\ replays tw t0 log t /\
    replays tw t0 (concat (map snd ex)) tN /\
    (exists k, (k <= length A)%nat /\ completed l = combine (firstn k A) (firstn k (map fst ex)) /\
       is_prefix (concat (map snd (firstn k ex))) log) /\
    (uquiescent (lssys_step L (log_write tw) true) y ->
       log = concat (map snd ex) /\ g_pend (u_m y) = [] /\ completed l = combine A (map fst ex)).
Proof.
  intros HL Hh. pose proof (lssys_main tw L HL nopk (fun f (H : nopk f) => match H with end) t0 h) as M.
  assert (Hp : Forall (upoke_ok (C := Z * lwcmd) nopk) h).
  { eapply Forall_impl; [|exact Hh]. intros [ | | | | | | | | | | | | ]; cbn; tauto. }
  specialize (M Hp). destruct (lssys_run _ _ _ _ h) as [y l]. cbv zeta in *. unfold slog in *.
  destruct (lss_target (u_s y)) as [t log] eqn:Et. intros HA.
  destruct (M HA) as (ex & es & o & more & rest & sN & T1 & T2 & EN & M3 & M4 & M5 & M6).
  pose proof (trace_sok tw L HL nopk (fun f (H : nopk f) => match H with end) _ _ _ _ T1 I) as Hs.
  destruct (trace_replays tw L HL _ _ _ _ T1 I) as (lg & Hlg & Hrep). unfold slog in Hlg. rewrite Et in Hlg, Hrep. cbn in Hlg, Hrep. subst lg.
  destruct (trace_replays tw L HL _ _ _ _ T2 Hs) as (lg & Hlg & Hrep2). unfold slog in Hlg. rewrite EN in Hlg.
  rewrite Et in Hlg, Hrep2. cbn [fst snd] in *. exists ex, (fst (lss_target sN)). split; auto. split; auto. split; auto. split; [rewrite Hlg; eapply replays_app; eauto|].
  auto.
Qed.
