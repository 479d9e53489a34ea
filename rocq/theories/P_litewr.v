(** The AXI-Lite write system: the slave's write task and the operations of AxiLiteMasterWrite as an instance of P_litesys.v. *)
From Coq Require Import ZArith Lia List Bool.
From Coq Require Import ZifyBool ZifyNat.
From Verif Require Import Py S_flat M_axi S_axi P_axi P_axislave P_axiop P_axicomp M_axil S_axil P_axil
  M_liteeng S_liteeng P_liteeng M_sys S_sys P_sys P_syswr M_litesys S_litesys P_litesys.
Import ListNotations.
Open Scope Z_scope.

Section W.
Context {T : Type}.
Variable tw : T -> Z -> list Z -> T * res unit.
Variable L : Z.
Hypothesis HL : 0 < L.
Local Notation TL := (T * list call)%type.
Local Notation lw := (log_write tw).
(** others may change the target, not the log *)
Variable pk : (lwslv TL -> lwslv TL) -> Prop.
Hypothesis Hpk : forall f, pk f -> exists g, f = lws_poke (fun tl => (g (fst tl), snd tl)).
Local Notation trace := (strace lw_kind lws_act (lws_in lw L true) pk).
Local Notation trace0 := (strace lw_kind lws_act (lws_in lw L true) nopk).

(** ** an operation as a list of words *)
Notation word := (lax * lwd)%type.
Definition levs (ws : list word) : list lev := flat_map (fun p => [LAW (fst p); LW (snd p)]) ws.
Definition fits (p : word) : Prop := 0 <= lw_data (snd p) < 256 ^ L.

Lemma op_words o : lite_write_legal o -> exists ws, lite_w_sends L o = levs ws /\ Forall fits ws /\
  flat_map (fun p => lite_strobed L (fst p) (snd p)) ws = addressed (lc_addr (snd o)) (lc_data (snd o)) /\
  length ws = lite_w_need L o.
Proof.
  destruct o as [n [A D prot]]. unfold lite_write_legal, lite_w_sends, lite_w_need. cbn [snd lc_addr lc_data]. intros HD.
  rewrite lite_write_spec by auto. cbn [fst]. set (C := lite_cycles L A (zlen D)).
  exists (map (fun j => (lw_a L A prot j, lw_w L A D j)) (zrange 0 C)).
  split; [unfold levs; rewrite flat_map_concat_map, (flat_map_concat_map _ (map _ _)), map_map; reflexivity|]. split; [|split].
  - rewrite Forall_map. apply Forall_forall. intros j Hj. apply in_zrange in Hj. unfold fits. cbn [snd]. apply lw_w_fits; auto.
  - rewrite <- (lite_bytes_spec L A prot D HL HD). unfold lite_bytes. rewrite combine_map. reflexivity.
  - rewrite map_length. pose proof (zlen_zrange 0 C). pose proof (lg_facts L A (zlen D) HL (zlen_nonneg D)) as (_ & _ & HC & _). fold C in HC.
    unfold zlen in *. lia.
Qed.

Definition Jl (s : lwslv TL) : Prop := exists tl, s = LWIdle tl.

(** ** where the task is: the transfers still to come *)
Definition lst (s : lwslv TL) (rem : list lev) : Prop :=
  match s with
  | LWIdle _ | LWResp _ _ => exists ws, rem = levs ws /\ Forall fits ws
  | LWGot a _ => exists w ws, rem = LW w :: levs ws /\ Forall fits ((a, w) :: ws)
  | LWDead _ => False
  end.
Definition lans (ws : list word) (rs : list resp_t) (cs : list call) : Prop :=
  exists ans, Forall2 (fun p x => lite_calls L true (fst p) (snd p) x) ws ans /\
    rs = map (fun x => if existsb failed x then SLVERR else OKAY) ans /\ cs = concat ans.
Definition lfin (s : lwslv TL) (rem : list lev) (rs : list resp_t) (cs : list call) : Prop :=
  match s with
  | LWIdle _ => forall ws, rem = levs ws -> Forall fits ws -> lans ws rs cs
  | LWGot a _ => forall w ws, rem = LW w :: levs ws -> Forall fits ((a, w) :: ws) -> lans ((a, w) :: ws) rs cs
  | LWResp b _ => forall ws, rem = levs ws -> Forall fits ws -> exists rs', lans ws rs' cs /\ rs = b :: rs'
  | LWDead _ => True
  end.

Lemma levs_cons p ws : levs (p :: ws) = LAW (fst p) :: LW (snd p) :: levs ws.
Proof. reflexivity. Qed.

Lemma lst_in s e rem : lst s (e :: rem) -> ready (R := resp_t) lws_act s ->
  lst (lws_in lw L true s e) rem /\ lws_act (T := TL) s = AWait (lw_kind e).
Proof.
  intros H [k Hk]. destruct s as [tl|a [t log]|b tl|tl]; try discriminate; cbn [lst] in H.
  - destruct H as (ws & Hr & Hf). destruct ws as [|[a w] ws]; [discriminate|]. rewrite levs_cons in Hr. injection Hr as -> ->.
    cbn [lws_in lst fst snd]. split; [|reflexivity]. eauto.
  - destruct H as (w & ws & Hr & Hf). injection Hr as -> ->. inversion Hf as [|? ? F1 F2]; subst.
    destruct (lite_sw_any tw L HL true a w t log F1) as (t' & new & E & _). cbn [lws_in]. rewrite E. split; [|reflexivity]. cbn [lst]. eauto.
Qed.
Lemma lst_poke f s rem : pk f -> lst s rem -> lst (f s) rem.
Proof. intros Hf. destruct (Hpk f Hf) as [g ->]. now destruct s. Qed.
Lemma lst_trace s es o sa : trace s es o sa -> forall more, lst s (es ++ more) -> lst sa more.
Proof.
  induction 1 as [s|s e es o s' Ha Ht IH|s r s1 es o s' Ha Ht IH|s s1 es o s' Ha Ht IH|s f es o s' Hf Ht IH]; intros more H; auto.
  - apply IH. apply lst_in; auto. eexists; eauto.
  - apply IH. destruct s; try discriminate. injection Ha as -> <-. exact H.
  - destruct s; discriminate.
  - apply IH. now apply lst_poke.
Qed.
Lemma lst_go rem : forall s, lst s rem -> exists rest s', trace0 s rem rest s' /\ Jl s'.
Proof.
  assert (K : forall rem s, ready (R := resp_t) lws_act s -> lst s rem ->
     (forall e rem', rem = e :: rem' -> forall s, lst s rem' -> exists rest s', trace0 s rem' rest s' /\ Jl s') ->
     exists rest s', trace0 s rem rest s' /\ Jl s').
  { intros [|e rem'] s Hr H IH.
    - destruct Hr as [k Hk]. destruct s as [tl|a tl| |]; try discriminate.
      + exists [], (LWIdle tl). split; [constructor|]. now exists tl.
      + cbn [lst] in H. destruct H as (w & ws & Hr & _). discriminate.
    - destruct (lst_in s e rem' H Hr) as [H1 H2]. destruct (IH e rem' eq_refl _ H1) as (rest & s' & Ht & Hj). exists rest, s'. split; auto. now apply st_in. }
  induction rem as [|e rem IH]; intros s H; destruct s as [tl|a tl|b tl|tl]; try contradiction.
  1, 2: apply K; auto; [now eexists|intros; discriminate].
  - destruct (K [] (LWIdle tl)) as (rest & s' & Ht & Hj); [now eexists|exact H|intros; discriminate|]. exists (b :: rest), s'. split; auto. eapply st_emit; [reflexivity|auto].
  - apply K; auto; [now eexists|]. intros ? ? [= <- <-]. exact IH.
  - apply K; auto; [now eexists|]. intros ? ? [= <- <-]. exact IH.
  - destruct (K (e :: rem) (LWIdle tl)) as (rest & s' & Ht & Hj); [now eexists|exact H| |].
    + intros ? ? [= <- <-]. exact IH.
    + exists (b :: rest), s'. split; auto. eapply st_emit; [reflexivity|auto].
Qed.

(** ** the calls of the target *)
Definition llog (s : lwslv TL) : list call := snd (lws_target s).
Lemma llog_poke f s : pk f -> llog (f s) = llog s.
Proof. intros Hf. destruct (Hpk f Hf) as [g ->]. now destruct s. Qed.

Lemma lsw_log a w t log : let '((t', log'), r) := lite_sw lw L true a w (t, log) in
  exists new, log' = log ++ new /\ Forall (call_ok L) new /\ replays tw t new t'.
Proof.
  unfold lite_sw. destruct (to_bytes _ _ _) as [data|e] eqn:Ed; [|exists []; rewrite app_nil_r; cbn; auto].
  cbv zeta.
  destruct (sw_perform_log tw (sw_ops (la_addr a / L * L) data (lw_strb w) (zrange 0 L) 0 None) t log) as (t' & new & rest & E & _ & Hops & _).
  pose proof (perform_replays tw _ t log t' new _ E) as Hr.
  destruct (beat_ops L (la_addr a / L * L) (lw_wch w) data Ed ltac:(lia)) as (_ & Ho). cbn zeta in Ho. cbn [lw_wch w_strb] in Ho.
  pose proof (call_ok_of tw {| m_lanes := L; m_mbl := 0 |} (la_addr a / L * L) _ new rest HL ltac:(apply Z.mod_mul; cbn [m_lanes]; lia) Ho Hops) as Hc.
  destruct (sw_perform lw (t, log) _) as [[t1 log1] r]. injection E as -> -> _. eauto.
Qed.
Lemma in_log s e : ready (R := resp_t) lws_act s ->
  exists new, llog (lws_in lw L true s e) = llog s ++ new /\ Forall (call_ok L) new /\
    replays tw (fst (lws_target s)) new (fst (lws_target (lws_in lw L true s e))).
Proof.
  intros [k Hk]. destruct s as [tl|a [t log]| |]; try discriminate; destruct e as [a'|w]; cbn [lws_in];
    try (exists []; rewrite app_nil_r; cbn; now auto).
  pose proof (lsw_log a w t log) as K. destruct (lite_sw lw L true a w (t, log)) as [[t1 l1] [b|er]];
    destruct K as (new & -> & K1 & K2); exists new; repeat split; auto.
Qed.
Lemma trace_log s es o s' : trace s es o s' -> exists more, llog s' = llog s ++ more /\ Forall (call_ok L) more.
Proof.
  induction 1 as [s|s e es o s' Ha Ht IH|s r s1 es o s' Ha Ht IH|s s1 es o s' Ha Ht IH|s f es o s' Hf Ht IH]; [| | |destruct s; discriminate|].
  - exists []. rewrite app_nil_r. auto.
  - destruct IH as (more & -> & Hm). destruct (in_log s e) as (new & -> & K1 & _); [eexists; eauto|].
    exists (new ++ more). split; [now rewrite app_assoc|now apply Forall_app].
  - destruct s; try discriminate. injection Ha as -> <-. auto.
  - destruct IH as (more & -> & Hm). exists more. rewrite (llog_poke f s Hf). auto.
Qed.
Lemma trace_replays s es o s' : trace0 s es o s' -> exists more, llog s' = llog s ++ more /\
  replays tw (fst (lws_target s)) more (fst (lws_target s')).
Proof.
  induction 1 as [s|s e es o s' Ha Ht IH|s r s1 es o s' Ha Ht IH|s s1 es o s' Ha Ht IH|s f es o s' Hf Ht IH]; [| | |destruct s; discriminate|destruct Hf].
  - exists []. rewrite app_nil_r. cbn. auto.
  - destruct IH as (more & -> & Hm). destruct (in_log s e) as (new & -> & K1 & K2); [eexists; eauto|].
    exists (new ++ more). split; [now rewrite app_assoc|eapply replays_app; eauto].
  - destruct s; try discriminate. injection Ha as -> <-. auto.
Qed.

Lemma lfin_trace s es o s' : trace s es o s' -> Jl s' -> exists new, llog s' = llog s ++ new /\ lfin s es o new.
Proof.
  induction 1 as [s|s e es o s' Ha Ht IH|s r s1 es o s' Ha Ht IH|s s1 es o s' Ha Ht IH|s f es o s' Hf Ht IH]; intros Hj.
  - exists []. rewrite app_nil_r. split; auto. destruct Hj as [tl ->]. cbn [lfin]. intros [|p ws] Hr _; [|discriminate]. exists []. repeat split; constructor.
  - destruct (IH Hj) as (new & E & HF). clear IH. destruct (in_log s e) as (n1 & E1 & _); [eexists; eauto|].
    exists (n1 ++ new). split; [rewrite E, E1, app_assoc; reflexivity|].
    destruct s as [tl|a [t log]| |]; try discriminate; cbn [lfin].
    + intros [|[a w] ws] Hr Hf; [discriminate|]. rewrite levs_cons in Hr. injection Hr as -> ->. cbn [lws_in lfin fst snd] in HF.
      assert (n1 = []) as -> by (apply (app_inv_head (snd tl)); rewrite app_nil_r; symmetry; exact E1). now apply HF.
    + intros w ws Hr Hf. injection Hr as -> ->. inversion Hf as [|? ? F1 F2]; subst.
      destruct (lite_sw_any tw L HL true a w t log F1) as (t' & n1' & Es & Hc). cbn [lws_in] in HF, E1. rewrite Es in HF, E1.
      assert (n1' = n1) as -> by (apply (app_inv_head log); exact E1). cbn [lfin] in HF.
      destruct (HF ws eq_refl F2) as (rs' & (ans & A1 & -> & ->) & ->). exists (n1 :: ans). split; [constructor; auto|]. split; reflexivity.
  - destruct (IH Hj) as (new & E & HF). destruct s; try discriminate. injection Ha as -> <-. exists new. split; [exact E|].
    cbn [lfin] in *. intros ws Hr Hg. exists o. split; auto.
  - destruct s; discriminate.
  - destruct (IH Hj) as (new & E & HF). exists new. rewrite E, (llog_poke f s Hf). split; auto.
    destruct (Hpk f Hf) as [g ->]. now destruct s.
Qed.

(** ** the operation as a whole *)
Lemma op_served s o rs s' : Jl s -> lite_write_legal o -> trace s (lite_w_sends L o) rs s' -> Jl s' ->
  exists cs, llog s' = llog s ++ cs /\ lite_written L o (rs, cs) /\ length rs = lite_w_need L o.
Proof.
  intros [tl ->] Hok Ht Hj. destruct (lfin_trace _ _ _ _ Ht Hj) as (cs & E & HF). exists cs. split; [exact E|].
  destruct (trace_log _ _ _ _ Ht) as (cs' & E' & Hco). rewrite E in E'. apply app_inv_head in E'. subst cs'. clear E Ht.
  destruct (op_words o Hok) as (ws & Hev & Hf & Hby & Hn). cbn [lfin] in HF. destruct (HF ws Hev Hf) as (ans & HA & -> & ->). clear HF.
  assert (Hlen : length ans = length ws) by (clear - HA; induction HA; cbn; congruence).
  split; [|rewrite map_length; congruence]. cbn [lite_written]. split; [|split; [exact Hco|]].
  - unfold lite_write_resp. rewrite agg_slv.
    + replace (existsb rerr _) with (existsb failed (concat ans)); [reflexivity|]. clear. induction ans as [|x ans IH]; [reflexivity|].
      cbn [concat map existsb]. rewrite existsb_app, IH. now destruct (existsb failed x).
    + clear. induction ans; cbn; constructor; auto. destruct (existsb failed a); auto.
  - rewrite <- Hby. clear - HA HL. induction HA as [|p x ws ans ((rest & Hs & Hr) & Hne) HA (I1 & I2 & I3)]; [split; [intros ? []|split; [reflexivity|apply spared_nil]]|].
    cbn [flat_map concat]. rewrite calls_bytes_app. destruct p as [a [d sb]]. cbn [fst snd lw_data lw_strb] in Hs, Hr |- *.
    split; [|split]; [| |apply spared_app; auto; eapply spared_word; eauto; exact (strobed_word L (la_addr a) (lw_wch {| lw_data := d; lw_strb := sb |}) HL)]; rewrite Hs.
    + apply incl_app; intros z Hz; rewrite !in_app_iff; auto.
    + rewrite existsb_app. intros Hf. apply orb_false_iff in Hf as [F1 F2]. rewrite (Hr F1), app_nil_r. f_equal. now apply I2.
Qed.

Lemma l_ext s o es more rs sa : Jl s -> lite_write_legal o -> lite_w_sends L o = es ++ more -> trace s es rs sa ->
  exists rest s', trace0 sa more rest s' /\ Jl s'.
Proof.
  intros [tl ->] Hok Hs Ht. apply lst_go. eapply lst_trace; [exact Ht|]. rewrite <- Hs. cbn [lst].
  destruct (op_words o Hok) as (ws & Hev & Hf & _). eauto.
Qed.

(** the task answers each word *)
Lemma busy_emits s es o s' : trace0 s es o s' -> ~ Jl s -> Jl s' -> o <> [].
Proof.
  induction 1 as [s|s e es o s' Ha Ht IH|s r s1 es o s' Ha Ht IH|s s1 es o s' Ha Ht IH|s f es o s' [] Ht IH]; intros Hb Hj.
  - tauto.
  - apply IH; auto. destruct s as [tl|a [t log]| |]; try discriminate; [destruct Hb; now exists tl|].
    destruct e; cbn [lws_in]; [exact Hb|]. destruct (lite_sw _ _ _ _ _ _) as [? [?|?]]; intros [? ?]; discriminate.
  - discriminate.
  - destruct s; discriminate.
Qed.
Lemma l_last o es e : lite_write_legal o -> lite_w_sends L o = es ++ [e] -> forall s rs s', trace0 s [e] rs s' -> Jl s' -> rs <> [].
Proof.
  intros Hok Hs. assert (Hw : exists w, e = LW w).
  { destruct (op_words o Hok) as (ws & Hev & _). rewrite Hev in Hs. destruct ws as [|p ws] using rev_ind; [destruct es; discriminate|].
    unfold levs in Hs. rewrite flat_map_app in Hs. cbn [flat_map app] in Hs.
    change (flat_map (fun p : word => [LAW (fst p); LW (snd p)]) ws ++ [LAW (fst p); LW (snd p)]) with
      (flat_map (fun p : word => [LAW (fst p); LW (snd p)]) ws ++ [LAW (fst p)] ++ [LW (snd p)]) in Hs.
    rewrite app_assoc in Hs. apply app_inj_tail in Hs as [_ <-]. eauto. }
  destruct Hw as [w ->]. intros s rs s' Ht Hj.
  remember [LW w] as es1 eqn:E1. revert E1. induction Ht as [s|s e es1 o1 s' Ha Ht IH|s r s1 es1 o1 s' Ha Ht IH|s s1 es1 o1 s' Ha Ht IH|s f es1 o1 s' [] Ht IH]; intros E1.
  - discriminate.
  - injection E1 as -> ->. eapply busy_emits; [exact Ht| |exact Hj]. destruct s as [tl|a tl| |]; try discriminate.
    cbn [lws_in]. destruct (lite_sw _ _ _ _ _ _) as [? [?|?]]; intros [? ?]; discriminate.
  - discriminate.
  - destruct s; discriminate.
Qed.

Local Notation otrl := (otr (fun o (_ : Z) => lite_w_sends L o) lw_kind lws_act (lws_in lw L true) pk (fun o (_ : Z) => lite_write_legal o) Jl).
Lemma otr_written s A rss s' : otrl s A rss s' -> exists ex, rss = map fst ex /\ Forall2 (lite_written L) (map fst A) ex /\
  llog s' = llog s ++ concat (map snd ex).
Proof.
  induction 1 as [s s' Hj Ht Hj'|s o u rs s1 A rss s2 Hj Hok Ht Hj1 Ho (ex & -> & HF & El)].
  - exists []. split; auto. split; [constructor|]. cbn [map concat]. destruct (lfin_trace _ _ _ _ Ht Hj') as (new & E & F). rewrite E. f_equal.
    destruct Hj as [tl ->]. cbn [lfin] in F. destruct (F [] eq_refl (Forall_nil _)) as (ans & A1 & _ & ->). now inversion A1.
  - destruct (op_served _ _ _ _ Hj Hok Ht Hj1) as (cs & E & Hw & _).
    exists ((rs, cs) :: ex). split; auto. cbn [map concat snd fst]. split; [|rewrite El, E, app_assoc; reflexivity]. constructor; auto.
Qed.

Variable t0 : T.
Local Notation step := (lwsys_step L lw true).
Local Notation s0 := (LWIdle (t0, [])).

Theorem lwsys_main h : Forall (upoke_ok pk) h -> let '(y, l) := lwsys_run L lw true (t0, []) h in
  let A := started l in
  let log := llog (u_s y) in
  Forall lite_write_legal A ->
  flushed l = [] /\
  exists ex es o more rest sN, trace s0 es o (u_s y) /\ trace0 (u_s y) more rest sN /\ llog sN = concat (map snd ex) /\
    Forall2 (lite_written L) A ex /\ is_prefix log (concat (map snd ex)) /\
    (exists k, (k <= length A)%nat /\ completed l = combine (firstn k A) (firstn k (map fst ex)) /\
       is_prefix (concat (map snd (firstn k ex))) log) /\
    (uquiescent step y -> log = concat (map snd ex) /\ g_pend (u_m y) = [] /\ completed l = combine A (map fst ex)).
Proof.
  intros Hh.
  assert (Hpk0 : forall f (s : lwslv TL) k, pk f -> lws_act (f s) = AWait k <-> lws_act s = AWait k).
  { intros f s k Hf. destruct (Hpk f Hf) as [g ->]. destruct s; cbn; try tauto. split; discriminate. }
  assert (HJpk : forall f s, pk f -> Jl (f s) <-> Jl s).
  { intros f s Hf. destruct (Hpk f Hf) as [g ->]. unfold Jl. destruct s; cbn; split; intros [tl E]; try discriminate; eexists; reflexivity. }
  assert (HJr : forall s, Jl s -> ready (R := resp_t) lws_act s) by (intros s [tl ->]; exists true; reflexivity).
  assert (Htau : forall s s' s'' : lwslv TL, lws_act s = ATau s' -> trace0 s' [] [] s'' -> ~ Jl s'') by (intros s s' s''; destruct s; discriminate).
  assert (Hsem : forall s o rs s', Jl s -> lite_write_legal o -> trace s (lite_w_sends L o) rs s' -> Jl s' -> length rs = lite_w_need L o).
  { intros s o rs s' J1 Hok Ht J2. destruct (op_served _ _ _ _ J1 Hok Ht J2) as (cs & _ & _ & Hn). exact Hn. }
  pose proof (sys_main (lite_w_sends L) (lite_w_need L) lw_kind lws_act (lws_in lw L true) pk Hpk0 lite_write_legal Jl HJr HJpk l_ext Hsem Htau l_last
    s0 (ex_intro _ (t0, []) eq_refl) h Hh) as M.
  unfold lwsys_run. destruct (u_run _ _ _ _ _ _ h) as [y l]. cbn zeta in *. intros HA. specialize (M HA).
  destruct M as (Hfl & B1 & r1 & sm & es' & o' & B2 & r2 & rest & sN & es & more & o & HO & (k & Hk & Hcomp) & Hq).
  pose proof HO as (K1 & K2 & K3 & K4 & K5 & K6 & K7 & K8 & K9 & K10).
  split; [exact Hfl|].
  assert (Htr : trace s0 es o (u_s y)).
  { rewrite K4, K5. eapply strace_app; [|exact K6]. eapply otr_strace; eauto. }
  destruct (otr_written _ _ _ _ K2) as (ex1 & -> & HF1 & El1). destruct (otr_written _ _ _ _ K3) as (ex2 & -> & HF2 & El2).
  change (llog s0) with (@nil call) in El1. cbn [app] in El1.
  set (ex := ex1 ++ ex2).
  assert (HF : Forall2 (lite_written L) (started l) ex).
  { pose proof (Forall2_app HF1 HF2) as F. rewrite <- map_app, <- K1 in F. unfold tag0 in F. rewrite map_map in F. cbn [fst] in F. rewrite map_id in F. exact F. }
  assert (ElN : llog sN = concat (map snd ex)) by (rewrite El2, El1; unfold ex; rewrite map_app, concat_app; reflexivity).
  destruct (trace_log _ _ _ _ (strace_weaken _ _ _ pk _ _ _ _ K7)) as (lg & Hlg & _).
  destruct (trace_log _ _ _ _ K6) as (lg1 & Hlg1 & _).
  rewrite <- map_app in Hcomp, Hq. fold ex in Hcomp, Hq.
  exists ex, es, o, more, rest, sN. split; [exact Htr|]. split; [exact K7|]. split; [exact ElN|]. split; [exact HF|].
  split; [exists lg; congruence|]. split.
  - exists k. assert (Hl1 : length ex1 = length B1) by (clear - HF1; rewrite <- (map_length fst B1); induction HF1; cbn; congruence).
    split; [|split; [exact Hcomp|]].
    + apply (f_equal (@length _)) in K1. rewrite app_length in K1. unfold tag0 in K1. rewrite map_length in K1. lia.
    + unfold ex. rewrite firstn_app. replace (k - length ex1)%nat with 0%nat by lia. cbn [firstn]. rewrite app_nil_r.
      exists (concat (map snd (skipn k ex1)) ++ lg1). rewrite Hlg1, El1. rewrite <- (firstn_skipn k ex1) at 1. rewrite map_app, concat_app, <- app_assoc. reflexivity.
  - intros Hqq. destruct (Hq Hqq) as (_ & _ & Hpe & HsN & Hall). split; [rewrite <- HsN; exact ElN|]. split; [exact Hpe|exact Hall].
Qed.
End W.

(** without changes by others *)
Theorem lwsys_main0 {T} (tw : T -> Z -> list Z -> T * res unit) L t0 h : 0 < L -> Forall uno_poke h ->
  let '(y, l) := lwsys_run L (log_write tw) true (t0, []) h in
  let A := started l in
  let '(t, log) := lws_target (u_s y) in
  Forall lite_write_legal A ->
  flushed l = [] /\
  exists ex tN, Forall2 (lite_written L) A ex /\ is_prefix log (concat (map snd ex)) /\ replays tw t0 log t /\
    replays tw t0 (concat (map snd ex)) tN /\
    (exists k, (k <= length A)%nat /\ completed l = combine (firstn k A) (firstn k (map fst ex)) /\
       is_prefix (concat (map snd (firstn k ex))) log) /\
    (uquiescent (lwsys_step L (log_write tw) true) y ->
       log = concat (map snd ex) /\ g_pend (u_m y) = [] /\ completed l = combine A (map fst ex)).
Proof.
  intros HL Hh. pose proof (lwsys_main tw L HL nopk (fun f (H : nopk f) => match H with end) t0 h) as M.
  assert (Hp : Forall (upoke_ok (C := Z * lwcmd) nopk) h).
  { eapply Forall_impl; [|exact Hh]. intros [ | | | | | | | | | | | | ]; cbn; tauto. }
  specialize (M Hp). destruct (lwsys_run _ _ _ _ h) as [y l]. cbv zeta in *. unfold llog in *.
  destruct (lws_target (u_s y)) as [t log] eqn:Et. intros HA.
  destruct (M HA) as (M1 & ex & es & o & more & rest & sN & T1 & T2 & EN & M3 & M4 & M5 & M6).
  split; auto.
  destruct (trace_replays tw L HL _ _ _ _ T1) as (lg & Hlg & Hrep). unfold llog in Hlg. rewrite Et in Hlg, Hrep. cbn in Hlg, Hrep. subst lg.
  destruct (trace_replays tw L HL _ _ _ _ T2) as (lg & Hlg & Hrep2). unfold llog in Hlg. rewrite EN in Hlg.
  rewrite Et in Hlg, Hrep2. cbn [fst snd] in *. exists ex, (fst (lws_target sN)). split; auto. split; auto. split; auto. split; [rewrite Hlg; eapply replays_app; eauto|].
  auto.
Qed.
