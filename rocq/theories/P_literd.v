(** The AXI-Lite read system: the slave's read task and the operations of AxiLiteMasterRead as an instance of P_litesys.v. *)
From Coq Require Import ZArith Lia List Bool.
From Coq Require Import ZifyBool ZifyNat.
From Verif Require Import Py S_flat M_axi S_axi P_axi P_axislave P_axiop P_axiread P_axicomp M_axil S_axil P_axil
  M_liteeng S_liteeng P_liteeng M_sys S_sys P_sys P_syswr P_sysrd M_litesys S_litesys P_litesys.
Import ListNotations.
Open Scope Z_scope.

Lemma zrange_shift {B} (f : Z -> B) a lo hi : map (fun j => f (a + j)) (zrange lo hi) = map f (zrange (a + lo) (a + hi)).
Proof.
  unfold zrange. replace (a + hi - (a + lo)) with (hi - lo) by lia. generalize (Z.to_nat (hi - lo)) as m. intros m.
  revert lo. induction m as [|m IH]; intros lo; cbn [zseq map]; [reflexivity|]. f_equal. rewrite IH. do 2 f_equal. lia.
Qed.

(** ** the data of a read *)
Definition lanswer (e : rcall) : lrd :=
  {| lr_data := match snd e with Ok d => le_int d | Err _ => 0 end; lr_resp := if is_err (snd e) then SLVERR else OKAY |}.

Section Data.
Variables L A n prot : Z.
Hypothesis HL : 0 < L.
Hypothesis Hn : 0 <= n.
Local Notation C := (lite_cycles L A n).
Local Notation cmd := {| lr_addr := A; lr_len := n; lr_prot := prot |}.
Local Notation byte cs := (fun x => call_byte (znth no_call cs (x / L - A / L)) x).

Lemma beat_call e k : 0 <= k < C -> rcall_ok e -> fst e = (L * (A / L) + k * L, L) ->
  beat_bytes (lr_data (lanswer e)) (lite_start L A k) (lite_stop L A n C k) =
  map (fun x => call_byte e x) (zrange (A + lg_off L A k) (A + (lg_off L A k + (lite_stop L A n C k - lite_start L A k)))).
Proof.
  intros Hk He Hf. destruct (lg_cycle L A n HL Hn k Hk) as (H1 & H2 & H3 & H4 & H5 & H6 & H7 & H8 & H9 & _).
  unfold beat_bytes. set (w := L * (A / L) + k * L) in *.
  replace (A + lg_off L A k) with (w + lite_start L A k) by lia.
  replace (A + (lg_off L A k + (lite_stop L A n C k - lite_start L A k))) with (w + lite_stop L A n C k) by lia.
  rewrite <- zrange_shift. apply map_ext_in. intros j Hj. apply in_zrange in Hj. unfold call_byte, lanswer. cbn [lr_data].
  unfold rcall_ok in He. destruct (snd e) as [d|er]; [|now rewrite Z.shiftr_0_l]. rewrite le_int_shift by (tauto || lia). rewrite Hf. cbn [fst]. f_equal. lia.
Qed.

Lemma loop_data cs' : forall pre k data r0, Forall rcall_ok cs' -> zlen pre = k -> k + zlen cs' = C ->
  map fst cs' = map (fun j => (L * (A / L) + j * L, L)) (zrange k C) ->
  fst (lite_read_loop L cmd C k (map lanswer cs') data r0) =
  data ++ match cs' with [] => [] | _ => map (byte (pre ++ cs')) (zrange (A + lg_off L A k) (A + n)) end.
Proof.
  induction cs' as [|e cs' IH]; intros pre k data r0 Hok Hpre Hk Hf; [cbn; now rewrite app_nil_r|].
  inversion Hok as [|? ? He Hok']; subst. set (k := zlen pre) in *. pose proof (zlen_nonneg cs'). pose proof (zlen_nonneg pre).
  assert (Hlen : zlen (e :: cs') = zlen cs' + 1) by (unfold zlen; cbn [length]; lia).
  assert (Hkr : 0 <= k < C) by lia. rewrite zrange_cons in Hf by lia. cbn [map] in Hf. injection Hf as Hfe Hf'.
  destruct (lg_cycle L A n HL Hn k Hkr) as (H1 & H2 & H3 & H4 & H5 & H6 & H7 & H8 & H9 & _).
  cbn [map lite_read_loop lr_addr lr_len]. rewrite beat_call by auto.
  rewrite (IH (pre ++ [e])); auto; [|unfold zlen in *; rewrite app_length; cbn [length]; lia|lia].
  rewrite <- app_assoc. f_equal. rewrite <- app_assoc. cbn [app].
  set (m := lg_off L A k + (lite_stop L A n C k - lite_start L A k)) in *.
  rewrite (zrange_split (A + lg_off L A k) (A + m) (A + n)) by lia. rewrite map_app. f_equal.
  - apply map_ext_in. intros x Hx. apply in_zrange in Hx. f_equal.
    assert (Hq : x / L = A / L + k).
    { symmetry. apply (Z.div_unique_pos x L (A / L + k) (x - (L * (A / L) + k * L))); lia. }
    rewrite Hq. replace (A / L + k - A / L) with k by lia. unfold znth, k, zlen. rewrite Nat2Z.id, app_nth2, Nat.sub_diag by lia. reflexivity.
  - destruct cs' as [|e' cs']; [|].
    + rewrite zrange_empty; [reflexivity|]. assert (k = C - 1) by (unfold zlen in *; cbn [length] in *; lia). rewrite H6. replace (k =? C - 1) with true by lia. lia.
    + rewrite H6. replace (k =? C - 1) with false; [reflexivity|]. unfold zlen in *; cbn [length] in *; lia.
Qed.

Lemma resp_data cs : Forall rcall_ok cs -> map fst cs = map (fun j => (L * (A / L) + j * L, L)) (zrange 0 C) ->
  fst (lite_read_resp L cmd (map lanswer cs)) = map (byte cs) (zrange A (A + n)).
Proof.
  intros Hok Hf. unfold lite_read_resp. cbn [lr_addr lr_len]. pose proof (lg_facts L A n HL Hn) as (_ & _ & HC & HC0 & _).
  assert (Hl : zlen cs = C).
  { apply (f_equal (@length _)) in Hf. rewrite !map_length, zrange_length in Hf. unfold zlen. lia. }
  rewrite (loop_data cs [] 0) by (auto; cbn; lia). cbn [app]. destruct cs as [|e cs].
  - unfold zlen in Hl. cbn [length] in Hl. rewrite zrange_empty by lia. reflexivity.
  - unfold lg_off. cbn [Z.eqb]. now rewrite Z.add_0_r.
Qed.

Lemma read_words : map (fun k => (L * k, L)) (zrange (A / L) ((A + n + L - 1) / L)) = map (fun j => (L * (A / L) + j * L, L)) (zrange 0 C).
Proof.
  rewrite (map_ext (fun j => (L * (A / L) + j * L, L)) (fun j => (fun k => (L * k, L)) (A / L + j))) by (intros j; f_equal; lia).
  rewrite (zrange_shift (fun k => (L * k, L))). do 2 f_equal; [lia|]. unfold lite_cycles. rewrite <- Z.div_add_l by lia. f_equal. pose proof (Z.div_mod A L ltac:(lia)). lia.
Qed.
End Data.

Section R.
Context {T : Type}.
Variable tr : T -> Z -> Z -> T * res (list Z).
Variable L : Z.
Hypothesis HL : 0 < L.
Local Notation TL := (T * list rcall)%type.
Local Notation lr := (log_read tr).
(** others may change the target, not the log *)
Variable pk : (lrslv TL -> lrslv TL) -> Prop.
Hypothesis Hpk : forall f, pk f -> exists g, f = lrs_poke (fun tl => (g (fst tl), snd tl)).
Local Notation act := (lrs_act lr L).
Local Notation trace := (strace lr_kind (lrs_act lr L) lrs_in pk).
Local Notation trace0 := (strace lr_kind (lrs_act lr L) lrs_in nopk).

Definition Jlr (s : lrslv TL) : Prop := exists tl, s = LRIdle tl.
Definition lrlog (s : lrslv TL) : list rcall := snd (lrs_target s).

(** the task reads the word of the address *)
Lemma lread_step a t log : let w := down L (la_addr a) in let e := (w, L, snd (tr t w L)) in
  act (LRRead a (t, log)) = ATau (LRResp (lanswer e) (fst (tr t w L), log ++ [e])).
Proof.
  cbv zeta. cbn [lrs_act]. unfold lite_sr, log_read. cbn [fst snd]. rewrite div_mul_down by lia.
  destruct (tr t (down L (la_addr a)) L) as [t1 [d|er]]; unfold lanswer; cbn [fst snd is_err]; rewrite ?le_int_zeros; reflexivity.
Qed.

(** it can always go on *)
Lemma lr_go rem : forall s : lrslv TL, exists rest s', trace0 s rem rest s' /\ Jlr s'.
Proof.
  assert (K : forall tl : TL, forall rem, (forall e rem', rem = e :: rem' -> forall s, exists rest s', trace0 s rem' rest s' /\ Jlr s') ->
    exists rest s', trace0 (LRIdle tl) rem rest s' /\ Jlr s').
  { intros tl [|e rem'] IH; [exists [], (LRIdle tl); split; [constructor|now exists tl]|].
    destruct (IH e rem' eq_refl (LRRead e tl)) as (rest & s' & Ht & Hj). exists rest, s'. split; auto. now apply st_in. }
  assert (K2 : forall rem, (forall e rem', rem = e :: rem' -> forall s, exists rest s', trace0 s rem' rest s' /\ Jlr s') ->
    forall s, exists rest s', trace0 s rem rest s' /\ Jlr s').
  { intros rem0 IH [tl|a [t log]|r tl]; [now apply K| |].
    - pose proof (lread_step a t log) as Hs. cbv zeta in Hs.
      destruct (K (fst (tr t (down L (la_addr a)) L), log ++ [(down L (la_addr a), L, snd (tr t (down L (la_addr a)) L))]) rem0 IH) as (rest & s' & Ht & Hj).
      eexists (_ :: rest), s'. split; [|exact Hj]. eapply st_tau; [exact Hs|]. eapply st_emit; [reflexivity|exact Ht].
    - destruct (K tl rem0 IH) as (rest & s' & Ht & Hj). exists (r :: rest), s'. split; [|exact Hj]. eapply st_emit; [reflexivity|exact Ht]. }
  induction rem as [|e rem IH]; apply K2; [discriminate|]. intros ? ? [= <- <-]. exact IH.
Qed.

(** ** what it answers and calls *)
Definition lrans (es : list lax) (rs : list lrd) (cs : list rcall) : Prop :=
  map fst cs = map (fun a => (down L (la_addr a), L)) es /\ rs = map lanswer cs.
Definition lrfin (s : lrslv TL) (es : list lax) (rs : list lrd) (cs : list rcall) : Prop :=
  match s with
  | LRIdle _ => lrans es rs cs
  | LRRead a _ => lrans (a :: es) rs cs
  | LRResp r _ => exists rs', rs = r :: rs' /\ lrans es rs' cs
  end.

Lemma lrlog_poke f s : pk f -> lrlog (f s) = lrlog s.
Proof. intros Hf. destruct (Hpk f Hf) as [g ->]. now destruct s. Qed.
Lemma lr_target_in s e : lrs_target (T := TL) (lrs_in s e) = lrs_target s.
Proof. now destruct s. Qed.
Lemma lr_target_emit s r s1 : act s = AEmit r s1 -> lrs_target s1 = lrs_target s.
Proof.
  destruct s as [tl|a [t log]|r' tl]; [discriminate| |].
  - pose proof (lread_step a t log) as Hs. cbv zeta in Hs. rewrite Hs. discriminate.
  - intros H. now injection H as -> <-.
Qed.
Lemma lr_tau s s1 : act s = ATau s1 -> exists a t log, s = LRRead a (t, log) /\
  let w := down L (la_addr a) in let e := (w, L, snd (tr t w L)) in s1 = LRResp (lanswer e) (fst (tr t w L), log ++ [e]).
Proof.
  destruct s as [tl|a [t log]|r' tl]; try discriminate. pose proof (lread_step a t log) as Hs. cbv zeta in *. rewrite Hs. intros H. injection H as <-. eauto 6.
Qed.

Lemma lrfin_trace s es o s' : trace s es o s' -> Jlr s' -> exists new, lrlog s' = lrlog s ++ new /\ lrfin s es o new.
Proof.
  induction 1 as [s|s e es o s' Ha Ht IH|s r s1 es o s' Ha Ht IH|s s1 es o s' Ha Ht IH|s f es o s' Hf Ht IH]; intros Hj.
  - exists []. rewrite app_nil_r. split; auto. destruct Hj as [tl ->]. now split.
  - destruct (IH Hj) as (new & E & HF). exists new. unfold lrlog in *. rewrite lr_target_in in E. split; [exact E|].
    destruct s as [tl|a [t log]|r' tl]; [exact HF| |discriminate]. pose proof (lread_step a t log) as Hs. cbv zeta in Hs. rewrite Hs in Ha. discriminate.
  - destruct (IH Hj) as (new & E & HF). exists new. unfold lrlog in *. rewrite (lr_target_emit _ _ _ Ha) in E. split; [exact E|].
    destruct s as [tl|a [t log]|r' tl]; [discriminate| |].
    + pose proof (lread_step a t log) as Hs. cbv zeta in Hs. rewrite Hs in Ha. discriminate.
    + injection Ha as -> <-. exists o. auto.
  - destruct (IH Hj) as (new & E & HF). destruct (lr_tau _ _ Ha) as (a & t & log & -> & ->). cbv zeta in *.
    eexists (_ :: new). split; [rewrite E; unfold lrlog; cbn [lrs_target snd]; rewrite <- app_assoc; reflexivity|].
    cbn [lrfin] in *. destruct HF as (rs' & -> & H1 & ->). split; [|reflexivity]. cbn [map fst]. now rewrite H1.
  - destruct (IH Hj) as (new & E & HF). exists new. rewrite E, (lrlog_poke f s Hf). split; auto.
    destruct (Hpk f Hf) as [g ->]. now destruct s.
Qed.

Lemma op_lfetched s o rs s' : Jlr s -> lite_read_legal o -> trace s (lite_r_sends L o) rs s' -> Jlr s' ->
  exists cs, lrlog s' = lrlog s ++ cs /\ lite_fetched L o (rs, cs) /\ length rs = lite_r_need L o.
Proof.
  intros [tl ->] Hok Ht Hj. destruct (lrfin_trace _ _ _ _ Ht Hj) as (cs & E & HF). exists cs. split; [exact E|]. clear E Ht.
  cbn [lrfin] in HF. destruct HF as [Hc ->]. destruct o as [i [A n prot]]. unfold lite_read_legal, lite_r_sends, lite_r_need in *. cbn [snd lr_len lr_addr] in *.
  assert (Hw : map fst cs = map (fun j => (L * (A / L) + j * L, L)) (zrange 0 (lite_cycles L A n))).
  { rewrite Hc. unfold lite_read. cbn [lr_addr lr_len]. rewrite map_map. cbn [la_addr]. apply map_ext_in. intros j Hj'. apply in_zrange in Hj'.
    f_equal. apply (lg_cycle L A n HL Hok j Hj'). }
  split.
  - unfold lite_fetched. cbn [snd lr_addr lr_len]. split; [|split].
    + unfold lite_read_calls. cbn [lr_addr lr_len]. rewrite read_words by auto. exact Hw.
    + unfold lite_read_resp. rewrite lite_read_loop_resp, map_map. rewrite agg_slv.
      * replace (existsb rerr _) with (existsb rfailed cs); [reflexivity|]. clear. induction cs as [|e cs IH]; [reflexivity|].
        cbn [map existsb]. rewrite <- IH. unfold rfailed, lanswer. cbn [lr_resp]. now destruct (is_err (snd e)).
      * rewrite Forall_map. apply Forall_forall. intros e _. unfold lanswer. cbn [lr_resp]. destruct (is_err (snd e)); auto.
    + intros Hcok. now apply resp_data.
  - rewrite map_length. apply (f_equal (@length _)) in Hw. rewrite !map_length, zrange_length in Hw. lia.
Qed.

(** ** the log *)
Lemma lrtrace_log s es o s' : trace s es o s' -> exists more, lrlog s' = lrlog s ++ more.
Proof.
  unfold lrlog. induction 1 as [s|s e es o s' Ha Ht IH|s r s1 es o s' Ha Ht IH|s s1 es o s' Ha Ht IH|s f es o s' Hf Ht IH].
  - exists []. now rewrite app_nil_r.
  - now rewrite lr_target_in in IH.
  - now rewrite (lr_target_emit _ _ _ Ha) in IH.
  - destruct IH as (more & ->). destruct (lr_tau _ _ Ha) as (a & t & log & -> & ->). cbn [lrs_target snd]. eexists. rewrite <- app_assoc. reflexivity.
  - fold (lrlog (f s)) in IH. rewrite (lrlog_poke f s Hf) in IH. exact IH.
Qed.
Lemma lrtrace_replays s es o s' : trace0 s es o s' -> exists more, lrlog s' = lrlog s ++ more /\
  rreplays tr (fst (lrs_target s)) more (fst (lrs_target s')).
Proof.
  unfold lrlog. induction 1 as [s|s e es o s' Ha Ht IH|s r s1 es o s' Ha Ht IH|s s1 es o s' Ha Ht IH|s f es o s' [] Ht IH].
  - exists []. rewrite app_nil_r. split; reflexivity.
  - now rewrite lr_target_in in IH.
  - now rewrite (lr_target_emit _ _ _ Ha) in IH.
  - destruct IH as (more & -> & HR). destruct (lr_tau _ _ Ha) as (a & t & log & -> & ->). cbn [lrs_target fst snd] in *. eexists (_ :: more).
    split; [rewrite <- app_assoc; reflexivity|]. cbn [rreplays]. split; [reflexivity|exact HR].
Qed.

Lemma lr_busy_emits s es o s' : trace0 s es o s' -> es = [] -> ~ Jlr s -> Jlr s' -> o <> [].
Proof.
  induction 1 as [s|s e es o s' Ha Ht IH|s r s1 es o s' Ha Ht IH|s s1 es o s' Ha Ht IH|s f es o s' [] Ht IH]; intros He Hb Hj; try discriminate.
  - tauto.
  - apply IH; auto. destruct (lr_tau _ _ Ha) as (a & t & log & -> & ->). intros [tl E]. discriminate.
Qed.
Lemma lr_last o es e : lite_read_legal o -> lite_r_sends L o = es ++ [e] -> forall s rs s', trace0 s [e] rs s' -> Jlr s' -> rs <> [].
Proof.
  intros _ _ s rs s' H. remember [e] as l eqn:El. revert El.
  induction H as [s|s x xs o' s' Ha Ht IH|s r s1 xs o' s' Ha Ht IH|s s1 xs o' s' Ha Ht IH|s f xs o' s' [] Ht IH]; intros El Hj; try discriminate.
  - injection El as -> ->. eapply lr_busy_emits; [exact Ht|reflexivity| |exact Hj]. destruct s; cbn [lrs_in]; intros [? ?]; discriminate.
  - now apply IH.
Qed.

Local Notation otrr := (otr (fun o (_ : Z) => lite_r_sends L o) lr_kind (lrs_act lr L) lrs_in pk (fun o (_ : Z) => lite_read_legal o) Jlr).
Lemma otr_lfetched s A rss s' : otrr s A rss s' -> exists ex, rss = map fst ex /\ Forall2 (lite_fetched L) (map fst A) ex /\
  lrlog s' = lrlog s ++ concat (map snd ex).
Proof.
  induction 1 as [s s' Hj Ht Hj'|s o u rs s1 A rss s2 Hj Hok Ht Hj1 Ho (ex & -> & HF & El)].
  - exists []. split; auto. split; [constructor|]. cbn [map concat]. destruct (lrfin_trace _ _ _ _ Ht Hj') as (new & E & F). rewrite E. f_equal.
    destruct Hj as [tl ->]. destruct F as [F _]. now destruct new.
  - destruct (op_lfetched _ _ _ _ Hj Hok Ht Hj1) as (cs & E & Hw & _).
    exists ((rs, cs) :: ex). split; auto. cbn [map concat snd fst]. split; [|rewrite El, E, app_assoc; reflexivity]. constructor; auto.
Qed.

Variable t0 : T.
Local Notation step := (lrsys_step L lr).
Local Notation s0 := (LRIdle (t0, [])).

Theorem lrsys_main h : Forall (upoke_ok pk) h -> let '(y, l) := lrsys_run L lr (t0, []) h in
  let A := started l in
  let log := lrlog (u_s y) in
  Forall lite_read_legal A ->
  flushed l = [] /\
  exists ex es o more rest sN, trace s0 es o (u_s y) /\ trace0 (u_s y) more rest sN /\ lrlog sN = concat (map snd ex) /\
    Forall2 (lite_fetched L) A ex /\ is_prefix log (concat (map snd ex)) /\
    (exists k, (k <= length A)%nat /\ completed l = combine (firstn k A) (firstn k (map fst ex)) /\
       is_prefix (concat (map snd (firstn k ex))) log) /\
    (uquiescent step y -> log = concat (map snd ex) /\ g_pend (u_m y) = [] /\ completed l = combine A (map fst ex)).
Proof.
  intros Hh.
  assert (Htau : forall s s', act s = ATau s' -> exists r s'', act s' = AEmit r s'').
  { intros s s' Ha. destruct (lr_tau _ _ Ha) as (a & t & log & -> & ->). cbn [lrs_act]. eauto. }
  assert (Hpk0 : forall f (s : lrslv TL) k, pk f -> act (f s) = AWait k <-> act s = AWait k).
  { intros f s k Hf. destruct (Hpk f Hf) as [g ->]. destruct s as [tl|a [t log]|r tl]; cbn [lrs_poke]; try tauto; try (split; discriminate).
    pose proof (lread_step a t log) as Hs. pose proof (lread_step a (g t) log) as Hs2. cbv zeta in *. cbn [fst snd] in *. rewrite Hs, Hs2. split; discriminate. }
  assert (HJpk : forall f s, pk f -> Jlr (f s) <-> Jlr s).
  { intros f s Hf. destruct (Hpk f Hf) as [g ->]. unfold Jlr. destruct s; cbn; split; intros [tl E]; try discriminate; eexists; reflexivity. }
  assert (HJr : forall s, Jlr s -> ready act s) by (intros s [tl ->]; exists true; reflexivity).
  assert (Htau0 : forall s s' s'', act s = ATau s' -> trace0 s' [] [] s'' -> ~ Jlr s'') by (intros s s' s'' Ha; apply (tau_emit _ _ _ Jlr HJr); eauto).
  assert (Hsem : forall s o rs s', Jlr s -> lite_read_legal o -> trace s (lite_r_sends L o) rs s' -> Jlr s' -> length rs = lite_r_need L o).
  { intros s o rs s' J1 Hok Ht J2. destruct (op_lfetched _ _ _ _ J1 Hok Ht J2) as (cs & _ & _ & Hn). exact Hn. }
  assert (Hext : forall s o es more rs sa, Jlr s -> lite_read_legal o -> lite_r_sends L o = es ++ more -> trace s es rs sa ->
    exists rest s', trace0 sa more rest s' /\ Jlr s') by (intros; apply lr_go).
  pose proof (sys_main (lite_r_sends L) (lite_r_need L) lr_kind (lrs_act lr L) lrs_in pk Hpk0 lite_read_legal Jlr HJr HJpk Hext Hsem Htau0 lr_last
    s0 (ex_intro _ (t0, []) eq_refl) h Hh) as M.
  unfold lrsys_run. destruct (u_run _ _ _ _ _ _ h) as [y l]. cbn zeta in *. intros HA. specialize (M HA).
  destruct M as (Hfl & B1 & r1 & sm & es' & o' & B2 & r2 & rest & sN & es & more & o & HO & (k & Hk & Hcomp) & Hq).
  pose proof HO as (K1 & K2 & K3 & K4 & K5 & K6 & K7 & K8 & K9 & K10).
  split; [exact Hfl|].
  assert (Htr : trace s0 es o (u_s y)).
  { rewrite K4, K5. eapply strace_app; [|exact K6]. eapply otr_strace; eauto. }
  destruct (otr_lfetched _ _ _ _ K2) as (ex1 & -> & HF1 & El1). destruct (otr_lfetched _ _ _ _ K3) as (ex2 & -> & HF2 & El2).
  change (lrlog s0) with (@nil rcall) in El1. cbn [app] in El1.
  set (ex := ex1 ++ ex2).
  assert (HF : Forall2 (lite_fetched L) (started l) ex).
  { pose proof (Forall2_app HF1 HF2) as F. rewrite <- map_app, <- K1 in F. unfold tag0 in F. rewrite map_map in F. cbn [fst] in F. rewrite map_id in F. exact F. }
  assert (ElN : lrlog sN = concat (map snd ex)) by (rewrite El2, El1; unfold ex; rewrite map_app, concat_app; reflexivity).
  destruct (lrtrace_log _ _ _ _ (strace_weaken _ _ _ pk _ _ _ _ K7)) as (lg & Hlg).
  destruct (lrtrace_log _ _ _ _ K6) as (lg1 & Hlg1).
  rewrite <- map_app in Hcomp, Hq. fold ex in Hcomp, Hq.
  exists ex, es, o, more, rest, sN. split; [exact Htr|]. split; [exact K7|]. split; [exact ElN|]. split; [exact HF|].
  split; [exists lg; congruence|]. split.
  - exists k. assert (Hl1 : length ex1 = length B1) by (clear - HF1; rewrite <- (map_length fst B1); induction HF1; cbn; congruence).
    split; [|split; [exact Hcomp|]].
    + apply (f_equal (@length _)) in K1. rewrite app_length in K1. unfold tag0 in K1. rewrite map_length in K1. lia.
    + unfold ex. rewrite firstn_app. replace (k - length ex1)%nat with 0%nat by lia. cbn [firstn]. rewrite app_nil_r.
      exists (concat (map snd (skipn k ex1)) ++ lg1). rewrite Hlg1, El1. rewrite <- (firstn_skipn k ex1) at 1. rewrite map_app, concat_app, <- app_assoc. reflexivity.
  - intros Hqq. destruct (Hq Hqq) as (_ & _ & Hpe & HsN & Hall). split; [rewrite <- HsN; exact ElN|]. split; [exact Hpe|exact Hall].
Qed.
End R.

(** without changes by others *)
Theorem lrsys_main0 {T} (tr : T -> Z -> Z -> T * res (list Z)) L t0 h : 0 < L -> Forall uno_poke h ->
  let '(y, l) := lrsys_run L (log_read tr) (t0, []) h in
  let A := started l in
  let '(t, log) := lrs_target (u_s y) in
  Forall lite_read_legal A ->
  flushed l = [] /\
  exists ex tN, Forall2 (lite_fetched L) A ex /\ is_prefix log (concat (map snd ex)) /\ rreplays tr t0 log t /\
    rreplays tr t0 (concat (map snd ex)) tN /\
    (exists k, (k <= length A)%nat /\ completed l = combine (firstn k A) (firstn k (map fst ex)) /\
       is_prefix (concat (map snd (firstn k ex))) log) /\
    (uquiescent (lrsys_step L (log_read tr)) y ->
       log = concat (map snd ex) /\ g_pend (u_m y) = [] /\ completed l = combine A (map fst ex)).
Proof.
  intros HL Hh. pose proof (lrsys_main tr L HL nopk (fun f (H : nopk f) => match H with end) t0 h) as M.
  assert (Hp : Forall (upoke_ok (C := Z * lrcmd) nopk) h).
  { eapply Forall_impl; [|exact Hh]. intros [ | | | | | | | | | | | | ]; cbn; tauto. }
  specialize (M Hp). destruct (lrsys_run _ _ _ h) as [y l]. cbv zeta in *. unfold lrlog in *.
  destruct (lrs_target (u_s y)) as [t log] eqn:Et. intros HA.
  destruct (M HA) as (M1 & ex & es & o & more & rest & sN & T1 & T2 & EN & M3 & M4 & M5 & M6).
  split; auto.
  destruct (lrtrace_replays tr L HL _ _ _ _ T1) as (lg & Hlg & Hrep). unfold lrlog in Hlg. rewrite Et in Hlg, Hrep. cbn in Hlg, Hrep. subst lg.
  destruct (lrtrace_replays tr L HL _ _ _ _ T2) as (lg & Hlg & Hrep2). unfold lrlog in Hlg. rewrite EN in Hlg.
  rewrite Et in Hlg, Hrep2. cbn [fst snd] in *. exists ex, (fst (lrs_target sN)). split; auto. split; auto. split; auto. split; [rewrite Hlg; eapply rreplays_app; eauto|].
  auto.
Qed.
