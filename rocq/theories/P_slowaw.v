(** AxiMasterWrite with an AxiSlaveWrite on a slow target, as an instance of P_sys.v. *)
From Coq Require Import ZArith Lia List Bool.
From Coq Require Import ZifyBool ZifyNat.
From Verif Require Import Py S_flat M_axi S_axi P_axi P_axislave P_axiop P_axicomp P_axiram
  M_liteeng M_axieng S_axieng P_axieng P_axiattr T_axieng M_sys S_sys P_sys P_syswr M_slowaxi S_slowaxi.
Import ListNotations.
Open Scope Z_scope.

(** the writes ops were made, with these results, up to the first that raised *)
Definition vstopped (ops : list (Z * list Z)) (new : list call) : Prop :=
  exists rest, ops = map fst new ++ rest /\ (existsb failed new = false -> rest = []).
Lemma vstopped_nil : vstopped [] [].
Proof. exists []. auto. Qed.
Lemma vstopped_beat L (HL : 0 < L) word w data new : to_bytes (w_data w) L Little = Ok data ->
  vstopped (sw_ops word data (w_strb w) (zrange 0 L) 0 None) new ->
  (exists rest, strobed L word w = calls_bytes new ++ rest /\ (existsb failed new = false -> rest = [])) /\ Forall (fun e => snd (fst e) <> []) new.
Proof.
  intros Hd (rest & Hops & Hrest). destruct (beat_ops L word w data Hd ltac:(lia)) as (Hb & Ho). cbn zeta in Hb, Ho. rewrite Hops in Hb, Ho. split.
  - exists (ops_bytes rest). rewrite <- ops_bytes_calls. split; [|intros HF; now rewrite (Hrest HF)].
    unfold ops_bytes in *. rewrite <- flat_map_app. symmetry. exact Hb.
  - apply Forall_app in Ho. destruct Ho as [Ho _]. rewrite Forall_map in Ho.
    eapply Forall_impl; [|exact Ho]. intros e (_ & H0 & _) Hnil. rewrite Hnil in H0. cbn in H0. lia.
Qed.

Section W.
Context {T : Type}.
Variable tw : T -> Z -> list Z -> T * res unit.
Variable c : mcfg.
Local Notation L := (m_lanes c).
Local Notation TL := (T * list call)%type.
Local Notation lw := (log_write tw).
Local Notation act := (vs_act lw).
Local Notation sin := (@vs_in TL L true).
(** others may change the target, not the log *)
Variable pk : (wslow TL -> wslow TL) -> Prop.
Hypothesis Hpk : forall f, pk f -> exists g, f = vs_poke (fun tl => (g (fst tl), snd tl)).
Local Notation trace := (strace w_opens act sin pk).
Local Notation trace0 := (strace w_opens act sin nopk).

Definition Jv (s : wslow TL) : Prop := exists tl, s = VIdle tl.
Definition vlog (s : wslow TL) : list call := snd (vs_target s).

(** the rest of a burst: ws the beats still to come *)
Definition vburst (a : axc) (n : Z) (ws : list wch) : Prop :=
  0 <= ax_size a /\ 0 <= ax_len a /\ (exists q, 0 < q /\ L = 2 ^ ax_size a * q) /\
  0 <= n /\ n + zlen ws = beats a /\ Forall (fun w => 0 <= w_data w < 256 ^ L) ws /\ (ws <> [] -> last_ok ws).

(** ** where the task is in an operation: the transfers still to come *)
Definition vst (s : wslow TL) (rem : list wev) : Prop :=
  match s with
  | VIdle _ => exists gen, rem = evs gen /\ Forall (wburst_ok L) gen
  | VBeat b _ => exists a n resp ws gen, b = sl_at a n resp /\ rem = map EvW ws ++ evs gen /\ Forall (wburst_ok L) gen /\ vburst a n ws /\ ws <> []
  | VWr ok b _ _ => exists a n resp ws gen, ok = true /\ b = sl_at a n resp /\ rem = map EvW ws ++ evs gen /\ Forall (wburst_ok L) gen /\ vburst a n ws
  | VResp _ _ => exists gen, rem = evs gen /\ Forall (wburst_ok L) gen
  | VDead _ => False
  end.
(** what it will have answered and called *)
Definition vfin (s : wslow TL) (rem : list wev) (rs : list bch) (cs : list call) : Prop :=
  match s with
  | VIdle _ => forall gen, rem = evs gen -> Forall (wburst_ok L) gen -> wans c gen rs cs
  | VBeat b _ => forall a n resp ws gen, b = sl_at a n resp -> rem = map EvW ws ++ evs gen -> Forall (wburst_ok L) gen -> vburst a n ws -> ws <> [] ->
      exists news rs' cs', logged L a n ws news /\ wans c gen rs' cs' /\ cs = concat news ++ cs' /\
        rs = {| b_id := ax_id a; b_resp := if existsb failed (concat news) then SLVERR else resp; b_user := 0 |} :: rs'
  | VWr ok b ops _ => forall a n resp ws gen, ok = true -> b = sl_at a n resp -> rem = map EvW ws ++ evs gen -> Forall (wburst_ok L) gen -> vburst a n ws ->
      exists new news rs' cs', vstopped ops new /\ logged L a n ws news /\ wans c gen rs' cs' /\ cs = new ++ concat news ++ cs' /\
        rs = {| b_id := ax_id a; b_resp := if existsb failed (new ++ concat news) then SLVERR else resp; b_user := 0 |} :: rs'
  | VResp b _ => forall gen, rem = evs gen -> Forall (wburst_ok L) gen -> exists rs', wans c gen rs' cs /\ rs = b :: rs'
  | VDead _ => True
  end.

Lemma set_resp_at a n r r' : set_resp r (sl_at a n r') = sl_at a n r.
Proof. reflexivity. Qed.
Lemma v_beats_at a n r ws (tl : TL) : vburst a n ws ->
  v_beats (sl_at a n r) tl = match ws with [] => VResp {| b_id := ax_id a; b_resp := r; b_user := 0 |} tl | _ => VBeat (sl_at a n r) tl end.
Proof.
  intros (_ & _ & _ & _ & Hlen & _). unfold v_beats. cbn [sl_at ss_left ss_id ss_resp]. destruct ws as [|w ws].
  - change (zlen (@nil wch)) with 0 in *. replace (0 <? beats a - n) with false by lia. reflexivity.
  - rewrite zlen_cons in *. pose proof (zlen_nonneg ws). replace (0 <? beats a - n) with true by lia. reflexivity.
Qed.
Lemma v_beats_target s (tl : TL) : vs_target (v_beats s tl) = tl.
Proof. unfold v_beats. now destruct (0 <? _). Qed.
Lemma v_done_target ok s (tl : TL) : vs_target (v_done ok s tl) = tl.
Proof. unfold v_done. destruct ok; [apply v_beats_target|reflexivity]. Qed.
Lemma v_next_target ok s ops (tl : TL) : vs_target (v_next ok s ops tl) = tl.
Proof. unfold v_next. destruct ops; [apply v_done_target|reflexivity]. Qed.

Lemma vst_done a n r ws gen (tl : TL) : vburst a n ws -> Forall (wburst_ok L) gen -> vst (v_done true (sl_at a n r) tl) (map EvW ws ++ evs gen).
Proof.
  intros Hb Hg. cbn [v_done]. rewrite (v_beats_at a n r ws tl Hb). destruct ws as [|w ws].
  - exists gen. auto.
  - exists a, n, r, (w :: ws), gen. repeat (split; [solve [auto]|]). discriminate.
Qed.
Lemma vst_next a n r ws gen ops (tl : TL) : vburst a n ws -> Forall (wburst_ok L) gen -> vst (v_next true (sl_at a n r) ops tl) (map EvW ws ++ evs gen).
Proof.
  intros Hb Hg. destruct ops as [|op ops]; [now apply vst_done|]. exists a, n, r, ws, gen. auto 6.
Qed.
Lemma vfin_done a n r ws gen (tl : TL) rs cs : vburst a n ws -> Forall (wburst_ok L) gen -> vfin (v_done true (sl_at a n r) tl) (map EvW ws ++ evs gen) rs cs ->
  exists news rs' cs', logged L a n ws news /\ wans c gen rs' cs' /\ cs = concat news ++ cs' /\
    rs = {| b_id := ax_id a; b_resp := if existsb failed (concat news) then SLVERR else r; b_user := 0 |} :: rs'.
Proof.
  intros Hb Hg. cbn [v_done]. rewrite (v_beats_at a n r ws tl Hb). destruct ws as [|w ws]; cbn [vfin].
  - intros HF. destruct (HF gen eq_refl Hg) as (rs' & H1 & ->). exists [], rs', cs. cbn. auto.
  - intros HF. apply (HF a n r (w :: ws) gen); auto. discriminate.
Qed.
Lemma vfin_next a n r ws gen ops (tl : TL) rs cs : vburst a n ws -> Forall (wburst_ok L) gen -> vfin (v_next true (sl_at a n r) ops tl) (map EvW ws ++ evs gen) rs cs ->
  exists new news rs' cs', vstopped ops new /\ logged L a n ws news /\ wans c gen rs' cs' /\ cs = new ++ concat news ++ cs' /\
    rs = {| b_id := ax_id a; b_resp := if existsb failed (new ++ concat news) then SLVERR else r; b_user := 0 |} :: rs'.
Proof.
  intros Hb Hg HF. destruct ops as [|op ops].
  - destruct (vfin_done a n r ws gen tl rs cs Hb Hg HF) as (news & rs' & cs' & H1 & H2 & H3 & H4). exists [], news, rs', cs'. split; [apply vstopped_nil|]. auto.
  - cbn [v_next vfin] in HF. apply (HF a n r ws gen); auto.
Qed.

(** one W transfer *)
Lemma vs_beat a n r w ws (tl : TL) : vburst a n (w :: ws) ->
  exists data, to_bytes (w_data w) L Little = Ok data /\ 0 < L /\ vburst a (n + 1) ws /\
    sin (VBeat (sl_at a n r) tl) (EvW w) =
      v_next true (sl_at a (n + 1) r) (sw_ops (down L (axi_beat_addr a n)) data (w_strb w) (zrange 0 L) 0 None) tl.
Proof.
  intros (H1 & H2 & (q & Hq & HLq) & Hn & Hlen & Hw & Hl). specialize (Hl ltac:(discriminate)). destruct (last_ok_split w ws Hl) as [Hl1 Hl2].
  inversion Hw as [|? ? Hw1 Hw2]; subst. rewrite zlen_cons in Hlen. pose proof (zlen_nonneg ws).
  assert (HLp : 0 < L) by (pose proof (Z.pow_pos_nonneg 2 (ax_size a) ltac:(lia) H1); nia).
  destruct (to_bytes_fits (w_data w) L Little ltac:(lia) Hw1) as (data & Hd). exists data. split; [exact Hd|]. split; [exact HLp|]. split.
  { repeat (split; [solve [auto; lia]|]). split; [eauto|]. split; [lia|]. split; [lia|]. auto. }
  cbn [vs_in]. rewrite Hd. replace (ss_cur (sl_at a n r) / L * L) with (down L (axi_beat_addr a n)).
  2:{ cbn [sl_at ss_cur]. rewrite div_mul_down by lia. symmetry. now apply (sl_word L q). }
  rewrite sl_next_spec by (auto; lia). cbn [sl_at ss_left ss_resp ss_id ss_nb ss_burst ss_lo ss_hi].
  replace (Bool.eqb (w_last w) (beats a - n =? 1)) with true.
  2:{ rewrite Hl1. destruct ws; [change (zlen (@nil wch)) with 0 in *; replace (beats a - n =? 1) with true by lia; reflexivity|].
      rewrite zlen_cons in *. pose proof (zlen_nonneg ws). replace (beats a - n =? 1) with false by lia. reflexivity. }
  unfold sl_at. replace (beats a - n - 1) with (beats a - (n + 1)) by lia. reflexivity.
Qed.
(** one AW transfer *)
Lemma vst_start a ws (tl : TL) : wburst_ok L (a, ws) -> sin (VIdle tl) (EvAW a) = VBeat (sl_at a 0 OKAY) tl /\ ws <> [] /\ vburst a 0 ws.
Proof.
  intros (H1 & H2 & H3 & H4 & H5 & H6 & H7). cbn [fst snd] in *. cbn [vs_in].
  destruct (sl_start_spec L a H1 H2) as [[_ E]|[Hc _]]; [|contradiction]. rewrite E. unfold v_beats. cbn [sl_at ss_left].
  assert (Hb : 1 <= beats a) by (unfold beats; lia). replace (0 <? beats a - 0) with true by lia. split; auto. split.
  - intros ->. change (zlen (@nil wch)) with 0 in H5. lia.
  - unfold vburst. rewrite Z.add_0_l. auto 10 using Z.le_refl.
Qed.

Lemma vst_in s e rem : vst s (e :: rem) -> ready (R := bch) act s -> vst (sin s e) rem /\ act s = AWait (w_opens e).
Proof.
  intros H [k Hk]. destruct s as [tl|b tl|ok b ops tl|b tl|tl]; try discriminate; cbn [vst] in H.
  - destruct H as (gen & Hr & Hg). destruct gen as [|[a ws] gen]; [discriminate|]. rewrite evs_cons in Hr. cbn [fst snd] in Hr. injection Hr as -> ->.
    inversion Hg as [|? ? Hb Hg']; subst. destruct (vst_start a ws tl Hb) as (-> & Hne & Hv). split; [|reflexivity].
    exists a, 0, OKAY, ws, gen. auto 10.
  - destruct H as (a & n & resp & ws & gen & -> & Hr & Hg & Hv & Hne).
    destruct ws as [|w ws]; [congruence|]. cbn [map app] in Hr. injection Hr as -> ->.
    destruct (vs_beat a n resp w ws tl Hv) as (data & _ & _ & Hv' & ->). split; [now apply vst_next|reflexivity].
  - cbn [vs_act] in Hk. destruct ops as [|[a d] ops]; [discriminate|]. destruct (lw tl a d) as [tl' []]; discriminate.
Qed.
Lemma vst_tau s s1 rem : act s = ATau s1 -> vst s rem -> vst s1 rem.
Proof.
  intros Ha H. destruct s as [tl|b tl|ok b ops tl|b tl|tl]; try discriminate. destruct H as (a & n & r & ws & gen & -> & -> & -> & Hg & Hv).
  cbn [vs_act] in Ha. destruct ops as [|[x d] ops].
  - injection Ha as <-. now apply vst_done.
  - destruct (lw tl x d) as [tl' [[]|er]]; injection Ha as <-; [now apply vst_next|]. rewrite set_resp_at. now apply vst_done.
Qed.
Lemma vst_poke f s rem : pk f -> vst s rem -> vst (f s) rem.
Proof. intros Hf. destruct (Hpk f Hf) as [g ->]. now destruct s. Qed.
Lemma vst_trace s es o sa : trace s es o sa -> forall more, vst s (es ++ more) -> vst sa more.
Proof.
  induction 1 as [s|s e es o s' Ha Ht IH|s r s1 es o s' Ha Ht IH|s s1 es o s' Ha Ht IH|s f es o s' Hf Ht IH]; intros more H; auto.
  - apply IH. apply vst_in; auto. eexists; eauto.
  - apply IH. destruct s as [tl|b tl|ok b ops tl|b tl|tl]; try discriminate.
    + cbn [vs_act] in Ha. destruct ops as [|[x d] ops]; [discriminate|]. destruct (lw tl x d) as [tl' []]; discriminate.
    + injection Ha as -> <-. exact H.
  - apply IH. eapply vst_tau; eauto.
  - apply IH. now apply vst_poke.
Qed.
(** the accesses of a beat end *)
Lemma v_access rem ok b ops : forall tl, vst (VWr ok b ops tl) rem ->
  exists s', trace0 (VWr ok b ops tl) [] [] s' /\ vst s' rem /\ (match s' with VBeat _ _ | VResp _ _ => True | _ => False end).
Proof.
  assert (K : forall tl b, vst (v_done true b tl) rem -> match v_done true b tl with VBeat _ _ | VResp _ _ => True | _ => False end).
  { intros tl b0 _. cbn [v_done]. unfold v_beats. destruct (0 <? _); exact I. }
  induction ops as [|[x d] ops IH]; intros tl H.
  - assert (Ha : act (VWr ok b [] tl) = ATau (v_done ok b tl)) by reflexivity. pose proof (vst_tau _ _ _ Ha H) as H'.
    destruct H as (a & n & r & ws & gen & -> & _). exists (v_done true b tl). split; [|split; [exact H'|now apply K]].
    eapply st_tau; [exact Ha|constructor].
  - assert (Hok : ok = true) by (destruct H as (a & n & r & ws & gen & -> & _); reflexivity). subst ok.
    destruct (lw tl x d) as [tl' [u|er]] eqn:E.
    + assert (Ha : act (VWr true b ((x, d) :: ops) tl) = ATau (v_next true b ops tl')) by (cbn [vs_act]; now rewrite E).
      pose proof (vst_tau _ _ _ Ha H) as H'. destruct ops as [|op ops].
      * exists (v_done true b tl'). split; [eapply st_tau; [exact Ha|constructor]|]. split; [exact H'|now apply K].
      * destruct (IH tl' H') as (s' & K1 & K2). exists s'. split; [|exact K2]. eapply st_tau; [exact Ha|exact K1].
    + assert (Ha : act (VWr true b ((x, d) :: ops) tl) = ATau (v_done true (set_resp SLVERR b) tl')) by (cbn [vs_act]; now rewrite E).
      pose proof (vst_tau _ _ _ Ha H) as H'. exists (v_done true (set_resp SLVERR b) tl').
      split; [eapply st_tau; [exact Ha|constructor]|]. split; [exact H'|now apply K].
Qed.
Lemma vst_go rem : forall s, vst s rem -> exists rest s', trace0 s rem rest s' /\ Jv s'.
Proof.
  assert (K : forall rem s, ready (R := bch) act s -> vst s rem -> (forall e rem', rem = e :: rem' -> forall s, vst s rem' -> exists rest s', trace0 s rem' rest s' /\ Jv s') ->
     exists rest s', trace0 s rem rest s' /\ Jv s').
  { clear rem. intros [|e rem'] s Hr H IH.
    - destruct s as [tl|b tl|ok b ops tl|b tl|tl].
      + exists [], (VIdle tl). split; [constructor|]. now exists tl.
      + cbn [vst] in H. destruct H as (a & n & resp & ws & gen & -> & Hr' & _ & _ & Hne). destruct ws; [congruence|discriminate].
      + destruct Hr as [k Hk]. cbn [vs_act] in Hk. destruct ops as [|[x d] ops]; [discriminate|]. destruct (lw tl x d) as [tl' []]; discriminate.
      + destruct Hr as [k Hk]. discriminate.
      + destruct Hr as [k Hk]. discriminate.
    - destruct (vst_in s e rem' H Hr) as [H1 H2]. destruct (IH e rem' eq_refl _ H1) as (rest & s' & Ht & Hj). exists rest, s'. split; auto. now apply st_in. }
  assert (K2 : forall rem s, vst s rem -> (forall e rem', rem = e :: rem' -> forall s, vst s rem' -> exists rest s', trace0 s rem' rest s' /\ Jv s') ->
     match s with VWr _ _ _ _ => False | _ => True end -> exists rest s', trace0 s rem rest s' /\ Jv s').
  { clear rem. intros rem s H IH Hs. destruct s as [tl|b tl|ok b ops tl|b tl|tl]; try contradiction.
    - apply K; auto. now eexists.
    - apply K; auto. now eexists.
    - destruct (K rem (VIdle tl)) as (rest & s' & Ht & Hj); [now eexists|exact H|exact IH|]. exists (b :: rest), s'. split; auto. eapply st_emit; [reflexivity|auto]. }
  assert (K3 : forall rem s, vst s rem -> (forall e rem', rem = e :: rem' -> forall s, vst s rem' -> exists rest s', trace0 s rem' rest s' /\ Jv s') ->
     exists rest s', trace0 s rem rest s' /\ Jv s').
  { clear rem. intros rem s H IH. destruct s as [tl|b tl|ok b ops tl|b tl|tl]; try (apply K2; auto; exact I).
    destruct (v_access rem ok b ops tl H) as (s1 & H1 & H2 & H3). destruct (K2 rem s1 H2 IH) as (rest & s' & Ht & Hj); [destruct s1; auto|].
    exists rest, s'. split; auto. change rem with ([] ++ rem). change rest with ([] ++ rest). eapply strace_app; eauto. }
  induction rem as [|e rem IH]; intros s H; apply K3; auto; [intros; discriminate|]. intros ? ? [= <- <-]. exact IH.
Qed.

Lemma vlog_poke f s : pk f -> vlog (f s) = vlog s.
Proof. intros Hf. destruct (Hpk f Hf) as [g ->]. now destruct s. Qed.

(** an access: the call is logged *)
Lemma lw_log (tl : TL) x d : lw tl x d = ((fst (tw (fst tl) x d), snd tl ++ [(x, d, snd (tw (fst tl) x d))]), snd (tw (fst tl) x d)).
Proof. unfold log_write. destruct tl as [t log]. cbn [fst snd]. now destruct (tw t x d). Qed.

Lemma vfin_trace s es o s' : trace s es o s' -> Jv s' -> exists new, vlog s' = vlog s ++ new /\ vfin s es o new.
Proof.
  induction 1 as [s|s e es o s' Ha Ht IH|s r s1 es o s' Ha Ht IH|s s1 es o s' Ha Ht IH|s f es o s' Hf Ht IH]; intros Hj.
  - exists []. rewrite app_nil_r. split; auto. destruct Hj as [tl ->]. cbn [vfin]. intros gen Hr _. destruct gen; [apply wans_nil|discriminate].
  - destruct (IH Hj) as (new & E & HF). clear IH. destruct s as [tl|b tl|ok b ops tl|b tl|tl]; try discriminate; cbn [vfin].
    + exists new. assert (Hx : vlog (sin (VIdle tl) e) = snd tl).
      { cbn [vs_in]. destruct e as [a|]; [|reflexivity]. destruct (sl_start L a); [|reflexivity]. unfold vlog. now rewrite v_beats_target. }
      split; [rewrite E, Hx; reflexivity|].
      intros [|[a ws] gen] Hr Hg; [discriminate|]. rewrite evs_cons in Hr. cbn [fst snd] in Hr. injection Hr as -> ->.
      inversion Hg as [|? ? Hb Hg']; subst. destruct (vst_start a ws tl Hb) as (Es & Hne & Hv). rewrite Es in HF. cbn [vfin] in HF.
      destruct (HF a 0 OKAY ws gen eq_refl eq_refl Hg' Hv Hne) as (news & rs' & cs' & G1 & (ans & G2 & -> & ->) & -> & ->).
      eexists ((news, _) :: ans). split; [constructor; [|exact G2]|split; reflexivity]. split; [cbn [fst snd]; now rewrite eff_w_true|reflexivity].
    + destruct e as [a|w]; [discriminate|]. exists new.
      assert (Hx : vlog (sin (VBeat b tl) (EvW w)) = snd tl).
      { cbn [vs_in]. destruct (to_bytes _ _ _); [|reflexivity]. unfold vlog. now rewrite v_next_target. }
      split; [rewrite E, Hx; reflexivity|].
      intros a n resp ws gen -> Hr Hg Hv Hne. destruct ws as [|w0 ws]; [congruence|]. cbn [map app] in Hr. injection Hr as <- ->.
      destruct (vs_beat a n resp w ws tl Hv) as (data & Hd & HLp & Hv' & Es). rewrite Es in HF.
      destruct (vfin_next a (n + 1) resp ws gen _ tl _ _ Hv' Hg HF) as (n1 & news & rs' & cs' & G0 & G1 & G2 & -> & ->).
      destruct (vstopped_beat L HLp _ w data n1 Hd G0) as [B1 B2].
      exists (n1 :: news), rs', cs'. split; [cbn [logged]; auto|]. split; [exact G2|]. cbn [concat]. split; [now rewrite app_assoc|reflexivity].
    + cbn [vs_act] in Ha. destruct ops as [|[x d] ops]; [discriminate|]. destruct (lw tl x d) as [tl' []]; discriminate.
  - destruct (IH Hj) as (new & E & HF). destruct s as [tl|b tl|ok b ops tl|b tl|tl]; try discriminate.
    { cbn [vs_act] in Ha. destruct ops as [|[x d] ops]; [discriminate|]. destruct (lw tl x d) as [tl' []]; discriminate. }
    injection Ha as -> <-. exists new. split; [exact E|]. cbn [vfin] in *. intros gen Hr Hg. exists o. split; auto.
  - destruct (IH Hj) as (new & E & HF). destruct s as [tl|b tl|ok b ops tl|b tl|tl]; try discriminate. cbn [vs_act] in Ha.
    destruct ops as [|[x d] ops].
    + injection Ha as <-. unfold vlog in E at 2. rewrite v_done_target in E. exists new. split; [exact E|]. cbn [vfin].
      intros a n r ws gen -> -> -> Hg Hv. destruct (vfin_done a n r ws gen tl _ _ Hv Hg HF) as (news & rs' & cs' & G1 & G2 & G3 & G4).
      exists [], news, rs', cs'. split; [apply vstopped_nil|]. auto.
    + rewrite lw_log in Ha. destruct (snd (tw (fst tl) x d)) as [[]|er] eqn:Er; injection Ha as <-; unfold vlog in E at 2.
      * rewrite v_next_target in E. exists ((x, d, Ok tt) :: new). split; [rewrite E; cbn [snd]; unfold vlog; cbn [vs_target]; now rewrite <- app_assoc|].
        cbn [vfin]. intros a n r ws gen -> -> -> Hg Hv. destruct (vfin_next a n r ws gen ops _ _ _ Hv Hg HF) as (n1 & news & rs' & cs' & (rest & G01 & G02) & G1 & G2 & -> & ->).
        exists ((x, d, Ok tt) :: n1), news, rs', cs'. split; [exists rest; cbn [map fst app]; rewrite G01; split; [reflexivity|exact G02]|]. split; [exact G1|]. split; [exact G2|]. split; reflexivity.
      * rewrite v_done_target in E. exists ((x, d, Err er) :: new). split; [rewrite E; cbn [snd]; unfold vlog; cbn [vs_target]; now rewrite <- app_assoc|].
        cbn [vfin]. intros a n r ws gen -> -> -> Hg Hv. rewrite set_resp_at in HF. destruct (vfin_done a n SLVERR ws gen _ _ _ Hv Hg HF) as (news & rs' & cs' & G1 & G2 & -> & ->).
        exists [(x, d, Err er)], news, rs', cs'. split; [exists ops; split; [reflexivity|discriminate]|]. split; [exact G1|]. split; [exact G2|]. split; [reflexivity|].
        cbn [app existsb failed snd is_err orb]. destruct (existsb failed (concat news)); reflexivity.
  - destruct (IH Hj) as (new & E & HF). exists new. rewrite E, (vlog_poke f s Hf). split; auto.
    destruct (Hpk f Hf) as [g ->]. now destruct s.
Qed.

(** ** the operation as a whole *)
Lemma v_served s o u rs s' : Jv s -> okw c o u -> trace s (w_sends c o u) rs s' -> Jv s' ->
  exists cs, vlog s' = vlog s ++ cs /\ servedw c o u rs cs.
Proof.
  intros [tl ->] Hok Ht Hj. destruct (vfin_trace _ _ _ _ Ht Hj) as (cs & E & HF). exists cs. split; [exact E|]. clear E Ht.
  destruct (op_gen tw c o u Hok) as (gen & Hev & Hb & Hid & Hby & HL). cbn [vfin] in HF. destruct (HF gen Hev Hb) as (ans & HA & -> & ->). clear HF. rename HA into HF.
  assert (Hlen : length ans = length gen) by (clear - HF; induction HF; cbn; congruence).
  set (cs := flat_map (fun x => concat (fst x)) ans) in *.
  unfold servedw. rewrite Hev. change (evs gen) with (flat_map (fun b => EvAW (fst b) :: map EvW (snd b)) gen). rewrite (aw_of_gen), !map_length.
  split; [|split; [exact Hlen|split; [|split; [|split]]]].
  - clear - HF Hid. induction HF as [|b x gen ans Hx HF IH]; cbn; constructor; inversion Hid; subst.
    + destruct Hx as [_ ->]. reflexivity. + auto.
  - exists (map b_user (map snd ans)).
    pose proof (mw_resp_spec (bursts_of (map fst gen)) (map snd ans) [] OKAY []) as HR. rewrite app_nil_r in HR.
    rewrite HR by (unfold bursts_of; now rewrite !map_length). cbn [app]. do 3 f_equal.
    assert (H1 : Forall (fun b => b = OKAY \/ b = SLVERR) (map b_resp (map snd ans)) /\
                 existsb rerr (map b_resp (map snd ans)) = existsb failed cs).
    { subst cs. clear - HF. induction HF as [|b x gen ans Hx HF [IH1 IH2]]; [cbn; auto|]. destruct Hx as [_ Hx].
      cbn [map flat_map existsb]. rewrite existsb_app, IH2, Hx. cbn [b_resp]. split.
      - constructor; auto. destruct (existsb failed _); auto.
      - destruct (existsb failed (concat (fst x))); reflexivity. }
    destruct H1 as [H1 <-]. apply agg_slv. exact H1.
  - rewrite <- Hby. subst cs. clear - HF. induction HF as [|b x gen ans Hx HF IH]; [intros ? []|]. destruct Hx as [Hx _].
    rewrite eff_w_true in Hx. destruct (logged_bytes _ _ _ _ _ Hx) as [I1 _]. cbn [flat_map]. rewrite calls_bytes_app.
    unfold all_bytes. cbn [flat_map]. apply incl_app; intros z Hz; rewrite in_app_iff; auto.
  - rewrite <- Hby. subst cs. clear - HF. induction HF as [|b x gen ans Hx HF IH]; [reflexivity|]. destruct Hx as [Hx _].
    rewrite eff_w_true in Hx. destruct (logged_bytes _ _ _ _ _ Hx) as [_ I2]. cbn [flat_map]. rewrite calls_bytes_app, existsb_app.
    intros Hf. apply orb_false_iff in Hf as [F1 F2]. unfold all_bytes. cbn [flat_map]. rewrite (I2 F1). f_equal. now apply IH.
  - rewrite <- Hby. subst cs. clear - HF HL. induction HF as [|b x gen ans Hx HF IH]; [apply spared_nil|]. destruct Hx as [Hx _].
    rewrite eff_w_true in Hx. cbn [flat_map all_bytes]. apply spared_app; auto. now apply logged_spared.
Qed.

Lemma v_ext s o u es more rs sa : Jv s -> okw c o u -> w_sends c o u = es ++ more -> trace s es rs sa ->
  exists rest s', trace0 sa more rest s' /\ Jv s'.
Proof.
  intros [tl ->] Hok Hs Ht. apply vst_go. eapply vst_trace; [exact Ht|]. rewrite <- Hs. cbn [vst].
  destruct (op_gen tw c o u Hok) as (gen & Hev & Hb & _). exists gen. auto.
Qed.
Lemma v_sem s o u rs s' : Jv s -> okw c o u -> trace s (w_sends c o u) rs s' -> Jv s' ->
  length rs = length (pat (w_sends c) w_epat o u) /\ Forall (fun r => b_id r = u) rs.
Proof.
  intros H1 H2 H3 H4. destruct (v_served _ _ _ _ _ H1 H2 H3 H4) as (cs & _ & K1 & K2 & _). rewrite w_pat_len by auto. auto.
Qed.

(** ** B transfers of an ID: never more than AW transfers *)
Definition vpend_b (s : wslow TL) (t : Z) : nat :=
  match s with
  | VBeat b _ | VWr _ b _ _ => if ss_id b =? t then 1%nat else 0%nat
  | VResp b _ => if b_id b =? t then 1%nat else 0%nat
  | _ => 0%nat
  end.
Lemma vpend_beats b tl t : vpend_b (v_beats b tl) t = if ss_id b =? t then 1%nat else 0%nat.
Proof. unfold v_beats. now destruct (0 <? _). Qed.
Lemma vpend_done ok b tl t : (vpend_b (v_done ok b tl) t <= if (ss_id b =? t)%Z then 1 else 0)%nat.
Proof. unfold v_done. destruct ok; [rewrite vpend_beats; lia|cbn; lia]. Qed.
Lemma vpend_next ok b ops tl t : (vpend_b (v_next ok b ops tl) t <= if (ss_id b =? t)%Z then 1 else 0)%nat.
Proof. destruct ops; [apply vpend_done|cbn; lia]. Qed.
Lemma v_no_emit ok b ops tl r s1 : act (VWr ok b ops tl) <> AEmit r s1.
Proof. cbn [vs_act]. destruct ops as [|[x d] ops]; [discriminate|]. destruct (lw tl x d) as [tl' []]; discriminate. Qed.
Lemma v_no_wait ok b ops tl k : act (VWr ok b ops tl) <> AWait k.
Proof. cbn [vs_act]. destruct ops as [|[x d] ops]; [discriminate|]. destruct (lw tl x d) as [tl' []]; discriminate. Qed.
Lemma v_tau_cases s s1 : act s = ATau s1 -> exists ok b ops tl, s = VWr ok b ops tl /\
  ((ops = [] /\ s1 = v_done ok b tl) \/
   exists x d ops', ops = (x, d) :: ops' /\
     ((exists u, snd (tw (fst tl) x d) = Ok u /\ s1 = v_next ok b ops' (fst (tw (fst tl) x d), snd tl ++ [(x, d, Ok u)])) \/
      (exists er, snd (tw (fst tl) x d) = Err er /\ s1 = v_done ok (set_resp SLVERR b) (fst (tw (fst tl) x d), snd tl ++ [(x, d, Err er)])))).
Proof.
  intros Ha. destruct s as [tl|b tl|ok b ops tl|b tl|tl]; try discriminate. exists ok, b, ops, tl. split; auto. cbn [vs_act] in Ha.
  destruct ops as [|[x d] ops]; [left; injection Ha as <-; auto|]. right. exists x, d, ops. split; auto. rewrite lw_log in Ha.
  destruct (snd (tw (fst tl) x d)) as [u|er] eqn:Er; injection Ha as <-; [left|right]; eauto.
Qed.
Lemma vs_count s es o s' t : trace s es o s' ->
  (length (filter (fun r => Z.eqb (b_id r) t) o) + vpend_b s' t <= length (P_sys.owedE w_epat aw_tag t es) + vpend_b s t)%nat.
Proof.
  induction 1 as [s|s e es o s' Ha Ht IH|s r s1 es o s' Ha Ht IH|s s1 es o s' Ha Ht IH|s f es o s' Hf Ht IH]; [cbn; lia| | | |].
  - unfold P_sys.owedE in *. destruct s as [tl|b tl|ok b ops tl| |]; try discriminate; [| |now apply v_no_wait in Ha]; injection Ha as Ha; destruct e as [a|w]; try discriminate.
    + cbn [filter aw_tag]. assert (Hp : (vpend_b (sin (VIdle tl) (EvAW a)) t <= if (ax_id a =? t)%Z then 1 else 0)%nat).
      { cbn [vs_in]. destruct (sl_start L a) as [s1|] eqn:Es; [|cbn; lia].
        assert (Hid : ss_id s1 = ax_id a).
        { unfold sl_start in Es. destruct (_ && _); [|discriminate]. destruct (_ && _); [discriminate|]. injection Es as <-. reflexivity. }
        rewrite vpend_beats, Hid. lia. }
      destruct (ax_id a =? t)%Z; cbn [flat_map w_epat app length vpend_b] in *; lia.
    + cbn [filter aw_tag]. assert (Hp : (vpend_b (sin (VBeat b tl) (EvW w)) t <= vpend_b (VBeat b tl) t)%nat).
      { cbn [vs_in]. destruct (to_bytes _ _ _); [|cbn; lia]. apply vpend_next. }
      destruct (0 =? t); cbn [flat_map w_epat app length] in *; lia.
  - destruct s as [tl|b tl|ok b ops tl| |]; try discriminate; [now apply v_no_emit in Ha|]. injection Ha as -> <-. cbn [vpend_b filter] in *. destruct (b_id r =? t); cbn [length] in *; lia.
  - assert (Hp : (vpend_b s1 t <= vpend_b s t)%nat); [|lia].
    destruct (v_tau_cases _ _ Ha) as (ok & b & ops & tl & -> & [[-> ->]|(x & d & ops' & -> & [(u & _ & ->)|(er & _ & ->)])]); [apply vpend_done|apply vpend_next|apply (vpend_done ok (set_resp SLVERR b))].
  - destruct (Hpk f Hf) as [g ->]. now destruct s.
Qed.

(** ** the calls of the target *)
Definition vgood (s : wslow TL) : Prop :=
  match s with VWr _ _ ops _ => exists word, word mod L = 0 /\ Forall (op_ok word L) ops | _ => True end.
Lemma vgood_done ok b tl : vgood (v_done ok b tl).
Proof. unfold v_done, v_beats. destruct ok; [destruct (0 <? _)|]; exact I. Qed.
Lemma vgood_next ok b ops tl word : word mod L = 0 -> Forall (op_ok word L) ops -> vgood (v_next ok b ops tl).
Proof. intros H1 H2. destruct ops; [apply vgood_done|]. exists word. auto. Qed.
Lemma vin_log s e : 0 < L -> vs_target (sin s e) = vs_target s /\ (vgood s -> vgood (sin s e)).
Proof.
  intros HL. destruct s as [tl|b tl|ok b ops tl|b tl|tl]; destruct e as [a|w]; cbn [vs_in]; auto.
  - destruct (sl_start L a); [rewrite v_beats_target|]; split; auto. intros _. unfold v_beats. destruct (0 <? _); exact I.
  - destruct (to_bytes (w_data w) L Little) as [data|] eqn:Ed; [|split; auto]. rewrite v_next_target. split; auto. intros _.
    destruct (beat_ops L (ss_cur b / L * L) w data Ed ltac:(lia)) as (_ & Ho). cbn zeta in Ho.
    apply (vgood_next _ _ _ _ (ss_cur b / L * L)); auto. apply Z.mod_mul. lia.
Qed.
Lemma vtau_log s s1 : 0 < L -> act s = ATau s1 -> vgood s -> exists new, vlog s1 = vlog s ++ new /\ Forall (call_ok L) new /\
  replays tw (fst (vs_target s)) new (fst (vs_target s1)) /\ vgood s1.
Proof.
  intros HL Ha Hg. destruct (v_tau_cases _ _ Ha) as (ok & b & ops & tl & -> & [[-> ->]|(x & d & ops' & -> & K)]).
  - exists []. unfold vlog. rewrite v_done_target, app_nil_r. cbn. auto using vgood_done.
  - destruct Hg as (word & Hw & Ho). assert (Hc : forall r, Forall (call_ok L) [(x, d, r)]).
    { intros r. apply (call_ok_of tw c word ((x, d) :: ops') [(x, d, r)] ops' HL Hw Ho). reflexivity. }
    inversion Ho as [|? ? _ Ho']; subst.
    destruct K as [(u & Er & ->)|(er & Er & ->)]; eexists [(x, d, _)]; unfold vlog; rewrite ?v_next_target, ?v_done_target; cbn [fst snd vs_target replays];
      (split; [reflexivity|]); (split; [apply Hc|]); (split; [|try apply vgood_done; apply (vgood_next _ _ _ _ word); auto]);
      destruct (tw (fst tl) x d) as [t1 r1]; cbn [fst snd] in *; subst; auto.
Qed.
Lemma vtrace_log s es o s' : 0 < L -> trace s es o s' -> vgood s -> vgood s' /\ exists more, vlog s' = vlog s ++ more /\ Forall (call_ok L) more.
Proof.
  intros HL. induction 1 as [s|s e es o s' Ha Ht IH|s r s1 es o s' Ha Ht IH|s s1 es o s' Ha Ht IH|s f es o s' Hf Ht IH]; intros Hg.
  - split; auto. exists []. rewrite app_nil_r. auto.
  - destruct (vin_log s e HL) as [E1 E2]. destruct (IH (E2 Hg)) as (G & more & E & Hm). split; auto. exists more. unfold vlog in *. rewrite E, E1. auto.
  - destruct s as [tl|b tl|ok b ops tl| |]; try discriminate; [now apply v_no_emit in Ha|]. injection Ha as -> <-. auto.
  - destruct (vtau_log s s1 HL Ha Hg) as (new & E & K1 & _ & G1). destruct (IH G1) as (G & more & E2 & Hm). split; auto.
    exists (new ++ more). rewrite E2, E. split; [now rewrite app_assoc|now apply Forall_app].
  - destruct (IH) as (G & more & E & Hm); [destruct (Hpk f Hf) as [g ->]; now destruct s|]. split; auto. exists more. rewrite E, (vlog_poke f s Hf). auto.
Qed.
Lemma vtrace_replays s es o s' : 0 < L -> trace0 s es o s' -> vgood s -> vgood s' /\ exists more, vlog s' = vlog s ++ more /\
  replays tw (fst (vs_target s)) more (fst (vs_target s')).
Proof.
  intros HL. induction 1 as [s|s e es o s' Ha Ht IH|s r s1 es o s' Ha Ht IH|s s1 es o s' Ha Ht IH|s f es o s' Hf Ht IH]; intros Hg; [| | | |destruct Hf].
  - split; auto. exists []. rewrite app_nil_r. cbn. auto.
  - destruct (vin_log s e HL) as [E1 E2]. destruct (IH (E2 Hg)) as (G & more & E & Hm). split; auto. exists more. unfold vlog in *. rewrite E. rewrite E1 in *. auto.
  - destruct s as [tl|b tl|ok b ops tl| |]; try discriminate; [now apply v_no_emit in Ha|]. injection Ha as -> <-. auto.
  - destruct (vtau_log s s1 HL Ha Hg) as (new & E & _ & K2 & G1). destruct (IH G1) as (G & more & E2 & Hm). split; auto.
    exists (new ++ more). rewrite E2, E. split; [now rewrite app_assoc|eapply replays_app; eauto].
Qed.

(** after the last W of a burst the task answers *)
Definition busyv (s : wslow TL) : Prop := match s with VIdle _ => False | _ => True end.
Lemma busy_done ok b tl : busyv (v_done ok b tl).
Proof. unfold v_done, v_beats. destruct ok; [destruct (0 <? _)|]; exact I. Qed.
Lemma busy_next ok b ops tl : busyv (v_next ok b ops tl).
Proof. destruct ops; [apply busy_done|exact I]. Qed.
Lemma busy_tau s s1 : act s = ATau s1 -> busyv s1.
Proof. intros Ha. destruct (v_tau_cases _ _ Ha) as (ok & b & ops & tl & -> & [[-> ->]|(x & d & ops' & -> & [(u & _ & ->)|(er & _ & ->)])]); auto using busy_done, busy_next. Qed.
Lemma busy_in s e k : act s = AWait k -> k = w_opens e -> busyv (sin s e).
Proof.
  intros Ha ->. destruct s as [tl|b tl|ok b ops tl| |]; try discriminate; [| |now apply v_no_wait in Ha]; injection Ha as Ha; destruct e as [a|w]; try discriminate; cbn [vs_in].
  - destruct (sl_start L a); [apply (busy_done true)|exact I].
  - destruct (to_bytes _ _ _); [apply busy_next|exact I].
Qed.
Lemma vbusy_emits s es o s' : trace0 s es o s' -> busyv s -> Jv s' -> o <> [].
Proof.
  induction 1 as [s|s e es o s' Ha Ht IH|s r s1 es o s' Ha Ht IH|s s1 es o s' Ha Ht IH|s f es o s' [] Ht IH]; intros Hb Hj.
  - destruct Hj as [tl ->]. destruct Hb.
  - apply IH; auto. eapply busy_in; eauto.
  - discriminate.
  - apply IH; auto. eapply busy_tau; eauto.
Qed.
Lemma vs_last s e o s' : trace0 s [e] o s' -> Jv s' -> o <> [].
Proof.
  remember [e] as es eqn:Ees. intros H. revert e Ees. induction H as [s|s x es o s' Ha Ht IH|s r s1 es o s' Ha Ht IH|s s1 es o s' Ha Ht IH|s f es o s' [] Ht IH]; intros e He Hj.
  - discriminate.
  - apply (vbusy_emits _ _ _ _ Ht); auto. eapply busy_in; eauto.
  - discriminate.
  - eapply IH; eauto.
Qed.

Lemma vquiet_log s es o s' : trace s es o s' -> es = [] -> Jv s -> vlog s' = vlog s /\ Jv s'.
Proof.
  induction 1 as [s|s e es o s' Ha Ht IH|s r s1 es o s' Ha Ht IH|s s1 es o s' Ha Ht IH|s f es o s' Hf Ht IH]; intros He [tl ->]; try discriminate; auto.
  - split; [reflexivity|now exists tl].
  - destruct (IH He) as [E1 E2]; [destruct (Hpk f Hf) as [g ->]; eexists; reflexivity|]. split; auto. rewrite E1. destruct (Hpk f Hf) as [g ->]. reflexivity.
Qed.

(** ** the instance *)
Local Notation otrw := (otr (w_sends c) w_opens act sin pk (okw c) Jv).
Lemma otr_vwritten s A rss s' : 0 < L -> otrw s A rss s' -> exists ex, rss = map fst ex /\ Forall2 (written c) A ex /\
  vlog s' = vlog s ++ concat (map snd ex).
Proof.
  intros HL. induction 1 as [s s' Hj Ht Hj'|s o u rs s1 A rss s2 Hj Hok Ht Hj1 Ho (ex & -> & HF & El)].
  - exists []. split; auto. split; [constructor|]. cbn [map concat]. destruct (vfin_trace _ _ _ _ Ht Hj') as (new & E & F). rewrite E. f_equal.
    destruct Hj as [tl ->]. cbn [vfin] in F. destruct (F [] eq_refl (Forall_nil _)) as (ans & A1 & _ & ->). now inversion A1.
  - destruct (v_served _ _ _ _ _ Hj Hok Ht Hj1) as (cs & E & (H1 & H2 & (us & H3) & H4 & H5 & H6)).
    exists ((rs, cs) :: ex). split; auto. cbn [map concat snd]. split; [|rewrite El, E, app_assoc; reflexivity].
    constructor; auto. split; [exact H1|]. split; [|split; [|split; [assumption|split; assumption]]].
    + unfold write_returns. unfold w_sends in H3. now rewrite H3.
    + destruct (vtrace_log _ _ _ _ HL Ht) as (_ & more & Hm & Hc); [destruct Hj as [tl ->]; exact I|]. rewrite E in Hm. apply app_inv_head in Hm. now subst.
Qed.

Variable idn : Z.
Hypothesis Hidn : 0 < idn.
Variable t0 : T.
Local Notation step := (vsys_step c idn lw L true).
Local Notation s0 := (VIdle (t0, [])).

Theorem vsys_main h : Forall (P_sys.poke_ok pk) h -> let '(y, l) := vsys_run c idn lw L true (t0, []) h in
  let A := assigned op_id idn 0 (xstarted l) in
  let log := vlog (y_s y) in
  Forall (fun p => write_legal L (fst p)) A ->
  xcrashed l = false /\
  (forall d, In d (xcompleted l) -> exists u, snd (fst d) = Some u) /\
  exists ex es o more rest sN, sendsA (w_sends c) A = es ++ more /\ trace s0 es o (y_s y) /\ trace0 (y_s y) more rest sN /\ vlog sN = concat (map snd ex) /\
    Forall2 (written c) A ex /\ is_prefix log (concat (map snd ex)) /\
    (forall u, exists k, (k <= length (with_tag u A))%nat /\
       completed_on u l = combine (firstn k (with_tag u A)) (firstn k (map fst (on_tag u A ex)))) /\
    (forall i o u, nth_error A i = Some (o, u) -> wc_data (snd o) <> [] ->
       (length (with_tag u (firstn i A)) < length (completed_on u l))%nat ->
       is_prefix (concat (map snd (firstn (S i) ex))) log) /\
    (quiescent step y -> log = concat (map snd ex) /\ e_pend (y_m y) = [] /\
       forall u, completed_on u l = combine (with_tag u A) (map fst (on_tag u A ex))).
Proof.
  intros Hh.
  assert (Hpk0 : forall f (s : wslow TL) k, pk f -> act (f s) = AWait k <-> act s = AWait k).
  { intros f s k Hf. destruct (Hpk f Hf) as [g ->]. destruct s as [tl|b tl|ok b ops tl|b tl|tl]; cbn [vs_poke]; try (cbn; tauto).
    - split; intros E; now apply v_no_wait in E.
    - cbn. split; discriminate. }
  assert (HJpk : forall f s, pk f -> Jv (f s) <-> Jv s).
  { intros f s Hf. destruct (Hpk f Hf) as [g ->]. unfold Jv. destruct s; cbn; split; intros [tl E]; try discriminate; eexists; reflexivity. }
  assert (HJr : forall s, Jv s -> ready (R := bch) act s) by (intros s [tl ->]; exists true; reflexivity).
  assert (Htau : forall s s' s'' : wslow TL, act s = ATau s' -> trace0 s' [] [] s'' -> ~ Jv s'') by (intros s s' s'' Ha Ht Hj; exact (vbusy_emits _ _ _ _ Ht (busy_tau _ _ Ha) Hj eq_refl)).
  pose proof (sys_main (w_sends c) w_opens w_epat w_chk b_id op_id idn w_opens act sin pk Hpk0 (okw c) Jv HJr HJpk v_ext v_sem Htau
    aw_tag (w_htag c)) as M.
  assert (H0 : forall e, w_opens e = false -> w_epat e = []) by (intros [a|w]; [discriminate|reflexivity]).
  assert (H1 : forall e, w_opens e = true -> exists k, w_epat e = repeat false k ++ [true]) by (intros [a|w]; [exists 0%nat; reflexivity|discriminate]).
  specialize (M H0 H1 Hidn s0 (ex_intro _ (t0, []) eq_refl)).
  assert (Hc : forall A es more o s', okA (okw c) A -> sendsA (w_sends c) A = es ++ more -> trace s0 es o s' -> tag_ok w_epat w_chk b_id aw_tag es o).
  { intros A es more o s' _ _ Ht t. split; [|reflexivity]. pose proof (vs_count _ _ _ _ t Ht) as K. cbn [vpend_b] in K. lia. }
  specialize (M Hc). assert (Hl : forall c0 u es e, (okw c) c0 u -> w_sends c c0 u = es ++ [e] -> forall s o s',
    trace0 s [e] o s' -> Jv s' -> o <> []) by (intros; eapply vs_last; eauto).
  specialize (M Hl h Hh). unfold vsys_run. destruct (y_run _ _ _ _ _ _ _ _ _ _ _ h) as [y l]. cbn zeta.
  intros HA. specialize (M HA). change (asgs op_id idn l) with (assigned op_id idn 0 (xstarted l)) in M.
  set (A := assigned op_id idn 0 (xstarted l)) in *.
  destruct M as (Hcr & _ & Hcomp & B1 & r1 & sm & es' & o' & B2 & r2 & rest & sN & es & more & o & HO & Hcomp2 & Hdone & Hq).
  pose proof HO as (K1 & K2 & K3 & K4 & K5 & K6 & K7 & K8 & K9 & K10).
  split; [exact Hcr|]. split; [exact Hcomp|].
  assert (Htr : trace s0 es o (y_s y)).
  { rewrite K4, K5. eapply strace_app; [|exact K6]. eapply otr_strace; eauto. }
  assert (HLq : A = [] \/ 0 < L).
  { destruct A as [|p A']; auto. right. inversion HA as [|? ? (HG & _) _]; subst. destruct (bus_ok_facts _ _ HG) as (q & p' & _ & _ & _ & _ & _ & HL0). exact HL0. }
  destruct HLq as [HAe|HL].
  { (* nothing started *)
    rewrite HAe in *. symmetry in K1. apply app_eq_nil in K1 as [-> ->]. cbn in K8. symmetry in K8. apply app_eq_nil in K8 as [-> ->].
    assert (r1 = []) as -> by (inversion K2; auto). assert (r2 = []) as -> by (inversion K3; auto).
    cbn [concat app sendsA flat_map] in K4, K5, K9. symmetry in K9. apply app_eq_nil in K9 as [-> ->]. subst es o.
    destruct (vquiet_log _ _ _ _ Htr eq_refl (ex_intro _ _ eq_refl)) as (Elog & Jy).
    destruct (vquiet_log _ _ _ _ (strace_weaken _ _ _ pk _ _ _ _ K7) eq_refl Jy) as (ElogN & _).
    rewrite Elog in ElogN. change (vlog s0) with (@nil call) in Elog, ElogN.
    exists [], [], [], [], [], sN. split; [reflexivity|]. split; [exact Htr|]. split; [exact K7|]. split; [exact ElogN|].
    split; [constructor|]. split; [rewrite Elog; exists []; reflexivity|].
    split; [exact Hcomp2|]. split; [intros [|i]; discriminate|].
    intros Hqq. destruct (Hq Hqq) as (_ & _ & Hpe & _ & Hall). split; [exact Elog|]. split; [exact Hpe|]. exact Hall. }
  destruct (otr_vwritten _ _ _ _ HL K2) as (ex1 & -> & HF1 & El1). destruct (otr_vwritten _ _ _ _ HL K3) as (ex2 & -> & HF2 & El2).
  cbn [vlog vs_target snd app] in El1.
  set (ex := ex1 ++ ex2). assert (HF : Forall2 (written c) A ex) by (rewrite K1; now apply Forall2_app).
  assert (Hlen : length ex = length A) by (clear - HF; induction HF; cbn; congruence).
  assert (ElN : vlog sN = concat (map snd ex)) by (rewrite El2, El1; unfold ex; rewrite map_app, concat_app; reflexivity).
  destruct (vtrace_log _ _ _ _ HL Htr I) as (Hgy & _).
  destruct (vtrace_log _ _ _ _ HL (strace_weaken _ _ _ pk _ _ _ _ K7) Hgy) as (_ & lg & Hlg & _).
  destruct (vtrace_log _ _ _ _ HL K6) as (_ & lg1 & Hlg1 & _); [assert (Jsm : Jv sm) by (exact (proj2 (otr_J _ op_id _ _ _ _ _ _ _ _ _ _ K2))); destruct Jsm as [tl ->]; exact I|].
  exists ex, es, o, more, rest, sN. split; [rewrite K1, K4; unfold sendsA in *; rewrite flat_map_app, K8, <- app_assoc; reflexivity|]. split; [exact Htr|]. split; [exact K7|]. split; [exact ElN|]. split; [exact HF|].
  split; [exists lg; congruence|]. rewrite <- map_app in Hcomp2, Hq. fold ex in Hcomp2, Hq. split; [|split].
  - intros u. rewrite <- combine_on_tag by auto. apply Hcomp2.
  - intros i p u Hi Hd Hk. apply nth_error_split in Hi. destruct Hi as (A1 & A2 & HAA & Hi1).
    rewrite HAA in Hk. rewrite <- Hi1, firstn_app, Nat.sub_diag, firstn_all in Hk. cbn [firstn] in Hk. rewrite app_nil_r in Hk.
    assert (Hok : write_legal L p). { rewrite HAA in HA. apply Forall_app in HA as [_ HA]. inversion HA; auto. }
    assert (Hpat : pat (w_sends c) w_epat p u <> []).
    { intros Hn. apply (f_equal (@length bool)) in Hn. rewrite w_pat_len in Hn by exact Hok.
      destruct (op_gen tw c p u Hok) as (gen & Hev & _ & _ & Hby & _). rewrite Hev, aw_of_gen, map_length in Hn. destruct gen; [|discriminate].
      cbn in Hby. destruct (wc_data (snd p)) as [|d0 dd]; [congruence|]. unfold addressed, zrange in Hby.
      pose proof (zlen_nonneg dd). rewrite zlen_cons in Hby.
      replace (Z.to_nat (wc_addr (snd p) + (1 + zlen dd) - wc_addr (snd p))) with (S (Z.to_nat (zlen dd))) in Hby by lia. discriminate. }
    assert (Hb1 : (i < length B1)%nat) by (rewrite <- Hi1; exact (Hdone A1 p u A2 HAA Hpat Hk)).
    assert (Hl1 : length ex1 = length B1) by (clear - HF1; induction HF1; cbn; congruence).
    unfold ex. rewrite firstn_app. replace (S i - length ex1)%nat with 0%nat by lia. cbn [firstn]. rewrite app_nil_r.
    unfold is_prefix. rewrite Hlg1, El1. exists (concat (map snd (skipn (S i) ex1)) ++ lg1).
    rewrite <- (firstn_skipn (S i) ex1) at 1. rewrite map_app, concat_app, <- app_assoc. reflexivity.
  - intros Hqq. destruct (Hq Hqq) as (_ & _ & Hpe & HsN & Hall). split; [|split; [exact Hpe|]].
    + rewrite <- HsN. exact ElN.
    + intros u. rewrite <- combine_on_tag by auto. apply Hall.
Qed.
End W.

(** without changes by others *)
Theorem vsys_main0 {T} (tw : T -> Z -> list Z -> T * res unit) c idn t0 h : 0 < idn -> Forall no_poke h ->
  let '(y, l) := vsys_run c idn (log_write tw) (m_lanes c) true (t0, []) h in
  let A := assigned op_id idn 0 (xstarted l) in
  let '(t, log) := vs_target (y_s y) in
  Forall (fun p => write_legal (m_lanes c) (fst p)) A ->
  xcrashed l = false /\
  (forall d, In d (xcompleted l) -> exists u, snd (fst d) = Some u) /\
  exists ex tN, Forall2 (written c) A ex /\ is_prefix log (concat (map snd ex)) /\ replays tw t0 log t /\
    replays tw t0 (concat (map snd ex)) tN /\
    (forall u, exists k, (k <= length (with_tag u A))%nat /\
       completed_on u l = combine (firstn k (with_tag u A)) (firstn k (map fst (on_tag u A ex)))) /\
    (forall i o u, nth_error A i = Some (o, u) -> wc_data (snd o) <> [] ->
       (length (with_tag u (firstn i A)) < length (completed_on u l))%nat ->
       is_prefix (concat (map snd (firstn (S i) ex))) log) /\
    (quiescent (vsys_step c idn (log_write tw) (m_lanes c) true) y -> log = concat (map snd ex) /\ e_pend (y_m y) = [] /\
       forall u, completed_on u l = combine (with_tag u A) (map fst (on_tag u A ex))).
Proof.
  intros Hi Hh. pose proof (vsys_main tw c nopk (fun f (H : nopk f) => match H with end) idn Hi t0 h) as M.
  assert (Hp : Forall (P_sys.poke_ok (C := wop) nopk) h).
  { eapply Forall_impl; [|exact Hh]. intros [ | | | | | | | | | | | | | ]; cbn; tauto. }
  specialize (M Hp). destruct (vsys_run _ _ _ _ _ _ h) as [y l]. cbv zeta in *. unfold vlog in *.
  destruct (vs_target (y_s y)) as [t log] eqn:Et. intros HA.
  destruct (M HA) as (M1 & M2 & ex & es & o & more & rest & sN & T0 & T1 & T2 & EN & M3 & M4 & M5 & M6 & M7).
  split; auto. split; auto.
  assert (HLq : assigned op_id idn 0 (xstarted l) = [] \/ 0 < m_lanes c).
  { destruct (assigned op_id idn 0 (xstarted l)) as [|p A']; auto. right. inversion HA as [|? ? (HG & _) _]; subst. destruct (bus_ok_facts _ _ HG) as (q & p' & _ & _ & _ & _ & _ & HL0). exact HL0. }
  assert (HR : replays tw t0 log t /\ exists tN, replays tw t0 (concat (map snd ex)) tN).
  { destruct HLq as [HAe|HL].
    - rewrite HAe in *. inversion M3; subst. cbn in T0. symmetry in T0. apply app_eq_nil in T0 as [-> ->].
      assert (Es : y_s y = VIdle (t0, [])) by (inversion T1 as [| |? ? ? ? ? ? Hx|? ? ? ? ? Hx|? ? ? ? ? []]; auto; discriminate).
      rewrite Es in Et. injection Et as <- <-. cbn. eauto.
    - destruct (vtrace_replays tw c _ _ _ _ HL T1 I) as (Hgy & lg & Hlg & Hrep). unfold vlog in Hlg. rewrite Et in Hlg, Hrep. cbn in Hlg, Hrep. subst lg.
      split; [exact Hrep|]. destruct (vtrace_replays tw c _ _ _ _ HL T2 Hgy) as (_ & lg & Hlg & Hrep2). unfold vlog in Hlg. rewrite EN in Hlg.
      rewrite Et in Hlg, Hrep2. cbn [fst snd] in *. exists (fst (vs_target sN)). rewrite Hlg. eapply replays_app; eauto. }
  destruct HR as [HR1 [tN HR2]]. exists ex, tN. auto 10.
Qed.

