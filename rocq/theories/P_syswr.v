(** The write system of M_sys.v: the slave's task on any target. *)
From Coq Require Import ZArith Lia List Bool.
From Coq Require Import ZifyBool ZifyNat.
From Verif Require Import Py S_flat M_axi S_axi P_axi P_axislave P_axiop P_axicomp P_axiram
  M_liteeng M_axieng S_axieng P_axieng P_axiattr T_axieng M_sys S_sys P_sys.
Import ListNotations.
Open Scope Z_scope.

Lemma calls_bytes_app a b : calls_bytes (a ++ b) = calls_bytes a ++ calls_bytes b.
Proof. unfold calls_bytes. apply flat_map_app. Qed.

Lemma logged_bytes L a ws : forall n news, logged L a n ws news ->
  incl (calls_bytes (concat news)) (burst_bytes L a n ws) /\
  (existsb failed (concat news) = false -> calls_bytes (concat news) = burst_bytes L a n ws).
Proof.
  induction ws as [|w ws IH]; intros n [|cs news] H; cbn [logged] in H; try tauto.
  - cbn. split; [intros ? []|auto].
  - destruct H as ((rest & H1 & H2) & _ & H3). destruct (IH _ _ H3) as [I1 I2]. cbn [concat burst_bytes].
    rewrite calls_bytes_app, existsb_app, H1. split.
    + apply incl_app; [intros x Hx; rewrite !in_app_iff; auto|intros x Hx; rewrite !in_app_iff; auto].
    + intros Hf. apply orb_false_iff in Hf as [F1 F2]. rewrite (H2 F1), (I2 F2), app_nil_r. reflexivity.
Qed.

Lemma spared_app L c1 c2 b1 b2 : spared L c1 b1 -> spared L c2 b2 -> spared L (c1 ++ c2) (b1 ++ b2).
Proof.
  intros H1 H2 P HP HF. rewrite calls_bytes_app, !filter_app. f_equal.
  - apply H1; auto. intros e He. apply HF. apply in_or_app. auto.
  - apply H2; auto. intros e He. apply HF. apply in_or_app. auto.
Qed.
Lemma spared_nil L : spared L [] [].
Proof. intros P _ _. reflexivity. Qed.
(** one beat: all its bytes are in one word *)
Lemma spared_word L w cs bytes rest : Forall (fun p => down L (fst p) = down L w) bytes -> bytes = calls_bytes cs ++ rest ->
  (existsb failed cs = false -> rest = []) -> Forall (fun e => snd (fst e) <> []) cs -> spared L cs bytes.
Proof.
  intros HB HE HR HN P HP HF. destruct (P w) eqn:Ew.
  - assert (K : existsb failed cs = false).
    { apply not_true_is_false. intros K. apply existsb_exists in K as (e & He & K). rewrite HF in K; auto; [discriminate|].
      rewrite (HP _ w); auto. rewrite Forall_forall in HB, HN. destruct e as [[a d] r]. specialize (HN _ He). cbn [fst snd] in *.
      destruct d as [|b d]; [congruence|]. apply (HB (a, b)). rewrite HE. apply in_or_app. left. unfold calls_bytes. apply in_flat_map.
      exists (a, b :: d, r). split; auto. cbn [fst snd]. rewrite addressed_cons. now left. }
    rewrite HE, (HR K), app_nil_r. reflexivity.
  - assert (Hn : forall l, incl l bytes -> filter (fun p => P (fst p)) l = []).
    { induction l as [|p l IH]; intros Hi; [reflexivity|]. cbn [filter]. rewrite Forall_forall in HB.
      rewrite (HP _ w), Ew by (apply HB, Hi; now left). apply IH. intros z Hz. apply Hi. now right. }
    rewrite !Hn; auto using incl_refl. rewrite HE. apply incl_appl, incl_refl.
Qed.
Lemma down_in_word L w x : 0 < L -> down L w <= x < down L w + L -> down L x = down L w.
Proof.
  intros HL Hx. unfold down in *. pose proof (Z.mod_pos_bound w L HL). pose proof (Z.div_mod w L ltac:(lia)).
  pose proof (Z.mod_unique_pos x L (w / L) (x - (w - w mod L)) ltac:(lia) ltac:(lia)). lia.
Qed.
Lemma strobed_word L w0 w : 0 < L -> Forall (fun p => down L (fst p) = down L w0) (strobed L (down L w0) w).
Proof.
  intros HL. unfold strobed. apply Forall_map, Forall_forall. intros i Hi. apply filter_In in Hi as [Hi _]. apply in_zrange in Hi. cbn [fst].
  apply down_in_word; auto. lia.
Qed.
Lemma logged_spared L a ws : 0 < L -> forall n news, logged L a n ws news -> spared L (concat news) (burst_bytes L a n ws).
Proof.
  intros HL. induction ws as [|w ws IH]; intros n [|cs news] H; cbn [logged] in H; try tauto.
  - apply spared_nil.
  - destruct H as ((rest & H1 & H2) & H3 & H4). cbn [concat burst_bytes]. apply spared_app; [|now apply IH].
    eapply spared_word; eauto. apply strobed_word. exact HL.
Qed.

Lemma eff_w_true L ws : map (eff_w true L) ws = ws.
Proof. unfold eff_w. induction ws; cbn; congruence. Qed.

Lemma agg_slv l : Forall (fun b => b = OKAY \/ b = SLVERR) l ->
  fold_left agg_resp l OKAY = if existsb rerr l then SLVERR else OKAY.
Proof.
  assert (H : forall l r, Forall (fun b => b = OKAY \/ b = SLVERR) l -> (r = OKAY \/ r = SLVERR) ->
     fold_left agg_resp l r = if rerr r || existsb rerr l then SLVERR else OKAY).
  { clear. induction l as [|x l IH]; intros r Hl Hr; cbn [fold_left existsb].
    - destruct Hr as [-> | ->]; reflexivity.
    - inversion Hl as [|? ? Hx Hl']; subst.
      rewrite IH; auto; destruct Hx as [-> | ->], Hr as [-> | ->]; cbn; auto. }
  intros Hl. now rewrite H by auto.
Qed.

Lemma replays_app {T} (tw : T -> Z -> list Z -> T * res unit) l1 : forall l2 t t1 t2,
  replays tw t l1 t1 -> replays tw t1 l2 t2 -> replays tw t (l1 ++ l2) t2.
Proof.
  induction l1 as [|[[a d] r] l1 IH]; intros l2 t t1 t2 H1 H2; cbn in *; [now subst|]. destruct H1. eauto.
Qed.
Lemma combine_on_tag {C X Y} t (A : list (C * Z)) (ex : list (list X * Y)) : length ex = length A ->
  rss_on t A (map fst ex) = map fst (on_tag t A ex).
Proof.
  unfold rss_on, on_tag. revert ex. induction A as [|p A IH]; intros [|x ex] H; try discriminate; [reflexivity|].
  cbn [combine map filter]. cbn [fst snd]. destruct (snd p =? t); cbn [map]; rewrite IH by (injection H; auto); auto.
Qed.

Section W.
Context {T : Type}.
Variable tw : T -> Z -> list Z -> T * res unit.
Variable c : mcfg.
Local Notation L := (m_lanes c).
Local Notation TL := (T * list call)%type.
Local Notation lw := (log_write tw).
(** others may change the target, not the log *)
Variable pk : (wslv TL -> wslv TL) -> Prop.
Hypothesis Hpk : forall f, pk f -> exists g, f = ws_poke (fun tl => (g (fst tl), snd tl)).
Local Notation trace := (strace w_opens ws_act (ws_in lw L true) pk).
Local Notation trace0 := (strace w_opens ws_act (ws_in lw L true) nopk).

(** ** an operation *)
Definition okw (o : wop) (u : Z) : Prop := write_legal L o.

Definition servedw (o : wop) (u : Z) (rs : list bch) (cs : list call) : Prop :=
  Forall (fun b => b_id b = u) rs /\ length rs = length (aw_of (w_sends c o u)) /\
  (exists users, mw_resp (bursts_of (aw_of (w_sends c o u))) rs OKAY [] =
     Some (if existsb failed cs then SLVERR else OKAY, users, [])) /\
  incl (calls_bytes cs) (addressed (wc_addr (snd o)) (wc_data (snd o))) /\
  (existsb failed cs = false -> calls_bytes cs = addressed (wc_addr (snd o)) (wc_data (snd o))) /\
  spared L cs (addressed (wc_addr (snd o)) (wc_data (snd o))).

Definition Jw (s : wslv TL) : Prop := exists tl, s = WIdle tl.

Lemma op_gen o u : okw o u -> exists gen,
  w_sends c o u = flat_map (fun b => EvAW (fst b) :: map EvW (snd b)) gen /\
  Forall (wburst_ok L) gen /\ Forall (fun b => ax_id (fst b) = u) gen /\
  all_bytes L gen = addressed (wc_addr (snd o)) (wc_data (snd o)) /\ 0 < L.
Proof.
  intros (HG & Hbt & HD & HA). unfold w_sends. destruct o as [[n i] [A D bt size sd wu]].
  cbn [snd wc_addr wc_data wc_burst wc_size] in *. subst bt. pose proof (zlen_nonneg D) as Hlen.
  pose proof (op_write c A (zlen D) size sd u HG HA Hlen D wu HD eq_refl) as Hw. unfold og_cmd in Hw. rewrite Hw. cbn [fst].
  set (gen := og_gen c A (zlen D) size INCR sd u D wu (Z.to_nat (og_C A (zlen D) size)) 0) in *.
  pose proof (op_bursts c A (zlen D) size sd u HG HA Hlen D wu HD eq_refl (A + zlen D + 1)) as Hb.
  pose proof (pow_above (A + zlen D + 1) ltac:(lia)) as Hpow. specialize (Hb ltac:(lia) ltac:(lia)).
  pose proof (op_bytes c A (zlen D) size sd u HG HA Hlen D wu HD eq_refl) as Hby. fold gen in Hb, Hby.
  destruct (bus_ok_facts _ _ HG) as (q & p & Hnb & Hq & HL & Hp & Hs & HL0).
  exists gen. split; [reflexivity|]. split; [|split; [|split; [exact Hby|exact HL0]]].
  - eapply Forall_impl; [|exact Hb]. intros [a ws] (H1 & H2 & H3 & H4 & H5 & H6 & H7 & H8). cbn [fst snd] in *.
    unfold wburst_ok. cbn [fst snd]. pose proof (legal_accepts _ _ _ H1) as Hacc.
    destruct H1 as (_ & Ha1 & _ & Ha3 & _).
    split; [lia|]. split; [lia|]. split; [exists q; rewrite H4; auto|]. split; [exact Hacc|].
    split; [exact H6|]. split; [|exact H7]. eapply Forall_impl; [|exact H8]. intros w (Hw1 & _). exact Hw1.
  - eapply Forall_impl; [|exact Hb]. intros [a ws] H. cbn [fst snd] in *. tauto.
Qed.

Lemma aw_of_gen (gen : list (axc * list wch)) : aw_of (flat_map (fun b => EvAW (fst b) :: map EvW (snd b)) gen) = map fst gen.
Proof.
  induction gen as [|[a ws] gen IH]; [reflexivity|]. cbn [flat_map fst snd app aw_of map]. f_equal. rewrite <- IH.
  induction ws; cbn; auto.
Qed.

Lemma w_pat_len o u : okw o u -> length (pat (w_sends c) w_epat o u) = length (aw_of (w_sends c o u)).
Proof.
  intros _. unfold pat. generalize (w_sends c o u) as l. induction l as [|[a|w] l IH]; cbn; auto.
Qed.

(** ** where the task is in an operation: the transfers still to come *)
Definition evs (gen : list (axc * list wch)) : list wev := flat_map (fun b => EvAW (fst b) :: map EvW (snd b)) gen.
Definition wst (s : wslv TL) (rem : list wev) : Prop :=
  match s with
  | WIdle _ => exists gen, rem = evs gen /\ Forall (wburst_ok L) gen
  | WBeat b _ => exists a n resp ws gen, b = sl_at a n resp /\ rem = map EvW ws ++ evs gen /\ Forall (wburst_ok L) gen /\
      0 <= ax_size a /\ 0 <= ax_len a /\ (exists q, 0 < q /\ L = 2 ^ ax_size a * q) /\
      0 <= n /\ n + zlen ws = beats a /\ Forall (fun w => 0 <= w_data w < 256 ^ L) ws /\ last_ok ws /\ ws <> []
  | WResp _ _ => exists gen, rem = evs gen /\ Forall (wburst_ok L) gen
  | WDead _ => False
  end.
(** what it will have answered and called *)
Definition wans (gen : list (axc * list wch)) (rs : list bch) (cs : list call) : Prop :=
  exists ans, Forall2 (wburst_answer L true) gen ans /\ rs = map snd ans /\ cs = flat_map (fun x => concat (fst x)) ans.
Definition wfin (s : wslv TL) (rem : list wev) (rs : list bch) (cs : list call) : Prop :=
  match s with
  | WIdle _ => forall gen, rem = evs gen -> Forall (wburst_ok L) gen -> wans gen rs cs
  | WBeat b _ => forall a n resp ws gen, b = sl_at a n resp -> rem = map EvW ws ++ evs gen -> Forall (wburst_ok L) gen ->
      0 <= ax_size a -> 0 <= ax_len a -> (exists q, 0 < q /\ L = 2 ^ ax_size a * q) ->
      0 <= n -> n + zlen ws = beats a -> Forall (fun w => 0 <= w_data w < 256 ^ L) ws -> last_ok ws -> ws <> [] ->
      exists news rs' cs', logged L a n ws news /\ wans gen rs' cs' /\ cs = concat news ++ cs' /\
        rs = {| b_id := ax_id a; b_resp := if existsb failed (concat news) then SLVERR else resp; b_user := 0 |} :: rs'
  | WResp b _ => forall gen, rem = evs gen -> Forall (wburst_ok L) gen -> exists rs', wans gen rs' cs /\ rs = b :: rs'
  | WDead _ => True
  end.

Lemma burst_pos p : wburst_ok L p -> 0 < L.
Proof. intros (H1 & _ & (q & Hq & ->) & _). pose proof (Z.pow_pos_nonneg 2 (ax_size (fst p)) ltac:(lia) H1). nia. Qed.

Lemma last_ok_split w ws : last_ok (w :: ws) ->
  w_last w = (match ws with [] => true | _ => false end) /\ (ws <> [] -> last_ok ws).
Proof.
  unfold last_ok. destruct ws as [|w2 ws]; cbn [map length pred repeat app]; intros H; [injection H as H1|injection H as H1 H2].
  - split; [exact H1|congruence].
  - split; [exact H1|]. intros _. cbn [map length pred]. rewrite <- H2. reflexivity.
Qed.

(** one W transfer *)
Lemma wst_beat a n resp w ws gen t log : 0 <= ax_size a -> 0 <= ax_len a -> (exists q, 0 < q /\ L = 2 ^ ax_size a * q) ->
  0 <= n -> n + zlen (w :: ws) = beats a -> Forall (fun w => 0 <= w_data w < 256 ^ L) (w :: ws) -> last_ok (w :: ws) ->
  Forall (wburst_ok L) gen ->
  exists t' new resp', resp' = (if existsb failed new then SLVERR else resp) /\
    ws_in lw L true (WBeat (sl_at a n resp) (t, log)) (EvW w) =
      (match ws with
       | [] => WResp {| b_id := ax_id a; b_resp := resp'; b_user := 0 |} (t', log ++ new)
       | _ => WBeat (sl_at a (n + 1) resp') (t', log ++ new) end) /\
    (exists rest, strobed L (down L (axi_beat_addr a n)) w = calls_bytes new ++ rest /\ (existsb failed new = false -> rest = [])) /\
    Forall (fun e => snd (fst e) <> []) new.
Proof.
  intros H1 H2 (q & Hq & HLq) Hn Hlen Hw Hl Hg. destruct (last_ok_split w ws Hl) as [Hl1 Hl2].
  inversion Hw as [|? ? Hw1 Hw2]; subst. rewrite zlen_cons in Hlen. pose proof (zlen_nonneg ws).
  assert (HLp : 0 < L) by (pose proof (Z.pow_pos_nonneg 2 (ax_size a) ltac:(lia) H1); nia).
  destruct (sw_beat_any tw (fun t _ _ => (t, Err ValueError)) L HLp true a n q w t log resp H1 H2 ltac:(lia) Hq HLq Hw1) as (t' & new & E & Hb & Hne).
  { rewrite Hl1. destruct ws; [change (zlen (@nil wch)) with 0 in *; lia|]. rewrite zlen_cons in *. pose proof (zlen_nonneg ws). lia. }
  exists t', new, (if existsb failed new then SLVERR else resp). split; auto. cbn [ws_in]. rewrite E. split; [|split; [exact Hb|exact Hne]].
  unfold w_beats. cbn [sl_at ss_left]. destruct ws as [|w2 ws].
  - change (zlen (@nil wch)) with 0 in *. replace (0 <? beats a - (n + 1)) with false by lia. reflexivity.
  - rewrite zlen_cons in *. pose proof (zlen_nonneg ws). replace (0 <? beats a - (n + 1)) with true by lia. reflexivity.
Qed.

Lemma evs_cons p gen : evs (p :: gen) = EvAW (fst p) :: map EvW (snd p) ++ evs gen.
Proof. reflexivity. Qed.

(** one AW transfer *)
Lemma wst_start a ws tl : wburst_ok L (a, ws) -> ws_in lw L true (WIdle tl) (EvAW a) = WBeat (sl_at a 0 OKAY) tl /\ ws <> [].
Proof.
  intros (H1 & H2 & H3 & H4 & H5 & H6 & H7). cbn [fst snd] in *. cbn [ws_in].
  destruct (sl_start_spec L a H1 H2) as [[_ E]|[Hc _]]; [|contradiction]. rewrite E. unfold w_beats. cbn [sl_at ss_left].
  assert (Hb : 1 <= beats a) by (unfold beats; lia). replace (0 <? beats a - 0) with true by lia. split; auto.
  intros ->. change (zlen (@nil wch)) with 0 in H5. lia.
Qed.

Lemma wst_in s e rem : wst s (e :: rem) -> ready (R := bch) ws_act s ->
  wst (ws_in lw L true s e) rem /\ ws_act (T := TL) s = AWait (w_opens e).
Proof.
  intros H [k Hk]. destruct s as [tl|b [t log]|b tl|tl]; try discriminate; cbn [wst] in H.
  - destruct H as (gen & Hr & Hg). destruct gen as [|[a ws] gen]; [discriminate|]. rewrite evs_cons in Hr. cbn [fst snd] in Hr. injection Hr as -> ->.
    inversion Hg as [|? ? Hb Hg']; subst. destruct (wst_start a ws tl Hb) as [-> Hne]. split; [|reflexivity].
    destruct Hb as (H1 & H2 & H3 & H4 & H5 & H6 & H7). cbn [fst snd] in *. cbn [wst].
    exists a, 0, OKAY, ws, gen. rewrite Z.add_0_l. repeat (split; [solve [auto; lia]|]). auto.
  - destruct H as (a & n & resp & ws & gen & -> & Hr & Hg & H1 & H2 & H3 & Hn & Hlen & Hw & Hl & Hne).
    destruct ws as [|w ws]; [congruence|]. cbn [map app] in Hr. injection Hr as -> ->.
    destruct (wst_beat a n resp w ws gen t log H1 H2 H3 Hn Hlen Hw Hl Hg) as (t' & new & resp' & _ & -> & _). split; [|reflexivity].
    destruct ws as [|w2 ws]; cbn [wst]; [exists gen; auto|]. exists a, (n + 1), resp', (w2 :: ws), gen.
    inversion Hw; subst. rewrite zlen_cons in Hlen. destruct (last_ok_split _ _ Hl) as [_ Hl2].
    repeat (split; [solve [auto; lia]|]). split; [apply Hl2; discriminate|discriminate].
Qed.
Lemma wst_poke f s rem : pk f -> wst s rem -> wst (f s) rem.
Proof. intros Hf. destruct (Hpk f Hf) as [g ->]. now destruct s. Qed.
Lemma wst_trace s es o sa : trace s es o sa -> forall more, wst s (es ++ more) -> wst sa more.
Proof.
  induction 1 as [s|s e es o s' Ha Ht IH|s r s1 es o s' Ha Ht IH|s s1 es o s' Ha Ht IH|s f es o s' Hf Ht IH]; intros more H; auto.
  - apply IH. apply wst_in; auto. eexists; eauto.
  - apply IH. destruct s; try discriminate. injection Ha as -> <-. exact H.
  - destruct s; discriminate.
  - apply IH. now apply wst_poke.
Qed.
Lemma wst_go rem : forall s, wst s rem -> exists rest s', trace0 s rem rest s' /\ Jw s'.
Proof.
  assert (K : forall rem s, ready (R := bch) ws_act s -> wst s rem -> (forall e rem', rem = e :: rem' -> forall s, wst s rem' -> exists rest s', trace0 s rem' rest s' /\ Jw s') ->
     exists rest s', trace0 s rem rest s' /\ Jw s').
  { intros [|e rem'] s Hr H IH.
    - destruct Hr as [k Hk]. destruct s as [tl|b tl| |]; try discriminate.
      + exists [], (WIdle tl). split; [constructor|]. now exists tl.
      + cbn [wst] in H. destruct H as (a & n & resp & ws & gen & -> & Hr & _ & _ & _ & _ & _ & _ & _ & _ & Hne). destruct ws; [congruence|discriminate].
    - destruct (wst_in s e rem' H Hr) as [H1 H2]. destruct (IH e rem' eq_refl _ H1) as (rest & s' & Ht & Hj). exists rest, s'. split; auto. now apply st_in. }
  induction rem as [|e rem IH]; intros s H; destruct s as [tl|b tl|b tl|tl]; try contradiction.
  1, 2: apply K; auto; [now eexists|intros; discriminate].
  - destruct (K [] (WIdle tl)) as (rest & s' & Ht & Hj); [now eexists|exact H|intros; discriminate|]. exists (b :: rest), s'. split; auto. eapply st_emit; [reflexivity|auto].
  - apply K; auto; [now eexists|]. intros ? ? [= <- <-]. exact IH.
  - apply K; auto; [now eexists|]. intros ? ? [= <- <-]. exact IH.
  - destruct (K (e :: rem) (WIdle tl)) as (rest & s' & Ht & Hj); [now eexists|exact H| |].
    + intros ? ? [= <- <-]. exact IH.
    + exists (b :: rest), s'. split; auto. eapply st_emit; [reflexivity|auto].
Qed.

Lemma wlog_poke f s : pk f -> snd (ws_target (f s)) = snd (ws_target s).
Proof. intros Hf. destruct (Hpk f Hf) as [g ->]. now destruct s. Qed.

Lemma wans_nil : wans [] [] [].
Proof. exists []. repeat split; constructor. Qed.

Lemma wfin_trace s es o s' : trace s es o s' -> Jw s' -> exists new, snd (ws_target s') = snd (ws_target s) ++ new /\ wfin s es o new.
Proof.
  induction 1 as [s|s e es o s' Ha Ht IH|s r s1 es o s' Ha Ht IH|s s1 es o s' Ha Ht IH|s f es o s' Hf Ht IH]; intros Hj.
  - exists []. rewrite app_nil_r. split; auto. destruct Hj as [tl ->]. cbn [wfin]. intros gen Hr _. destruct gen; [apply wans_nil|discriminate].
  - destruct (IH Hj) as (new & E & HF). clear IH. destruct s as [tl|b [t log]| |]; try discriminate; cbn [wfin].
    + exists new. assert (Hx : snd (ws_target (ws_in lw L true (WIdle tl) e)) = snd tl).
      { cbn [ws_in]. destruct e as [a|]; [|reflexivity]. destruct (sl_start L a); [|reflexivity]. unfold w_beats. now destruct (0 <? _). }
      split; [rewrite E, Hx; reflexivity|].
      intros [|[a ws] gen] Hr Hg; [discriminate|]. rewrite evs_cons in Hr. cbn [fst snd] in Hr. injection Hr as -> ->.
      inversion Hg as [|? ? Hb Hg']; subst. destruct (wst_start a ws tl Hb) as [Es Hne]. rewrite Es in HF. cbn [wfin] in HF.
      destruct Hb as (H1 & H2 & H3 & H4 & H5 & H6 & H7). cbn [fst snd] in *.
      destruct (HF a 0 OKAY ws gen eq_refl eq_refl Hg' H1 H2 H3 ltac:(lia) ltac:(lia) H6 H7 Hne) as (news & rs' & cs' & G1 & (ans & G2 & -> & ->) & -> & ->).
      eexists ((news, _) :: ans). split; [constructor; [|exact G2]|split; reflexivity]. split; [cbn [fst snd]; now rewrite eff_w_true|reflexivity].
    + destruct e as [a|w].
      { exfalso. discriminate. }
      cbn [ws_in] in E, HF.
      (* whatever the beat: the log grows *)
      assert (Hgrow : exists n1, snd (fst (sw_beat lw L true b w (t, log))) = log ++ n1).
      { unfold sw_beat. destruct (to_bytes _ _ _) as [d|]; [|exists []; now rewrite app_nil_r]. cbv zeta.
        match goal with |- context [sw_perform lw (t, log) ?ops] => destruct (sw_perform_log tw ops t log) as (t1 & n1 & rst & E1 & _) end.
        rewrite E1. exists n1. destruct (Bool.eqb _ _); reflexivity. }
      destruct Hgrow as (n1 & Hn1).
      assert (Hlog1 : snd (ws_target (ws_in lw L true (WBeat b (t, log)) (EvW w))) = log ++ n1).
      { cbn [ws_in]. destruct (sw_beat lw L true b w (t, log)) as [tl1 [s1|]]; cbn [fst] in Hn1; [unfold w_beats; destruct (0 <? _)|]; exact Hn1. }
      exists (n1 ++ new). split; [rewrite E, app_assoc; f_equal; exact Hlog1|].
      intros a n resp ws gen -> Hr Hg H1 H2 H3 Hn Hlen Hw Hl Hne.
      destruct ws as [|w0 ws]; [congruence|]. cbn [map app] in Hr. injection Hr as <- ->.
      destruct (wst_beat a n resp w ws gen t log H1 H2 H3 Hn Hlen Hw Hl Hg) as (t' & n1' & resp' & Er & Es & Hb & Hne1).
      assert (n1' = n1) as ->.
      { rewrite Es in Hlog1. apply (app_inv_head log). rewrite <- Hlog1. now destruct ws. }
      change (wfin (ws_in lw L true (WBeat (sl_at a n resp) (t, log)) (EvW w)) (map EvW ws ++ evs gen) o new) in HF. rewrite Es in HF.
      destruct ws as [|w2 ws]; cbn [wfin] in HF.
      * destruct (HF gen eq_refl Hg) as (rs' & G1 & ->). exists [n1], rs', new. split; [|split; [exact G1|split; [cbn; now rewrite app_nil_r|]]].
        { cbn [logged]. auto. } cbn [concat]. rewrite app_nil_r, Er. reflexivity.
      * inversion Hw; subst. rewrite zlen_cons in Hlen. destruct (last_ok_split _ _ Hl) as [_ Hl2].
        destruct (HF a (n + 1) _ (w2 :: ws) gen eq_refl eq_refl Hg H1 H2 H3 ltac:(lia) ltac:(lia) ltac:(auto) ltac:(apply Hl2; discriminate) ltac:(discriminate))
          as (news & rs' & cs' & G1 & G2 & -> & ->).
        exists (n1 :: news), rs', cs'. split; [cbn [logged]; auto|]. split; [exact G2|]. cbn [concat]. split; [now rewrite app_assoc|].
        rewrite existsb_app. destruct (existsb failed n1), (existsb failed (concat news)); reflexivity.
  - destruct (IH Hj) as (new & E & HF). destruct s; try discriminate. injection Ha as -> <-. exists new. split; [exact E|].
    cbn [wfin] in *. intros gen Hr Hg. exists o. split; auto.
  - destruct s; discriminate.
  - destruct (IH Hj) as (new & E & HF). exists new. rewrite E, (wlog_poke f s Hf). split; auto.
    destruct (Hpk f Hf) as [g ->]. now destruct s.
Qed.

(** ** the operation as a whole *)
Lemma op_served s o u rs s' : Jw s -> okw o u -> trace s (w_sends c o u) rs s' -> Jw s' ->
  exists cs, snd (ws_target s') = snd (ws_target s) ++ cs /\ servedw o u rs cs.
Proof.
  intros [tl ->] Hok Ht Hj. destruct (wfin_trace _ _ _ _ Ht Hj) as (cs & E & HF). exists cs. split; [exact E|]. clear E Ht.
  destruct (op_gen o u Hok) as (gen & Hev & Hb & Hid & Hby & HL). cbn [wfin] in HF. destruct (HF gen Hev Hb) as (ans & HA & -> & ->). clear HF. rename HA into HF.
  assert (Hlen : length ans = length gen) by (clear - HF; induction HF; cbn; congruence).
  set (cs := flat_map (fun x => concat (fst x)) ans) in *.
  unfold servedw. rewrite Hev. change (evs gen) with (flat_map (fun b => EvAW (fst b) :: map EvW (snd b)) gen). rewrite aw_of_gen, !map_length.
  split; [|split; [exact Hlen|split; [|split; [|split]]]].
  - clear - HF Hid. induction HF as [|b x gen ans Hx HF IH]; cbn; constructor; inversion Hid; subst.
    + destruct Hx as [_ ->]. reflexivity. + auto.
  - exists (map b_user (map snd ans)).
    pose proof (mw_resp_spec (bursts_of (map fst gen)) (map snd ans) [] OKAY []) as HR. rewrite app_nil_r in HR.
    rewrite HR by (unfold bursts_of; now rewrite !map_length). cbn [app]. do 3 f_equal.
    assert (H1 : Forall (fun b => b = OKAY \/ b = SLVERR) (map b_resp (map snd ans)) /\
                 existsb rerr (map b_resp (map snd ans)) = existsb failed cs).
    { subst cs. clear - HF. induction HF as [|b x gen ans Hx HF [IH1 IH2]]; [cbn; auto|]. destruct Hx as [_ Hx].
      cbn [map flat_map existsb]. rewrite existsb_app, IH2, Hx. cbn [b_resp]. split.
      - constructor; auto. destruct (existsb failed _); auto.
      - destruct (existsb failed (concat (fst x))); reflexivity. }
    destruct H1 as [H1 <-]. apply agg_slv. exact H1.
  - rewrite <- Hby. subst cs. clear - HF. induction HF as [|b x gen ans Hx HF IH]; [intros ? []|]. destruct Hx as [Hx _].
    rewrite eff_w_true in Hx. destruct (logged_bytes _ _ _ _ _ Hx) as [I1 _]. cbn [flat_map]. rewrite calls_bytes_app.
    unfold all_bytes. cbn [flat_map]. apply incl_app; intros z Hz; rewrite in_app_iff; auto.
  - rewrite <- Hby. subst cs. clear - HF. induction HF as [|b x gen ans Hx HF IH]; [reflexivity|]. destruct Hx as [Hx _].
    rewrite eff_w_true in Hx. destruct (logged_bytes _ _ _ _ _ Hx) as [_ I2]. cbn [flat_map]. rewrite calls_bytes_app, existsb_app.
    intros Hf. apply orb_false_iff in Hf as [F1 F2]. unfold all_bytes. cbn [flat_map]. rewrite (I2 F1). f_equal. now apply IH.
  - rewrite <- Hby. subst cs. clear - HF HL. induction HF as [|b x gen ans Hx HF IH]; [apply spared_nil|]. destruct Hx as [Hx _].
    rewrite eff_w_true in Hx. cbn [flat_map all_bytes]. apply spared_app; auto. now apply logged_spared.
Qed.

Lemma w_ext s o u es more rs sa : Jw s -> okw o u -> w_sends c o u = es ++ more -> trace s es rs sa ->
  exists rest s', trace0 sa more rest s' /\ Jw s'.
Proof.
  intros [tl ->] Hok Hs Ht. apply wst_go. eapply wst_trace; [exact Ht|]. rewrite <- Hs. cbn [wst].
  destruct (op_gen o u Hok) as (gen & Hev & Hb & _). exists gen. auto.
Qed.
Lemma w_sem s o u rs s' : Jw s -> okw o u -> trace s (w_sends c o u) rs s' -> Jw s' ->
  length rs = length (pat (w_sends c) w_epat o u) /\ Forall (fun r => b_id r = u) rs.
Proof.
  intros H1 H2 H3 H4. destruct (op_served _ _ _ _ _ H1 H2 H3 H4) as (cs & _ & K1 & K2 & _). rewrite w_pat_len by auto. auto.
Qed.

(** ** B transfers of an ID: never more than AW transfers *)
Definition pend_b (s : wslv TL) (t : Z) : nat :=
  match s with
  | WBeat b _ => if ss_id b =? t then 1%nat else 0%nat
  | WResp b _ => if b_id b =? t then 1%nat else 0%nat
  | _ => 0%nat
  end.
Lemma ws_count s es o s' t : trace s es o s' ->
  (length (filter (fun r => Z.eqb (b_id r) t) o) + pend_b s' t <= length (P_sys.owedE w_epat aw_tag t es) + pend_b s t)%nat.
Proof.
  induction 1 as [s|s e es o s' Ha Ht IH|s r s1 es o s' Ha Ht IH|s s1 es o s' Ha Ht IH|s f es o s' Hf Ht IH]; [cbn; lia| | |destruct s; discriminate|].
  - unfold P_sys.owedE in *. destruct s as [tl|b tl| |]; try discriminate; injection Ha as Ha; destruct e as [a|w]; try discriminate.
    + cbn [filter aw_tag]. assert (Hp : (pend_b (ws_in lw L true (WIdle tl) (EvAW a)) t <= if (ax_id a =? t)%Z then 1 else 0)%nat).
      { cbn [ws_in]. destruct (sl_start L a) as [s1|] eqn:Es; [|cbn; lia].
        assert (Hid : ss_id s1 = ax_id a).
        { unfold sl_start in Es. destruct (_ && _); [|discriminate]. destruct (_ && _); [discriminate|]. injection Es as <-. reflexivity. }
        unfold w_beats. destruct (0 <? ss_left s1); cbn [pend_b b_id]; rewrite Hid; destruct (ax_id a =? t)%Z; lia. }
      destruct (ax_id a =? t)%Z; cbn [flat_map w_epat app length pend_b] in *; lia.
    + cbn [filter aw_tag]. assert (Hp : (pend_b (ws_in lw L true (WBeat b tl) (EvW w)) t <= pend_b (WBeat b tl) t)%nat).
      { cbn [ws_in pend_b]. destruct (sw_beat lw L true b w tl) as [t1 [s1|er]] eqn:Eb; [|cbn; lia].
        assert (Hid : ss_id s1 = ss_id b).
        { unfold sw_beat in Eb. destruct (to_bytes _ _ _); [|discriminate]. destruct (sw_perform _ _ _) as [t2 r2].
          destruct (Bool.eqb _ _); [|discriminate]. injection Eb as _ <-. reflexivity. }
        unfold w_beats. destruct (0 <? ss_left s1); cbn [pend_b b_id]; rewrite Hid; lia. }
      destruct (0 =? t); cbn [flat_map w_epat app length] in *; lia.
  - destruct s; try discriminate. injection Ha as -> <-. cbn [pend_b filter] in *. destruct (b_id r =? t); cbn [length] in *; lia.
  - destruct (Hpk f Hf) as [g ->]. now destruct s.
Qed.

(** ** the calls of the target *)
Definition wlog (s : wslv TL) : list call := snd (ws_target s).

Lemma call_ok_of word ops new rest : 0 < L -> word mod L = 0 -> Forall (op_ok word L) ops -> ops = map fst new ++ rest ->
  Forall (call_ok L) new.
Proof.
  intros HL Hw Ho ->. apply Forall_app in Ho as [Ho _]. rewrite Forall_map in Ho. eapply Forall_impl; [|exact Ho].
  intros [[a d] r] (H1 & H2 & H3 & H4). cbn [fst snd] in *. split; [exact H2|]. split; [exact H4|]. cbn [fst snd].
  assert (forall x, word <= x < word + L -> down L x = word).
  { intros x Hx. unfold down.
    replace (x mod L) with (x - word); [lia|]. symmetry.
    replace x with ((x - word) + (word / L) * L) at 1.
    - rewrite Z.mod_add by lia. apply Z.mod_small. lia.
    - pose proof (Z.div_mod word L ltac:(lia)). lia. }
  rewrite !H; lia.
Qed.
Lemma perform_replays ops : forall t log t' new r, sw_perform lw (t, log) ops = ((t', log ++ new), r) -> replays tw t new t'.
Proof.
  induction ops as [|[a d] ops IH]; intros t log t' new r H; cbn [sw_perform] in H.
  - injection H as <- H _. rewrite <- (app_nil_r log) in H at 1. apply app_inv_head in H. subst new. reflexivity.
  - unfold log_write in H at 1. cbn [fst snd] in H. destruct (tw t a d) as [t1 r1] eqn:E. destruct r1 as [[]|e].
    + destruct (sw_perform_log tw ops t1 (log ++ [(a, d, Ok tt)])) as (t2 & n2 & rest & E2 & _).
      rewrite H in E2. injection E2 as -> E2 _. rewrite <- app_assoc in E2. apply app_inv_head in E2. subst new.
      cbn [app replays]. rewrite E. split; auto. eapply IH. rewrite <- app_assoc. exact H.
    + injection H as -> H _. apply app_inv_head in H. subst new. cbn. rewrite E. auto.
Qed.

Lemma sw_beat_log s w t log : 0 < L -> let '((t', log'), r) := sw_beat lw L true s w (t, log) in
  exists new, log' = log ++ new /\ Forall (call_ok L) new /\ replays tw t new t'.
Proof.
  intros HL. unfold sw_beat. destruct (to_bytes _ _ _) as [data|e] eqn:Ed; [|exists []; rewrite app_nil_r; cbn; auto].
  cbv zeta.
  destruct (sw_perform_log tw (sw_ops (ss_cur s / L * L) data (w_strb w) (zrange 0 L) 0 None) t log) as (t' & new & rest & E & _ & Hops & _).
  pose proof (perform_replays _ t log t' new _ E) as Hr.
  destruct (beat_ops L (ss_cur s / L * L) w data Ed ltac:(lia)) as (_ & Ho). cbn zeta in Ho.
  pose proof (call_ok_of (ss_cur s / L * L) _ new rest HL ltac:(apply Z.mod_mul; lia) Ho Hops) as Hc.
  destruct (sw_perform lw (t, log) _) as [[t1 log1] r]. injection E as -> -> _. destruct (Bool.eqb _ _); eauto.
Qed.
Lemma in_log s e : 0 < L -> ready (R := bch) ws_act s ->
  exists new, wlog (ws_in lw L true s e) = wlog s ++ new /\ Forall (call_ok L) new /\
    replays tw (fst (ws_target s)) new (fst (ws_target (ws_in lw L true s e))).
Proof.
  intros HL [k Hk]. destruct s as [tl|b [t log]| |]; try discriminate; destruct e as [a|w]; cbn [ws_in];
    try (exists []; rewrite app_nil_r; cbn; now auto).
  - exists []. rewrite app_nil_r. destruct (sl_start L a); [unfold w_beats; destruct (0 <? _)|]; cbn; auto.
  - pose proof (sw_beat_log b w t log HL) as K. destruct (sw_beat lw L true b w (t, log)) as [[t1 l1] [s1|er]];
      destruct K as (new & -> & K1 & K2); exists new; (split; [|split; [exact K1|]]); try (unfold w_beats; destruct (0 <? _)); try reflexivity; exact K2.
Qed.
Lemma trace_log s es o s' : 0 < L -> trace s es o s' -> exists more, wlog s' = wlog s ++ more /\ Forall (call_ok L) more.
Proof.
  intros HL. induction 1 as [s|s e es o s' Ha Ht IH|s r s1 es o s' Ha Ht IH|s s1 es o s' Ha Ht IH|s f es o s' Hf Ht IH]; [| | |destruct s; discriminate|].
  - exists []. rewrite app_nil_r. auto.
  - destruct IH as (more & -> & Hm). destruct (in_log s e HL) as (new & -> & K1 & _); [eexists; eauto|].
    exists (new ++ more). split; [now rewrite app_assoc|now apply Forall_app].
  - destruct s; try discriminate. injection Ha as -> <-. auto.
  - destruct IH as (more & -> & Hm). exists more. unfold wlog. rewrite (wlog_poke f s Hf). auto.
Qed.
Lemma trace_replays s es o s' : 0 < L -> trace0 s es o s' -> exists more, wlog s' = wlog s ++ more /\
  replays tw (fst (ws_target s)) more (fst (ws_target s')).
Proof.
  intros HL. induction 1 as [s|s e es o s' Ha Ht IH|s r s1 es o s' Ha Ht IH|s s1 es o s' Ha Ht IH|s f es o s' Hf Ht IH]; [| | |destruct s; discriminate|destruct Hf].
  - exists []. rewrite app_nil_r. cbn. auto.
  - destruct IH as (more & -> & Hm). destruct (in_log s e HL) as (new & -> & K1 & K2); [eexists; eauto|].
    exists (new ++ more). split; [now rewrite app_assoc|eapply replays_app; eauto].
  - destruct s; try discriminate. injection Ha as -> <-. auto.
Qed.

(** after the last W of a burst the task answers *)
Definition busyw (s : wslv TL) : Prop := match s with WIdle _ => False | _ => True end.
Lemma busy_emits s es o s' : trace0 s es o s' -> busyw s -> Jw s' -> o <> [].
Proof.
  induction 1 as [s|s e es o s' Ha Ht IH|s r s1 es o s' Ha Ht IH|s s1 es o s' Ha Ht IH|s f es o s' [] Ht IH]; intros Hb Hj.
  - destruct Hj as [tl ->]. destruct Hb.
  - apply IH; auto. destruct s as [|b tl| |]; try discriminate; [destruct Hb|]. injection Ha as Ha. destruct e; try discriminate.
    cbn [ws_in]. destruct (sw_beat _ _ _ _ _ _) as [t1 [s1|]]; [unfold w_beats; destruct (0 <? _)|]; exact I.
  - discriminate.
  - destruct s; discriminate.
Qed.
Lemma ws_last s e o s' : trace0 s [e] o s' -> Jw s' -> o <> [].
Proof.
  remember [e] as es eqn:Ees. intros H. revert e Ees. induction H as [s|s x es o s' Ha Ht IH|s r s1 es o s' Ha Ht IH|s s1 es o s' Ha Ht IH|s f es o s' [] Ht IH]; intros e He Hj.
  - discriminate.
  - injection He as -> ->. apply (busy_emits _ _ _ _ Ht); auto.
    destruct s as [tl|b tl| |]; try discriminate; injection Ha as Ha; destruct e as [a|w]; try discriminate; cbn [ws_in].
    + destruct (sl_start L a); [unfold w_beats; destruct (0 <? _)|]; exact I.
    + destruct (sw_beat _ _ _ _ _ _) as [t1 [s1|]]; [unfold w_beats; destruct (0 <? _)|]; exact I.
  - discriminate.
  - destruct s; discriminate.
Qed.

Lemma quiet_log s es o s' : trace s es o s' -> es = [] -> Jw s -> wlog s' = wlog s /\ Jw s'.
Proof.
  induction 1 as [s|s e es o s' Ha Ht IH|s r s1 es o s' Ha Ht IH|s s1 es o s' Ha Ht IH|s f es o s' Hf Ht IH]; intros He [tl ->]; try discriminate; auto.
  - split; [reflexivity|now exists tl].
  - destruct (IH He) as [E1 E2]; [destruct (Hpk f Hf) as [g ->]; eexists; reflexivity|]. split; auto. rewrite E1. destruct (Hpk f Hf) as [g ->]. reflexivity.
Qed.

(** ** the instance *)
Local Notation otrw := (otr (w_sends c) w_opens ws_act (ws_in lw L true) pk okw Jw).
Lemma otr_written s A rss s' : 0 < L -> otrw s A rss s' -> exists ex, rss = map fst ex /\ Forall2 (written c) A ex /\
  wlog s' = wlog s ++ concat (map snd ex).
Proof.
  intros HL. induction 1 as [s s' Hj Ht Hj'|s o u rs s1 A rss s2 Hj Hok Ht Hj1 Ho (ex & -> & HF & El)].
  - exists []. split; auto. split; [constructor|]. cbn [map concat]. destruct (wfin_trace _ _ _ _ Ht Hj') as (new & E & F). unfold wlog. rewrite E. f_equal.
    destruct Hj as [tl ->]. cbn [wfin] in F. destruct (F [] eq_refl (Forall_nil _)) as (ans & A1 & _ & ->). now inversion A1.
  - destruct (op_served _ _ _ _ _ Hj Hok Ht Hj1) as (cs & E & (H1 & H2 & (us & H3) & H4 & H5 & H6)).
    exists ((rs, cs) :: ex). split; auto. cbn [map concat snd]. unfold wlog in *. split; [|rewrite El, E, app_assoc; reflexivity].
    constructor; auto. split; [exact H1|]. split; [|split; [|split; [assumption|split; assumption]]].
    + unfold write_returns. unfold w_sends in H3. now rewrite H3.
    + destruct (trace_log _ _ _ _ HL Ht) as (more & Hm & Hc). unfold wlog in Hm. rewrite E in Hm. apply app_inv_head in Hm. now subst.
Qed.

Lemma w_htag o u e : In e (w_sends c o u) -> w_opens e = true -> aw_tag e = u.
Proof. unfold w_sends, master_write. cbn zeta. apply mw_loop_tag. Qed.

Variable idn : Z.
Hypothesis Hidn : 0 < idn.
Variable t0 : T.
Local Notation step := (wsys_step c idn lw L true).
Local Notation s0 := (WIdle (t0, [])).

Theorem wsys_main h : Forall (P_sys.poke_ok pk) h -> let '(y, l) := wsys_run c idn lw L true (t0, []) h in
  let A := assigned op_id idn 0 (xstarted l) in
  let log := wlog (y_s y) in
  Forall (fun p => write_legal L (fst p)) A ->
  xcrashed l = false /\
  (forall d, In d (xcompleted l) -> exists u, snd (fst d) = Some u) /\
  exists ex es o more rest sN, sendsA (w_sends c) A = es ++ more /\ trace s0 es o (y_s y) /\ trace0 (y_s y) more rest sN /\ wlog sN = concat (map snd ex) /\
    Forall2 (written c) A ex /\ is_prefix log (concat (map snd ex)) /\
    (forall u, exists k, (k <= length (with_tag u A))%nat /\
       completed_on u l = combine (firstn k (with_tag u A)) (firstn k (map fst (on_tag u A ex)))) /\
    (forall i o u, nth_error A i = Some (o, u) -> wc_data (snd o) <> [] ->
       (length (with_tag u (firstn i A)) < length (completed_on u l))%nat ->
       is_prefix (concat (map snd (firstn (S i) ex))) log) /\
    (quiescent step y -> log = concat (map snd ex) /\ e_pend (y_m y) = [] /\
       forall u, completed_on u l = combine (with_tag u A) (map fst (on_tag u A ex))).
Proof.
  intros Hh.
  assert (Hpk0 : forall f (s : wslv TL) k, pk f -> ws_act (f s) = AWait k <-> ws_act s = AWait k).
  { intros f s k Hf. destruct (Hpk f Hf) as [g ->]. destruct s; cbn; try tauto. split; discriminate. }
  assert (HJpk : forall f s, pk f -> Jw (f s) <-> Jw s).
  { intros f s Hf. destruct (Hpk f Hf) as [g ->]. unfold Jw. destruct s; cbn; split; intros [tl E]; try discriminate; eexists; reflexivity. }
  assert (HJr : forall s, Jw s -> ready (R := bch) ws_act s) by (intros s [tl ->]; exists true; reflexivity).
  assert (Htau : forall s s' s'' : wslv TL, ws_act s = ATau s' -> strace w_opens ws_act (ws_in lw L true) nopk s' [] [] s'' -> ~ Jw s'') by (intros s s' s''; destruct s; discriminate).
  pose proof (sys_main (w_sends c) w_opens w_epat w_chk b_id op_id idn w_opens ws_act (ws_in lw L true) pk Hpk0 okw Jw HJr HJpk w_ext w_sem Htau
    aw_tag w_htag) as M.
  assert (H0 : forall e, w_opens e = false -> w_epat e = []) by (intros [a|w]; [discriminate|reflexivity]).
  assert (H1 : forall e, w_opens e = true -> exists k, w_epat e = repeat false k ++ [true]) by (intros [a|w]; [exists 0%nat; reflexivity|discriminate]).
  specialize (M H0 H1 Hidn s0 (ex_intro _ (t0, []) eq_refl)).
  assert (Hc : forall A es more o s', okA okw A -> sendsA (w_sends c) A = es ++ more -> trace s0 es o s' -> tag_ok w_epat w_chk b_id aw_tag es o).
  { intros A es more o s' _ _ Ht t. split; [|reflexivity]. pose proof (ws_count _ _ _ _ t Ht) as K. cbn [pend_b] in K. lia. }
  specialize (M Hc). assert (Hl : forall c0 u es e, okw c0 u -> w_sends c c0 u = es ++ [e] -> forall s o s',
    trace0 s [e] o s' -> Jw s' -> o <> []) by (intros; eapply ws_last; eauto).
  specialize (M Hl h Hh). unfold wsys_run. destruct (y_run _ _ _ _ _ _ _ _ _ _ _ h) as [y l]. cbn zeta.
  intros HA. specialize (M HA). change (asgs op_id idn l) with (assigned op_id idn 0 (xstarted l)) in M.
  set (A := assigned op_id idn 0 (xstarted l)) in *.
  destruct M as (Hcr & _ & Hcomp & B1 & r1 & sm & es' & o' & B2 & r2 & rest & sN & es & more & o & HO & Hcomp2 & Hdone & Hq).
  pose proof HO as (K1 & K2 & K3 & K4 & K5 & K6 & K7 & K8 & K9 & K10).
  split; [exact Hcr|]. split; [exact Hcomp|].
  assert (Htr : trace s0 es o (y_s y)).
  { rewrite K4, K5. eapply strace_app; [|exact K6]. eapply otr_strace; eauto. }
  assert (HLq : A = [] \/ 0 < L).
  { destruct A as [|p A']; auto. right. inversion HA as [|? ? (HG & _) _]; subst. destruct (bus_ok_facts _ _ HG) as (q & p' & _ & _ & _ & _ & _ & HL0). exact HL0. }
  destruct HLq as [HAe|HL].
  { (* nothing started *)
    rewrite HAe in *. symmetry in K1. apply app_eq_nil in K1 as [-> ->]. cbn in K8. symmetry in K8. apply app_eq_nil in K8 as [-> ->].
    assert (r1 = []) as -> by (inversion K2; auto). assert (r2 = []) as -> by (inversion K3; auto).
    cbn [concat app sendsA flat_map] in K4, K5, K9. symmetry in K9. apply app_eq_nil in K9 as [-> ->]. subst es o.
    destruct (quiet_log _ _ _ _ Htr eq_refl (ex_intro _ _ eq_refl)) as (Elog & Jy).
    destruct (quiet_log _ _ _ _ (strace_weaken _ _ _ pk _ _ _ _ K7) eq_refl Jy) as (ElogN & _).
    rewrite Elog in ElogN. change (wlog s0) with (@nil call) in Elog, ElogN.
    exists [], [], [], [], [], sN. split; [reflexivity|]. split; [exact Htr|]. split; [exact K7|]. split; [exact ElogN|].
    split; [constructor|]. split; [rewrite Elog; exists []; reflexivity|].
    split; [exact Hcomp2|]. split; [intros [|i]; discriminate|].
    intros Hqq. destruct (Hq Hqq) as (_ & _ & Hpe & _ & Hall). split; [exact Elog|]. split; [exact Hpe|]. exact Hall. }
  destruct (otr_written _ _ _ _ HL K2) as (ex1 & -> & HF1 & El1). destruct (otr_written _ _ _ _ HL K3) as (ex2 & -> & HF2 & El2).
  cbn [wlog ws_target snd app] in El1.
  set (ex := ex1 ++ ex2). assert (HF : Forall2 (written c) A ex) by (rewrite K1; now apply Forall2_app).
  assert (Hlen : length ex = length A) by (clear - HF; induction HF; cbn; congruence).
  assert (ElN : wlog sN = concat (map snd ex)) by (rewrite El2, El1; unfold ex; rewrite map_app, concat_app; reflexivity).
  destruct (trace_log _ _ _ _ HL (strace_weaken _ _ _ pk _ _ _ _ K7)) as (lg & Hlg & _).
  destruct (trace_log _ _ _ _ HL K6) as (lg1 & Hlg1 & _).
  exists ex, es, o, more, rest, sN. split; [rewrite K1, K4; unfold sendsA in *; rewrite flat_map_app, K8, <- app_assoc; reflexivity|]. split; [exact Htr|]. split; [exact K7|]. split; [exact ElN|]. split; [exact HF|].
  split; [exists lg; congruence|]. rewrite <- map_app in Hcomp2, Hq. fold ex in Hcomp2, Hq. split; [|split].
  - intros u. rewrite <- combine_on_tag by auto. apply Hcomp2.
  - intros i p u Hi Hd Hk. apply nth_error_split in Hi. destruct Hi as (A1 & A2 & HAA & Hi1).
    rewrite HAA in Hk. rewrite <- Hi1, firstn_app, Nat.sub_diag, firstn_all in Hk. cbn [firstn] in Hk. rewrite app_nil_r in Hk.
    assert (Hok : write_legal L p). { rewrite HAA in HA. apply Forall_app in HA as [_ HA]. inversion HA; auto. }
    assert (Hpat : pat (w_sends c) w_epat p u <> []).
    { intros Hn. apply (f_equal (@length bool)) in Hn. rewrite w_pat_len in Hn by exact Hok.
      destruct (op_gen p u Hok) as (gen & Hev & _ & _ & Hby & _). rewrite Hev, aw_of_gen, map_length in Hn. destruct gen; [|discriminate].
      cbn in Hby. destruct (wc_data (snd p)) as [|d0 dd]; [congruence|]. unfold addressed, zrange in Hby.
      pose proof (zlen_nonneg dd). rewrite zlen_cons in Hby.
      replace (Z.to_nat (wc_addr (snd p) + (1 + zlen dd) - wc_addr (snd p))) with (S (Z.to_nat (zlen dd))) in Hby by lia. discriminate. }
    assert (Hb1 : (i < length B1)%nat) by (rewrite <- Hi1; exact (Hdone A1 p u A2 HAA Hpat Hk)).
    assert (Hl1 : length ex1 = length B1) by (clear - HF1; induction HF1; cbn; congruence).
    unfold ex. rewrite firstn_app. replace (S i - length ex1)%nat with 0%nat by lia. cbn [firstn]. rewrite app_nil_r.
    unfold is_prefix. rewrite Hlg1, El1. exists (concat (map snd (skipn (S i) ex1)) ++ lg1).
    rewrite <- (firstn_skipn (S i) ex1) at 1. rewrite map_app, concat_app, <- app_assoc. reflexivity.
  - intros Hqq. destruct (Hq Hqq) as (_ & _ & Hpe & HsN & Hall). split; [|split; [exact Hpe|]].
    + rewrite <- HsN. exact ElN.
    + intros u. rewrite <- combine_on_tag by auto. apply Hall.
Qed.
End W.

(** without changes by others *)
Theorem wsys_main0 {T} (tw : T -> Z -> list Z -> T * res unit) c idn t0 h : 0 < idn -> Forall no_poke h ->
  let '(y, l) := wsys_run c idn (log_write tw) (m_lanes c) true (t0, []) h in
  let A := assigned op_id idn 0 (xstarted l) in
  let '(t, log) := ws_target (y_s y) in
  Forall (fun p => write_legal (m_lanes c) (fst p)) A ->
  xcrashed l = false /\
  (forall d, In d (xcompleted l) -> exists u, snd (fst d) = Some u) /\
  exists ex tN, Forall2 (written c) A ex /\ is_prefix log (concat (map snd ex)) /\ replays tw t0 log t /\
    replays tw t0 (concat (map snd ex)) tN /\
    (forall u, exists k, (k <= length (with_tag u A))%nat /\
       completed_on u l = combine (firstn k (with_tag u A)) (firstn k (map fst (on_tag u A ex)))) /\
    (forall i o u, nth_error A i = Some (o, u) -> wc_data (snd o) <> [] ->
       (length (with_tag u (firstn i A)) < length (completed_on u l))%nat ->
       is_prefix (concat (map snd (firstn (S i) ex))) log) /\
    (quiescent (wsys_step c idn (log_write tw) (m_lanes c) true) y -> log = concat (map snd ex) /\ e_pend (y_m y) = [] /\
       forall u, completed_on u l = combine (with_tag u A) (map fst (on_tag u A ex))).
Proof.
  intros Hi Hh. pose proof (wsys_main tw c nopk (fun f (H : nopk f) => match H with end) idn Hi t0 h) as M.
  assert (Hp : Forall (P_sys.poke_ok (C := wop) nopk) h).
  { eapply Forall_impl; [|exact Hh]. intros [ | | | | | | | | | | | | | ]; cbn; tauto. }
  specialize (M Hp). destruct (wsys_run _ _ _ _ _ _ h) as [y l]. cbv zeta in *. unfold wlog in *.
  destruct (ws_target (y_s y)) as [t log] eqn:Et. intros HA.
  destruct (M HA) as (M1 & M2 & ex & es & o & more & rest & sN & T0 & T1 & T2 & EN & M3 & M4 & M5 & M6 & M7).
  split; auto. split; auto.
  assert (HLq : assigned op_id idn 0 (xstarted l) = [] \/ 0 < m_lanes c).
  { destruct (assigned op_id idn 0 (xstarted l)) as [|p A']; auto. right. inversion HA as [|? ? (HG & _) _]; subst. destruct (bus_ok_facts _ _ HG) as (q & p' & _ & _ & _ & _ & _ & HL0). exact HL0. }
  assert (HR : replays tw t0 log t /\ exists tN, replays tw t0 (concat (map snd ex)) tN).
  { destruct HLq as [HAe|HL].
    - rewrite HAe in *. inversion M3; subst. cbn in T0. symmetry in T0. apply app_eq_nil in T0 as [-> ->].
      assert (Es : y_s y = WIdle (t0, [])) by (inversion T1 as [| |? ? ? ? ? ? Hx|? ? ? ? ? Hx|? ? ? ? ? []]; auto; discriminate).
      rewrite Es in Et. injection Et as <- <-. cbn. eauto.
    - destruct (trace_replays tw c _ _ _ _ HL T1) as (lg & Hlg & Hrep). unfold wlog in Hlg. rewrite Et in Hlg, Hrep. cbn in Hlg, Hrep. subst lg.
      split; [exact Hrep|]. destruct (trace_replays tw c _ _ _ _ HL T2) as (lg & Hlg & Hrep2). unfold wlog in Hlg. rewrite EN in Hlg.
      rewrite Et in Hlg, Hrep2. cbn [fst snd] in *. exists (fst (ws_target sN)). rewrite Hlg. eapply replays_app; eauto. }
  destruct HR as [HR1 [tN HR2]]. exists ex, tN. auto 10.
Qed.

(** ** byte-storing targets *)
Lemma calls_range lo hi (l : list call) a d r : In (a, d, r) l -> 0 < zlen d ->
  Forall (fun p => lo <= fst p < hi) (calls_bytes l) -> lo <= a /\ a + zlen d <= hi.
Proof.
  intros Hin Hd Hf. rewrite Forall_forall in Hf.
  assert (K : forall i, 0 <= i < zlen d -> lo <= a + i < hi).
  { intros i Hi. specialize (Hf (a + i, znth 0 d i)). apply Hf. unfold calls_bytes. apply in_flat_map.
    exists (a, d, r). split; auto. cbn [fst snd]. unfold addressed, zrange. replace (a + zlen d - a) with (zlen d) by lia.
    assert (Hn : exists n, i = Z.of_nat n /\ (n < length d)%nat) by (exists (Z.to_nat i); unfold zlen in *; lia).
    destruct Hn as (n & -> & Hn). unfold zlen. rewrite Nat2Z.id. clear - Hn. revert a n Hn.
    induction d as [|x d IH]; intros a n Hn; [cbn in Hn; lia|]. cbn [length zseq combine]. destruct n as [|n].
    - left. unfold znth. cbn. f_equal. lia.
    - right. specialize (IH (a + 1) n ltac:(cbn in Hn; lia)). replace (a + Z.of_nat (S n)) with (a + 1 + Z.of_nat n) by lia.
      replace (znth 0 (x :: d) (Z.of_nat (S n))) with (znth 0 d (Z.of_nat n)); [exact IH|].
      unfold znth. rewrite !Nat2Z.id. reflexivity. }
  pose proof (K 0 ltac:(lia)). pose proof (K (zlen d - 1) ltac:(lia)). lia.
Qed.

Lemma replays_flat {T} L lo hi phi (inv : T -> Prop) view tw tr : flat_target L lo hi phi inv view tw tr ->
  forall l t t', inv t -> Forall (call_ok L) l -> Forall (fun p => lo <= fst p < hi) (calls_bytes l) -> replays tw t l t' ->
  existsb failed l = false /\ inv t' /\ view t' =f put phi (view t) (calls_bytes l).
Proof.
  intros Hft l. induction l as [|[[a d] r] l IH]; intros t t' Hi Hc Hr Hrep.
  - cbn in *. subst t'. auto using feq_refl.
  - inversion Hc as [|? ? Hk Hc']; subst. destruct (Hk : _ /\ _ /\ _) as (H1 & H2 & H3).
    destruct (calls_range lo hi _ a d r (in_eq _ _) H1 Hr) as (Ha & Hb).
    destruct (ft_write _ _ _ _ _ _ _ _ Hft t a d Hi H2 H1 Ha Hb H3) as (t1 & E & Hi1 & Hv1).
    cbn [replays] in Hrep. rewrite E in Hrep. cbn [fst snd] in Hrep. destruct Hrep as [<- Hrep].
    change (calls_bytes ((a, d, Ok tt) :: l)) with (addressed a d ++ calls_bytes l) in *. apply Forall_app in Hr as [_ Hr].
    destruct (IH t1 t' Hi1 Hc' Hr Hrep) as (F & Hi' & Hv'). cbn [existsb failed snd is_err orb]. split; [exact F|]. split; [exact Hi'|].
    rewrite put_app. intros x. rewrite Hv'. now apply put_feq.
Qed.

Lemma in_addressed (p : Z * Z) a d : In p (addressed a d) -> a <= fst p < a + zlen d.
Proof.
  destruct p as [x b]. intros H. apply in_combine_l in H. unfold zrange in H. pose proof (zlen_nonneg d).
  cbn [fst]. replace (a + zlen d) with (a + Z.of_nat (Z.to_nat (a + zlen d - a))) by lia.
  revert H. generalize (Z.to_nat (a + zlen d - a)) as n. intros n. clear. revert a. induction n as [|n IH]; intros a H; [destruct H|].
  cbn [zseq] in H. destruct H as [->|H]; [lia|]. specialize (IH _ H). lia.
Qed.
