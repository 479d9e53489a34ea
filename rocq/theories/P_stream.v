(** Proofs about streams. *)
From Coq Require Import ZArith Lia List Bool.
From Coq Require Import ZifyBool ZifyNat.
From Verif Require Import Py M_stream S_stream.
Import ListNotations.
Open Scope Z_scope.

Section P.
Context {A : Type}.

(** ** subsequences *)
Lemma subseq_refl (l : list A) : subseq l l.
Proof. induction l; [constructor|apply sub_keep; auto]. Qed.

Lemma subseq_nil (l : list A) : subseq [] l.
Proof. induction l; constructor; auto. Qed.

Lemma subseq_app (a b c d : list A) : subseq a b -> subseq c d -> subseq (a ++ c) (b ++ d).
Proof. intros H H2. induction H; cbn [app]; [exact H2|apply sub_skip; auto|apply sub_keep; auto]. Qed.

Lemma subseq_trans (a b c : list A) : subseq a b -> subseq b c -> subseq a c.
Proof.
  intros H1 H2. revert a H1. induction H2; intros a H1; auto.
  - apply sub_skip. auto.
  - inversion H1; subst; [apply sub_skip|apply sub_keep]; auto.
Qed.

(** ** source alone *)
Definition src_inv (s : src A) : Prop :=
  (s_valid s = true -> (exists x, s_data s = Some x) /\ s_active s = true /\ s_idle s = false /\ s_task s = TEdge) /\
  (s_idle s = true -> s_q s = []).

Lemma src_step_inv hr s o : src_quiet o = true -> src_inv s -> src_inv (src_step hr s o).
Proof.
  intros Ho (Hv & Hi). destruct o as [x|b|n| |b|r]; try discriminate; cbn [src_step].
  - destruct (src_full s); [split; auto|]. split; cbn; [|discriminate].
    intros E. destruct (Hv E) as (H1 & H2 & H3 & H4). rewrite H4. auto.
  - split; auto.
  - split; auto.
  - destruct b; [discriminate|]. split; cbn; auto. intros E. destruct (Hv E) as (H1 & H2 & H3 & H4). rewrite H4. auto.
  - unfold src_edge. destruct (s_task s) eqn:Et; [split; rewrite ?Et; auto| |split; rewrite ?Et; auto].
    destruct ((negb hr || r) && s_valid s || negb (s_valid s)) eqn:E; [|split; rewrite ?Et; auto].
    destruct (s_q s) as [|x q] eqn:Eq; [split; cbn; [discriminate|auto]|].
    destruct (negb (s_pause s)); split; cbn; try discriminate.
    + intros _. split; [eauto|]. split; [auto|]. split; [|auto].
      destruct (s_idle s) eqn:Ei; [|reflexivity]. specialize (Hi eq_refl). discriminate.
    + intros Hid. specialize (Hi Hid). discriminate.
    + intros Hid. specialize (Hi Hid). discriminate.
Qed.

Lemma src_conserve hr ops : forall s, Forall (fun o => src_quiet o = true) ops -> src_inv s ->
  let '(sent, acc, s') := src_trace hr s ops in
  src_inv s' /\ on_wire s ++ s_q s ++ sent = acc ++ on_wire s' ++ s_q s'.
Proof.
  induction ops as [|o ops IH]; intros s Hq Hs; cbn [src_trace].
  - split; auto. now rewrite app_nil_r.
  - inversion Hq as [|? ? Ho Hq']; subst x l. pose proof (src_step_inv hr s o Ho Hs) as Hs1.
    specialize (IH (src_step hr s o) Hq' Hs1).
    destruct (src_trace hr (src_step hr s o) ops) as [[sent acc] s']. destruct IH as [Hs' IH].
    split; [exact Hs'|]. destruct Hs as [Hv Hi]. rewrite <- app_assoc, <- IH. clear IH.
    destruct o as [x|b|n| |b|r]; try discriminate; cbn [src_step app].
    + destruct (src_full s); cbn [app]; auto. unfold on_wire. cbn [s_valid s_data s_q]. now rewrite <- !app_assoc.
    + reflexivity.
    + reflexivity.
    + destruct b; [discriminate|]. reflexivity.
    + unfold on_wire, src_edge. destruct (s_valid s) eqn:Ev.
      * destruct (Hv eq_refl) as ((x & Hx) & H2 & H3 & H4). rewrite H4, Hx. cbn [andb].
        rewrite andb_true_r. cbn [negb]. rewrite orb_false_r.
        destruct (negb hr || r); cbn [app]; [|now rewrite Ev, Hx].
        destruct (s_q s) as [|y q]; [reflexivity|]. destruct (negb (s_pause s)); reflexivity.
      * cbn [andb app]. destruct (s_task s); rewrite ?Ev; try reflexivity. rewrite andb_false_r. cbn [negb orb].
        destruct (s_q s) as [|y q] eqn:Eq; [reflexivity|]. destruct (negb (s_pause s)); reflexivity.
Qed.

(** ** monitor *)
Definition mon_inv (hr : bool) (m : mon A) : Prop :=
  m_task m = MSleep -> m_valid m && (negb hr || m_ready m) = false.

Definition mon_quiet (o : mop A) : bool := match o with MClear | MReset true => false | _ => true end.

Lemma mon_step_inv hr m o : m_task m <> MDead -> mon_quiet o = true -> mon_inv hr m ->
  mon_inv hr (mon_step hr m o) /\ m_task (mon_step hr m o) <> MDead.
Proof.
  intros Hd Ho Hm. unfold mon_inv in *. destruct o as [v r d| | |b| |]; try discriminate; cbn [mon_step].
  - cbn. destruct (m_task m); split; try discriminate; try congruence.
    + destruct (rises (m_valid m) v || hr && rises (m_ready m) r) eqn:E; [discriminate|]. intros _. specialize (Hm eq_refl). unfold rises in E.
      destruct hr, (m_valid m), (m_ready m), v, r; cbn in *; congruence.
    + destruct (rises (m_valid m) v || hr && rises (m_ready m) r); discriminate.
  - cbn. auto.
  - destruct b; [discriminate|]. cbn. destruct (m_task m); split; try discriminate; auto; congruence.
  - cbn. destruct (m_task m); split; try discriminate; auto; congruence.
  - unfold mon_edge. destruct (m_task (mon_start m)) eqn:E; cbn in *; rewrite ?E.
    + destruct (m_task m); try discriminate. congruence.
    + destruct (m_task m); discriminate.
    + destruct ((negb hr || m_ready m) && m_valid m) eqn:Ef; cbn; [split; discriminate|].
      split; [|destruct null; discriminate]. intros _. now rewrite andb_comm.
    + destruct (m_task m); try discriminate. split; [|discriminate]. intros _. now apply Hm.
Qed.

Lemma mon_conserve hr ops : forall m, Forall (fun o => mon_quiet o = true) ops -> m_task m <> MDead -> mon_inv hr m ->
  let '(seen, got, m') := mon_trace hr m ops in m_q m ++ seen = got ++ m_q m'.
Proof.
  induction ops as [|o ops IH]; intros m Hq Hd Hm; cbn [mon_trace].
  - now rewrite app_nil_r.
  - inversion Hq as [|? ? Ho Hq']; subst x l. destruct (mon_step_inv hr m o Hd Ho Hm) as [Hm1 Hd1].
    specialize (IH (mon_step hr m o) Hq' Hd1 Hm1).
    destruct (mon_trace hr (mon_step hr m o) ops) as [[seen got] m'].
    rewrite <- app_assoc, <- IH. clear IH.
    destruct o as [v r d| | |b| |]; try discriminate; cbn [mon_step app m_q mon_start]; auto.
    + destruct (m_q m); reflexivity.
    + destruct b; [discriminate|]. reflexivity.
    + unfold mon_edge. cbn [mon_start m_task m_q m_valid m_ready m_data].
      destruct (m_task m) eqn:Et; try congruence.
      * rewrite (andb_comm _ (m_valid m)). destruct (m_valid m && (negb hr || m_ready m)); cbn [m_q]; [now rewrite <- app_assoc|reflexivity].
      * rewrite (andb_comm _ (m_valid m)). destruct (m_valid m && (negb hr || m_ready m)); cbn [m_q]; [now rewrite <- app_assoc|reflexivity].
      * rewrite (Hm Et). reflexivity.
Qed.

(** ** source and sink *)
Definition chan_inv (hr : bool) (c : chan A) : Prop :=
  (s_valid (c_src c) = true -> (exists x, s_data (c_src c) = Some x) /\ s_task (c_src c) = TEdge) /\
  match k_task (c_snk c) with
  | KSleep => s_valid (c_src c) && (negb hr || k_ready (c_snk c)) = false
  | KDead => hr = true -> k_ready (c_snk c) = false
  | _ => True
  end.

Lemma snk_edge_dead hr k v (d : A) : k_task (snk_edge hr k v d) = KDead ->
  k_task k = KDead /\ k_ready (snk_edge hr k v d) = k_ready k.
Proof.
  destruct k as [q p l w t r]. destruct t; cbn; try discriminate; auto; intros H;
  match type of H with (if ?b then _ else _) = _ => destruct b; try discriminate end;
  match type of H with (if ?b then _ else _) = _ => destruct b; discriminate end.
Qed.

Lemma snk_edge_sleep hr k v (d : A) : k_task (snk_edge hr k v d) = KSleep ->
  (k_task k = KSleep /\ k_ready (snk_edge hr k v d) = k_ready k) \/
  v = false \/ (hr = true /\ k_ready (snk_edge hr k v d) = false).
Proof.
  destruct k as [q p l w t r]. destruct t; cbn; try discriminate; auto; intros H; right;
  (match type of H with (if ?b then _ else _) = _ => destruct b eqn:E; try discriminate end);
  (destruct hr; cbn in *; [|left; now apply negb_true_iff in E]);
  apply andb_true_iff in E; destruct E as [E _]; apply orb_true_iff in E;
  (destruct E as [E|E]; [left; now apply negb_true_iff in E|right; split; [reflexivity|]; rewrite E; reflexivity]).
Qed.

Lemma chan_step_inv dflt hr c o : chan_inv hr c -> chan_inv hr (chan_step dflt hr c o).
Proof.
  intros (Hv & Hk). destruct c as [s k]. cbn [c_src c_snk] in *. destruct o as [o|o|].
  - assert (H : chan_inv hr {| c_src := src_step hr s o; c_snk := k |} \/ exists r, o = SEdge r).
    { destruct o as [x|b|n| |b|r]; [left|left|left|left|left|right; eauto].
      - cbn [src_step]. destruct (src_full s); [split; auto|]. split; cbn; auto.
        intros E. destruct (Hv E) as [H ->]. auto.
      - split; cbn; auto.
      - split; cbn; auto.
      - split; cbn; auto.
      - destruct b; split; cbn; auto; try discriminate.
        + destruct (k_task k); auto.
        + intros E. destruct (Hv E) as [H ->]. auto. }
    destruct H as [H|[r ->]]; [|split; auto]. destruct o; try exact H. split; auto.
  - cbn [chan_step c_src c_snk]. destruct o as [b|n| | |b|]; cbn [snk_step].
    + destruct (Bool.eqb (k_pause k) b); split; cbn; auto. destruct (k_task k); auto.
    + split; cbn; auto.
    + destruct (k_q k); split; cbn; auto. destruct (k_task k); auto.
    + split; cbn; auto.
    + destruct b; split; cbn; auto.
      * intros ->. reflexivity.
      * destruct (k_task k); auto.
    + split; cbn; auto. destruct (k_task k); auto.
  - cbn [chan_step c_src c_snk]. unfold settle. cbn [c_src c_snk].
    set (s' := src_edge hr s (k_ready k)). set (k' := snk_edge hr k (s_valid s) _).
    assert (Hs' : s_valid s' = true -> (exists x, s_data s' = Some x) /\ s_task s' = TEdge).
    { unfold s', src_edge. destruct (s_task s) eqn:Et.
      - intros E. destruct (Hv E). congruence.
      - destruct ((negb hr || k_ready k) && s_valid s || negb (s_valid s)); [|rewrite ?Et; auto]. destruct (s_q s); [discriminate|]. destruct (negb (s_pause s)); cbn; [eauto|discriminate].
      - intros E. destruct (Hv E). congruence. }
    destruct (rises (s_valid s) (s_valid s') || (hr && rises (k_ready k) (k_ready k'))) eqn:Er; split; cbn; auto.
    + destruct (k_task k') eqn:Ek; auto. intros ->. destruct (snk_edge_dead _ _ _ _ Ek) as [H1 H2].
      unfold k'. rewrite H2. rewrite H1 in Hk. auto.
    + destruct (k_task k') eqn:Ek; auto.
      * intros ->. destruct (snk_edge_dead _ _ _ _ Ek) as [H1 H2]. unfold k'. rewrite H2. rewrite H1 in Hk. auto.
      * apply orb_false_iff in Er. destruct Er as [Er1 Er2]. unfold rises in *.
        destruct (snk_edge_sleep _ _ _ _ Ek) as [[H1 H2]|[H1|[H1 H2]]].
        -- rewrite H1 in Hk. fold k' in H2. rewrite H2. clearbody s' k'.
           destruct hr, (s_valid s), (s_valid s'), (k_ready k); cbn in *; congruence.
        -- rewrite H1 in Er1. cbn in Er1. now rewrite Er1.
        -- fold k' in H2. rewrite H1, H2. apply andb_false_r.
Qed.

(** operations that drop items: clear, source reset; sink reset without a ready signal *)
Definition cop_quiet (hr : bool) (o : cop A) : bool :=
  match o with
  | CSrc o => src_quiet o
  | CSnk KClear => false
  | CSnk (KReset true) => hr
  | _ => true
  end.

Definition chan_alive (hr : bool) (c : chan A) : Prop := hr = false -> k_task (c_snk c) <> KDead.

Lemma snk_edge_q hr k v (d : A) : k_task k <> KDead -> k_task k <> KSleep ->
  k_q (snk_edge hr k v d) = if (negb hr || k_ready k) && v then k_q k ++ [d] else k_q k.
Proof.
  intros H1 H2. unfold snk_edge. cbn [snk_run k_task k_q k_ready]. destruct (k_task k); try congruence; reflexivity.
Qed.

Lemma chan_alive_step dflt hr c o : cop_quiet hr o = true -> chan_alive hr c -> chan_alive hr (chan_step dflt hr c o).
Proof.
  unfold chan_alive. intros Ho Ha ->. specialize (Ha eq_refl). destruct c as [s k]. cbn [c_snk] in *.
  destruct o as [o|o|].
  - destruct o; exact Ha.
  - cbn [chan_step c_snk]. destruct o as [b|n| | |b|]; cbn [snk_step]; try discriminate.
    + destruct (Bool.eqb _ _); cbn; auto. destruct (k_task k); congruence.
    + exact Ha.
    + destruct (k_q k); cbn; auto. destruct (k_task k); congruence.
    + destruct b; [discriminate|]. cbn. destruct (k_task k); congruence.
    + cbn. destruct (k_task k); congruence.
  - cbn [chan_step c_src c_snk]. unfold settle. cbn [c_src c_snk].
    match goal with |- context [if ?b then _ else _] => destruct b end; cbn [c_snk snk_wake k_task]; intros H.
    + match type of H with match ?t with _ => _ end = _ => destruct t eqn:E; try discriminate end.
      apply snk_edge_dead in E. tauto.
    + apply snk_edge_dead in H. tauto.
Qed.

Lemma chan_clk_exact dflt hr c : chan_inv hr c -> chan_alive hr c ->
  let c' := chan_step dflt hr c CClk in
  k_q (c_snk c') ++ on_wire (c_src c') ++ s_q (c_src c') = k_q (c_snk c) ++ on_wire (c_src c) ++ s_q (c_src c).
Proof.
  intros (Hv & Hk) Ha. destruct c as [s k]. unfold chan_alive in Ha. cbn [c_src c_snk] in *. cbv zeta. cbn [chan_step c_src c_snk].
  unfold settle. cbn [c_src c_snk].
  set (d := match s_data s with Some d => d | None => dflt end).
  set (s' := src_edge hr s (k_ready k)). set (k' := snk_edge hr k (s_valid s) d).
  assert (Hq : k_q k' ++ on_wire s' ++ s_q s' = k_q k ++ on_wire s ++ s_q s).
  { assert (Hs : on_wire s' ++ s_q s' = if s_valid s && (negb hr || k_ready k) then s_q s else on_wire s ++ s_q s).
    { unfold s', src_edge, on_wire. destruct (s_valid s) eqn:Ev.
      - destruct (Hv eq_refl) as ((x & Hx) & ->). cbn [andb negb]. rewrite andb_true_r, orb_false_r.
        destruct (negb hr || k_ready k); [|now rewrite Ev].
        destruct (s_q s); [reflexivity|]. destruct (negb (s_pause s)); reflexivity.
      - cbn [andb negb]. destruct (s_task s); rewrite ?Ev; try reflexivity. rewrite orb_true_r.
        destruct (s_q s) eqn:Eq; [reflexivity|]. destruct (negb (s_pause s)); reflexivity. }
    rewrite Hs. unfold k'.
    destruct (k_task k) eqn:Ek.
    - (* dead: then ready is low *)
      unfold snk_edge. cbn [snk_run k_task k_q]. rewrite Ek. cbn [k_q].
      destruct hr; [|exfalso; now apply Ha]. rewrite (Hk eq_refl). cbn. now rewrite andb_false_r.
    - rewrite snk_edge_q by congruence. rewrite (andb_comm _ (s_valid s)).
      unfold on_wire, d. destruct (s_valid s) eqn:Ev; cbn [andb]; [|reflexivity].
      destruct (Hv eq_refl) as ((x & ->) & _). destruct (negb hr || k_ready k); [now rewrite <- app_assoc|reflexivity].
    - rewrite snk_edge_q by congruence. rewrite (andb_comm _ (s_valid s)).
      unfold on_wire, d. destruct (s_valid s) eqn:Ev; cbn [andb]; [|reflexivity].
      destruct (Hv eq_refl) as ((x & ->) & _). destruct (negb hr || k_ready k); [now rewrite <- app_assoc|reflexivity].
    - rewrite snk_edge_q by congruence. rewrite (andb_comm _ (s_valid s)).
      unfold on_wire, d. destruct (s_valid s) eqn:Ev; cbn [andb]; [|reflexivity].
      destruct (Hv eq_refl) as ((x & ->) & _). destruct (negb hr || k_ready k); [now rewrite <- app_assoc|reflexivity].
    - unfold snk_edge. cbn [snk_run k_task k_q]. rewrite Ek, Hk. reflexivity. }
  destruct (rises (s_valid s) (s_valid s') || hr && rises (k_ready k) (k_ready k')); exact Hq.
Qed.

(** the contents of a channel, from received to not yet driven *)
Definition contents (c : chan A) : list A := k_q (c_snk c) ++ on_wire (c_src c) ++ s_q (c_src c).

Lemma chan_conserve dflt hr ops : forall c, Forall (fun o => cop_quiet hr o = true) ops ->
  chan_inv hr c -> chan_alive hr c ->
  let '(sent, got, c') := chan_trace dflt hr c ops in
  contents c ++ sent = got ++ contents c'.
Proof.
  induction ops as [|o ops IH]; intros c Hq Hc Ha; cbn [chan_trace].
  - now rewrite app_nil_r.
  - inversion Hq as [|? ? Ho Hq']; subst x l.
    pose proof (chan_step_inv dflt hr c o Hc) as Hc1. pose proof (chan_alive_step dflt hr c o Ho Ha) as Ha1.
    specialize (IH _ Hq' Hc1 Ha1).
    destruct (chan_trace dflt hr (chan_step dflt hr c o) ops) as [[sent got] c'].
    rewrite <- app_assoc, <- IH. clear IH. destruct o as [o|o|]; cbn [chan_step app].
    + destruct o as [x|b|n| |b|r]; try discriminate; try reflexivity.
      * unfold contents. cbn [c_src c_snk src_step]. destruct (src_full (c_src c)); [reflexivity|].
        unfold on_wire. cbn [s_valid s_data s_q]. now rewrite <- !app_assoc.
      * destruct b; [discriminate|]. reflexivity.
    + unfold contents. cbn [c_src c_snk]. destruct o as [b|n| | |b|]; try discriminate; cbn [snk_step].
      * destruct (Bool.eqb _ _); reflexivity.
      * reflexivity.
      * destruct (k_q (c_snk c)) eqn:E; cbn [firstn app k_q snk_wake]; rewrite ?E; reflexivity.
      * destruct b; reflexivity.
      * reflexivity.
    + pose proof (chan_clk_exact dflt hr c Hc Ha) as H. cbv zeta in H. cbn [chan_step] in H.
      unfold contents. now rewrite H.
Qed.

(** every operation: nothing is invented, duplicated or reordered *)
Lemma chan_clk_sub dflt hr c : chan_inv hr c -> subseq (contents (chan_step dflt hr c CClk)) (contents c).
Proof.
  intros (Hv & Hk). destruct c as [s k]. unfold contents. cbn [c_src c_snk] in *. cbn [chan_step c_src c_snk].
  unfold settle. cbn [c_src c_snk].
  set (d := match s_data s with Some d => d | None => dflt end).
  set (s' := src_edge hr s (k_ready k)). set (k' := snk_edge hr k (s_valid s) d).
  assert (Hs : on_wire s' ++ s_q s' = if s_valid s && (negb hr || k_ready k) then s_q s else on_wire s ++ s_q s).
  { unfold s', src_edge, on_wire. destruct (s_valid s) eqn:Ev.
    - destruct (Hv eq_refl) as ((x & Hx) & ->). cbn [andb negb]. rewrite andb_true_r, orb_false_r.
      destruct (negb hr || k_ready k); [|now rewrite Ev].
      destruct (s_q s); [reflexivity|]. destruct (negb (s_pause s)); reflexivity.
    - cbn [andb negb]. destruct (s_task s); rewrite ?Ev; try reflexivity. rewrite orb_true_r.
      destruct (s_q s) eqn:Eq; [reflexivity|]. destruct (negb (s_pause s)); reflexivity. }
  assert (Hq : subseq (k_q k' ++ on_wire s' ++ s_q s') (k_q k ++ on_wire s ++ s_q s)).
  { rewrite Hs.
    assert (Hkq : k_q k' = k_q k \/ (k_q k' = k_q k ++ [d] /\ s_valid s && (negb hr || k_ready k) = true)).
    { unfold k', snk_edge. cbn [snk_run k_task k_q k_ready].
      destruct (k_task k); cbn [k_q]; auto; rewrite (andb_comm _ (s_valid s)); destruct (s_valid s && _); auto. }
    destruct Hkq as [->|[-> E]].
    - apply subseq_app; [apply subseq_refl|]. destruct (s_valid s && _); [|apply subseq_refl].
      change (s_q s) with ([] ++ s_q s) at 1. apply subseq_app; [apply subseq_nil|apply subseq_refl].
    - rewrite E. unfold on_wire, d. destruct (s_valid s); [|discriminate].
      destruct (Hv eq_refl) as ((x & ->) & _). rewrite <- app_assoc. apply subseq_refl. }
  destruct (rises (s_valid s) (s_valid s') || hr && rises (k_ready k) (k_ready k')); exact Hq.
Qed.

Lemma chan_sub dflt hr ops : forall c all, chan_inv hr c -> subseq (contents c) all ->
  let '(sent, got, c') := chan_trace dflt hr c ops in subseq (got ++ contents c') (all ++ sent).
Proof.
  induction ops as [|o ops IH]; intros c all Hc Hs; cbn [chan_trace].
  - now rewrite app_nil_r.
  - pose proof (chan_step_inv dflt hr c o Hc) as Hc1.
    set (x := match o with CSrc (SSend x) => if src_full (c_src c) then [] else [x] | _ => [] end).
    set (g := match o with CSnk KRecv => firstn 1 (k_q (c_snk c)) | _ => [] end).
    assert (Hstep : subseq (g ++ contents (chan_step dflt hr c o)) (contents c ++ x)).
    { unfold g, x. destruct o as [o|o|].
      - destruct o as [y|b|n| |b|r]; cbn [chan_step app]; rewrite ?app_nil_r; try apply subseq_refl.
        + unfold contents. cbn [c_src c_snk src_step]. destruct (src_full (c_src c)); [rewrite app_nil_r; apply subseq_refl|].
          unfold on_wire. cbn [s_valid s_data s_q]. rewrite <- !app_assoc. apply subseq_refl.
        + unfold contents, on_wire. cbn [c_src c_snk src_step s_valid s_data s_q].
          apply subseq_app; [apply subseq_refl|]. apply subseq_app; [apply subseq_refl|apply subseq_nil].
        + destruct b; [|apply subseq_refl]. unfold contents, on_wire. cbn [c_src c_snk src_step s_valid s_data s_q].
          apply subseq_app; [apply subseq_refl|]. apply subseq_app; [apply subseq_nil|apply subseq_refl].
      - unfold contents. cbn [chan_step c_src c_snk]. rewrite app_nil_r.
        destruct o as [b|n| | |b|]; cbn [snk_step app]; try apply subseq_refl.
        + destruct (Bool.eqb _ _); apply subseq_refl.
        + destruct (k_q (c_snk c)) eqn:E; cbn [firstn app k_q snk_wake]; rewrite ?E; apply subseq_refl.
        + cbn [k_q app]. change (on_wire (c_src c) ++ s_q (c_src c)) with ([] ++ on_wire (c_src c) ++ s_q (c_src c)) at 1.
          apply subseq_app; [apply subseq_nil|apply subseq_refl].
        + destruct b; apply subseq_refl.
      - cbn [app]. rewrite app_nil_r. now apply chan_clk_sub. }
    assert (Hall : subseq (g ++ contents (chan_step dflt hr c o)) (all ++ x)).
    { eapply subseq_trans; [exact Hstep|]. apply subseq_app; [exact Hs|apply subseq_refl]. }
    (* split [all ++ x] at the received part *)
    assert (Hsp : forall (a b l : list A), subseq (a ++ b) l -> exists l1 l2, l = l1 ++ l2 /\ subseq a l1 /\ subseq b l2).
    { clear. intros a b l. revert a. induction l as [|y l IH]; intros a H.
      - inversion H as [E| |]; subst. symmetry in E. apply app_eq_nil in E. destruct E as [-> ->].
        exists [], []. repeat split; constructor.
      - inversion H as [|? ? ? H1|? l0 ? H1 E]; subst.
        + destruct (IH a H1) as (l1 & l2 & -> & H2 & H3). exists (y :: l1), l2. repeat split; auto. now apply sub_skip.
        + destruct a as [|z a].
          * cbn in E. exists [], (y :: l). repeat split; [constructor|]. cbn in H. exact H.
          * cbn in E. injection E as <- ->. destruct (IH a H1) as (l1 & l2 & -> & H2 & H3).
            exists (y :: l1), l2. repeat split; auto. now apply sub_keep. }
    destruct (Hsp _ _ _ Hall) as (l1 & l2 & E & H1 & H2).
    specialize (IH _ l2 Hc1 H2).
    destruct (chan_trace dflt hr (chan_step dflt hr c o) ops) as [[sent got] c'].
    change (subseq ((g ++ got) ++ contents c') (all ++ x ++ sent)).
    rewrite (app_assoc all x sent), E, <- !app_assoc. now apply subseq_app.
Qed.

(** ** sink: back-pressure and readiness *)
Definition snk_bound (limit : Z) (k : snk A) : Prop :=
  k_limit k = limit /\ zlen (k_q k) <= limit /\ (k_ready k = true -> zlen (k_q k) < limit).

Lemma snk_bound_step limit k o : 0 < limit -> (forall n, o <> KLimit n) -> snk_bound limit k -> snk_bound limit (snk_step true k o).
Proof.
  intros HL Ho (H1 & H2 & H3). destruct o as [b|n| | |b|]; cbn [snk_step].
  - destruct (Bool.eqb _ _); repeat split; auto.
  - exfalso. eapply Ho. reflexivity.
  - destruct (k_q k) eqn:E; [repeat split; auto; now rewrite E|]. rewrite zlen_cons in *.
    repeat split; cbn; auto; try lia.
  - repeat split; cbn; auto; change (zlen (@nil A)) with 0; lia.
  - destruct b; repeat split; cbn; auto. discriminate.
  - repeat split; auto.
Qed.

Lemma snk_bound_edge limit k v d : 0 < limit -> snk_bound limit k -> snk_bound limit (snk_edge true k v d).
Proof.
  intros HL (H1 & H2 & H3). unfold snk_edge. cbn [snk_run k_task].
  destruct (k_task k); try (repeat split; cbn; auto; fail); cbn [k_ready k_q k_limit k_pause negb orb snk_run];
  ( rewrite H1;
    assert (Hq : zlen (if k_ready k && v then k_q k ++ [d] else k_q k) <= limit)
      by (destruct (k_ready k) eqn:Er; cbn [andb]; auto; destruct v; auto; rewrite zlen_app; change (zlen [d]) with 1; specialize (H3 eq_refl); lia);
    split; [reflexivity|]; split; [exact Hq|]; cbn [k_ready k_q];
    unfold st_full; intros Hr; apply negb_true_iff, orb_false_iff in Hr; destruct Hr as [Hr _]; lia ).
Qed.

(** a sleeping sink with ready low is paused or full *)
Definition snk_awake (k : snk A) : Prop :=
  match k_task k with
  | KSleep => k_ready k = false -> snk_full k = true \/ k_pause k = true
  | _ => True
  end.

Lemma snk_awake_step k o : o <> KClear -> (forall n, o <> KLimit n) -> snk_awake k -> snk_awake (snk_step true k o).
Proof.
  intros H1 H2 H. unfold snk_awake in *. destruct o as [b|n| | |b|]; cbn [snk_step]; try congruence.
  - destruct (Bool.eqb (k_pause k) b) eqn:E; cbn.
    + apply eqb_prop in E. subst b. exact H.
    + destruct (k_task k); exact I.
  - destruct (k_q k) eqn:E; cbn; auto. destruct (k_task k); exact I.
  - destruct b; cbn; auto. destruct (k_task k); auto.
  - cbn. destruct (k_task k); auto.
Qed.

Lemma snk_awake_edge k v d : snk_awake k -> snk_awake (snk_edge true k v d).
Proof.
  unfold snk_awake, snk_full. destruct k as [q p l w t r]. destruct t; cbn; auto; intros _;
  match goal with |- context [if ?b then (if ?n then _ else KSleep) else _] => destruct b eqn:Es, n; auto end;
  intros Hr; apply negb_false_iff in Hr; apply orb_true_iff in Hr;
  (destruct Hr as [Hr|Hr]; [left; exact Hr|right]); auto;
  apply andb_true_iff in Es; destruct Es as [_ Es]; apply eqb_prop in Es; congruence.
Qed.

Lemma snk_ready_soon k v1 (d1 : A) v2 d2 : snk_awake k -> k_task k <> KDead -> k_pause k = false -> snk_full k = false ->
  k_ready k = true \/
  let k1 := snk_edge true k v1 d1 in
  k_ready k1 = true \/ (let k2 := snk_edge true k1 v2 d2 in k_ready k2 = true).
Proof.
  unfold snk_awake, snk_full. destruct k as [q p l w t r]. cbn [k_pause k_ready k_q k_limit k_task].
  intros Hw Hd -> Hf. destruct r; [now left|right].
  destruct t as [| |null|null ps|]; cbn; try congruence; rewrite ?Hf; cbn; auto.
  - destruct ps; cbn; rewrite ?Hf; cbn; [right|left; reflexivity].
    rewrite orb_true_r. cbn. rewrite Hf. reflexivity.
  - destruct (Hw eq_refl); congruence.
Qed.
End P.
