(** Properties C37 - C42: StreamSource, StreamMonitor and StreamSink. *)
From Coq Require Import ZArith Lia List Bool.
From Coq Require Import ZifyBool ZifyNat.
From Verif Require Import Py M_stream S_stream P_stream P_streamlive.
Import ListNotations.
Open Scope Z_scope.

(** C37: while valid is high, whatever happens except reset and an accepting clock edge, valid and
    payload stay. *)
Theorem C37_source_stable : forall A hr (s : src A) o,
  s_valid s = true ->
  (forall b, o = SReset b -> b = false) ->
  (forall r, o = SEdge r -> hr = true /\ r = false) ->
  s_valid (src_step hr s o) = true /\ s_data (src_step hr s o) = s_data s.
Proof.
  intros A hr s o Hv Hr He. destruct o as [x|b|n| |b|r]; cbn [src_step]; auto.
  - destruct (src_full s); auto.
  - rewrite (Hr b eq_refl). auto.
  - destruct (He r eq_refl) as [-> ->]. unfold src_edge. destruct (s_task s); auto. rewrite Hv. auto.
Qed.
Print Assumptions C37_source_stable.

(** C37, over histories: from a state with valid high, any history without reset and without an
    accepting edge leaves valid and payload unchanged; and in every reachable state valid comes
    with a payload that was sent. *)
Theorem C37_source_stable_history : forall A (s : src A) ops,
  s_valid s = true ->
  Forall (fun o => o <> SReset true /\ o <> SEdge true) ops ->
  let s' := fold_left (src_step true) ops s in
  s_valid s' = true /\ s_data s' = s_data s.
Proof.
  intros A s ops Hv H. revert s Hv. induction H as [|o ops [H1 H2] _ IH]; intros s Hv; cbn [fold_left]; [auto|].
  destruct (C37_source_stable A true s o Hv) as [E1 E2].
  - intros [|] ->; congruence.
  - intros [|] ->; split; congruence.
  - cbv zeta in *. destruct (IH _ E1) as [E3 E4]. rewrite E4. auto.
Qed.
Print Assumptions C37_source_stable_history.

Example C37_nontrivial :
  let s := fold_left (src_step true) [SSend 5; SSend 6; SEdge false; SPause true; SEdge false; SClear; SEdge false] (src_init (A := Z)) in
  s_valid s = true /\ s_data s = Some 5 /\ s_data (src_step true (fold_left (src_step true) [SSend 5; SSend 6; SEdge false] src_init) (SEdge true)) = Some 6.
Proof. repeat split; reflexivity. Qed.

(** C38: at every moment sent = received ++ sink queue ++ wires ++ source queue.  Not covered: clear()
    and source reset, which drop items, and sink reset on a bus without ready (see the next
    theorem). *)
Definition keeps (hr : bool) {A} (o : cop A) : Prop :=
  o <> CSrc SClear /\ o <> CSrc (SReset true) /\ o <> CSnk KClear /\ (hr = false -> o <> CSnk (KReset true)).

Lemma keeps_quiet hr {A} (o : cop A) : keeps hr o -> cop_quiet hr o = true.
Proof.
  intros (H1 & H2 & H3 & H4). destruct o as [o|o|]; [destruct o as [| | | |[|]|]|destruct o as [| | | |[|]|]|]; cbn; try reflexivity; try congruence.
  destruct hr; auto. specialize (H4 eq_refl). congruence.
Qed.

Lemma chan_init_inv {A} hr limit : chan_inv hr (chan_init (A := A) limit).
Proof. split; cbn; [discriminate|exact I]. Qed.

Theorem C38_exactly_once_in_order : forall A (dflt : A) hr limit ops,
  Forall (keeps hr) ops ->
  let '(sent, received, c) := chan_trace dflt hr (chan_init limit) ops in
  sent = received ++ k_q (c_snk c) ++ on_wire (c_src c) ++ s_q (c_src c).
Proof.
  intros A dflt hr limit ops H.
  pose proof (chan_conserve dflt hr ops (chan_init limit)) as C.
  destruct (chan_trace dflt hr (chan_init limit) ops) as [[sent got] c]. apply C.
  - eapply Forall_impl; [|exact H]. intros o. apply keeps_quiet.
  - apply chan_init_inv.
  - intros _. discriminate.
Qed.
Print Assumptions C38_exactly_once_in_order.

(** C38 with every operation, clear() and resets on both sides included: nothing is invented,
    duplicated or reordered. *)
Theorem C38_no_duplication_any_history : forall A (dflt : A) hr limit ops,
  let '(sent, received, c) := chan_trace dflt hr (chan_init limit) ops in
  subseq (received ++ k_q (c_snk c) ++ on_wire (c_src c) ++ s_q (c_src c)) sent.
Proof.
  intros A dflt hr limit ops.
  pose proof (chan_sub dflt hr ops (chan_init limit) [] (chan_init_inv hr limit)) as C.
  destruct (chan_trace dflt hr (chan_init limit) ops) as [[sent got] c]. apply C. constructor.
Qed.
Print Assumptions C38_no_duplication_any_history.

(** C38, delivery: after any history without clear(), limit changes and the dropping resets above, if both
    ends run unpaused without a limit, then after (queue length + 3) clock edges everything sent
    has been received or is in the sink queue. *)
Lemma chan_awake_trace {A} (dflt : A) ops : forall c,
  Forall (fun o => o <> CSnk KClear /\ forall n, o <> CSnk (KLimit n)) ops ->
  snk_awake (c_snk c) -> snk_awake (c_snk (snd (chan_trace dflt true c ops))).
Proof.
  induction ops as [|o ops IH]; intros c Hq H; [exact H|]. cbn [chan_trace].
  inversion Hq as [|? ? [Ho1 Ho2] Hq']; subst x l.
  assert (H1 : snk_awake (c_snk (chan_step dflt true c o))).
  { destruct o as [o|o|].
    - destruct o; exact H.
    - cbn [chan_step c_snk]. apply snk_awake_step; [congruence| |exact H]. intros n E. apply (Ho2 n). congruence.
    - destruct (clk_snk dflt true c) as (v & d & [E|E]); unfold clk in E; rewrite E.
      + now apply snk_awake_edge.
      + now apply wake_awake, snk_awake_edge. }
  specialize (IH _ Hq' H1). destruct (chan_trace dflt true (chan_step dflt true c o) ops) as [[? ?] ?]. exact IH.
Qed.

Theorem C38_delivery : forall A (dflt : A) hr ops n,
  Forall (keeps hr) ops -> Forall (fun o => forall n, o <> CSnk (KLimit n)) ops ->
  let '(sent, received, c) := chan_trace dflt hr (chan_init (-1)) ops in
  s_task (c_src c) <> TDead -> s_pause (c_src c) = false ->
  k_task (c_snk c) <> KDead -> k_pause (c_snk c) = false -> k_limit (c_snk c) <= 0 ->
  (length (s_q (c_src c)) + 3 <= n)%nat ->
  let c' := clocks dflt hr n c in
  sent = received ++ k_q (c_snk c') /\ s_q (c_src c') = [] /\ s_valid (c_src c') = false.
Proof.
  intros A dflt hr ops n Hk Hl.
  pose proof (C38_exactly_once_in_order A dflt hr (-1) ops Hk) as C.
  pose proof (chan_inv_trace dflt hr ops _ (chan_init_inv hr (-1))) as Hi.
  pose proof (chan_sleep_trace dflt hr ops (chan_init (-1)) ltac:(intros E; discriminate)) as Hs.
  assert (Hw : hr = true -> snk_awake (c_snk (snd (chan_trace dflt hr (chan_init (-1)) ops)))).
  { intros Eh. subst hr. apply chan_awake_trace; [|exact I]. rewrite Forall_forall in *. intros o Ho. split; [|now apply Hl].
    apply (Hk o Ho). }
  destruct (chan_trace dflt hr (chan_init (-1)) ops) as [[sent got] c]. cbn [snd] in *.
  intros A1 A2 A3 A4 A5 Hn. cbv zeta.
  destruct (deliver dflt hr c n) as (E1 & E2 & E3); auto; [unfold running; auto|].
  split; [|auto]. rewrite C, E1. reflexivity.
Qed.
Print Assumptions C38_delivery.

Example C38_nontrivial :
  let '(sent, received, c) := chan_trace 0 true (chan_init 2)
     [CSrc (SSend 1); CSrc (SSend 2); CClk; CClk; CClk; CSnk (KPause true); CSrc (SSend 3); CSrc (SSend 4); CSrc (SSend 5); CClk; CClk;
      CSnk KRecv; CSnk (KPause false); CClk; CClk] in
  sent = [1; 2; 3; 4; 5] /\ received = [1] /\ k_q (c_snk c) = [2; 3] /\ s_data (c_src c) = Some 4 /\ s_valid (c_src c) = true /\ s_q (c_src c) = [5].
Proof. repeat split; reflexivity. Qed.

(** Why sink reset is excluded without a ready signal: the item on the wires is lost. *)
Example C38_sink_reset_without_ready_loses :
  let '(sent, received, c) := chan_trace 0 false (chan_init (-1)) [CSrc (SSend 1); CSnk KRun; CClk; CSnk (KReset true); CClk; CSnk (KReset false); CClk] in
  sent = [1] /\ received ++ k_q (c_snk c) ++ on_wire (c_src c) ++ s_q (c_src c) = [].
Proof. repeat split; reflexivity. Qed.

(** C39 (StreamSink): with limit L > 0 and a ready signal, in any environment that respects nothing but
    the sink's own ready, the queue never exceeds L, and ready is only high below L. *)
Theorem C39_sink_bound : forall A limit (l : list (kev A)),
  0 < limit -> (forall n, ~ In (KOp (KLimit n)) l) ->
  let k := kev_run true (snk_init limit) l in
  zlen (k_q k) <= limit /\ (k_ready k = true -> zlen (k_q k) < limit).
Proof.
  intros A limit l HL Hn. cbv zeta.
  enough (H : snk_bound limit (kev_run true (snk_init limit) l)) by (destruct H; tauto).
  assert (H0 : snk_bound limit (snk_init (A := A) limit)).
  { split; [reflexivity|]. split; [cbn; change (zlen (@nil A)) with 0; lia|discriminate]. }
  unfold kev_run. revert H0. generalize (snk_init (A := A) limit). induction l as [|e l IH]; intros k Hk; cbn [fold_left]; [exact Hk|].
  apply IH; [intros n Hi; apply (Hn n); now right|]. destruct e as [o|v d|]; cbn [kev_step].
  - apply snk_bound_step; auto. intros n ->. apply (Hn n). now left.
  - now apply snk_bound_edge.
  - exact Hk.
Qed.
Print Assumptions C39_sink_bound.

Example C39_bound_reached :
  let k := kev_run true (snk_init 2) [KClkE true 1; KClkE true 1; KClkE true 2; KClkE true 3; KClkE true 4] in k_q k = [1; 2] /\ k_ready k = false.
Proof. repeat split; reflexivity. Qed.

(** C40: without clear() and limit changes a sink that is running, not paused and not full has
    ready high now or after at most two clock edges, whatever valid does. *)
Theorem C40_sink_ready_partial : forall A limit (l : list (kev A)) v1 d1 v2 d2,
  (forall n, ~ In (KOp (KLimit n)) l) -> ~ In (KOp KClear) l ->
  let k := kev_run true (snk_init limit) l in
  k_task k <> KDead -> k_pause k = false -> snk_full k = false ->
  let k1 := snk_edge true k v1 d1 in let k2 := snk_edge true k1 v2 d2 in
  k_ready k = true \/ k_ready k1 = true \/ k_ready k2 = true.
Proof.
  intros A limit l v1 d1 v2 d2 Hn Hc. cbv zeta. intros Hd Hp Hf.
  apply (snk_ready_soon (kev_run true (snk_init limit) l) v1 d1 v2 d2); auto. clear Hd Hp Hf.
  assert (H0 : snk_awake (snk_init (A := A) limit)) by exact I.
  unfold kev_run. revert H0. generalize (snk_init (A := A) limit). induction l as [|e l IH]; intros k Hk; cbn [fold_left]; [exact Hk|].
  apply IH; [intros n Hi; apply (Hn n); now right|intros Hi; apply Hc; now right|]. destruct e as [o|v d|]; cbn [kev_step].
  - apply snk_awake_step; auto.
    + intros ->. apply Hc. now left.
    + intros n ->. apply (Hn n). now left.
  - now apply snk_awake_edge.
  - now apply wake_awake.
Qed.
Print Assumptions C40_sink_ready_partial.

Example C40_nontrivial :
  let k := kev_run true (snk_init 1) [KClkE true 7; KClkE true 7; KClkE true 8; KOp KRecv] in
  k_task k = KWoken false /\ k_ready k = false /\ snk_full k = false /\ k_ready (snk_edge true k true 8) = true.
Proof. repeat split; reflexivity. Qed.

(** C40 is false after clear(): a sink that sleeps because it was full stays not ready for ever,
    although its queue is empty, for any number of clock edges with valid high. *)
Theorem C40_sink_ready_refuted : exists l : list (kev Z),
  let k := kev_run true (snk_init 1) l in
  In (KOp KClear) l /\ (forall n, ~ In (KOp (KLimit n)) l) /\
  k_task k <> KDead /\ k_pause k = false /\ snk_full k = false /\ k_q k = [] /\
  forall ds, k_ready (kev_run true k (map (KClkE true) ds)) = false.
Proof.
  exists [KClkE true 7; KClkE true 7; KClkE true 8; KOp KClear]. cbv zeta.
  split; [cbn; auto|]. split; [intros n; cbn; intuition discriminate|]. split; [cbn; discriminate|]. split; [reflexivity|]. split; [reflexivity|]. split; [reflexivity|].
  set (k := kev_run _ _ _). assert (E : k_task k = KSleep /\ k_ready k = false) by (split; reflexivity).
  intros ds. revert E. generalize k. clear k. induction ds as [|d ds IH]; intros k [E1 E2]; [exact E2|].
  unfold kev_run in *. cbn [map fold_left kev_step]. apply IH. unfold snk_edge. cbn [snk_run k_task]. rewrite E1. cbn. rewrite E1. auto.
Qed.
Print Assumptions C40_sink_ready_refuted.

(** C41: the monitor's items are exactly the payloads at the clock edges with valid and ready high,
    whatever the signals do between edges. *)
Definition mon_keeps {A} (o : mop A) : Prop := o <> MClear /\ o <> MReset true.

Theorem C41_monitor_exact : forall A hr (v r : bool) (d : A) ops,
  Forall mon_keeps ops ->
  let '(transferred, received, m) := mon_trace hr (mon_init v r d) ops in
  transferred = received ++ m_q m.
Proof.
  intros A hr v r d ops H. pose proof (mon_conserve hr ops (mon_init v r d)) as C.
  destruct (mon_trace hr (mon_init v r d) ops) as [[seen got] m]. apply C; [|discriminate|discriminate].
  eapply Forall_impl; [|exact H]. intros o [H1 H2]. destruct o as [| | |[|]| |]; cbn; congruence.
Qed.
Print Assumptions C41_monitor_exact.

Example C41_nontrivial :
  let '(transferred, received, m) := mon_trace true (mon_init true false 0)
     [MClk; MSig true true 4; MClk; MSig false true 5; MSig true true 6; MClk; MRecv; MSig true false 6; MClk; MClk; MSig false true 7;
      MClk; MSig true true 8; MSig false true 9; MClk; MSig true true 10; MClk] in
  transferred = [4; 6; 10] /\ received = [4] /\ m_q m = [6; 10].
Proof. repeat split; reflexivity. Qed.

(** C42: with any receiver (arbitrary ready), absent clear() and reset: the items sent are those
    accepted, the one on the wires and those queued; so idle_event set (wait() returns) or idle()
    true means that everything sent was accepted. *)
Theorem C42_idle_means_done : forall A hr (ops : list (sop A)),
  Forall (fun o => o <> SClear /\ o <> SReset true) ops ->
  let '(sent, accepted, s) := src_trace hr src_init ops in
  sent = accepted ++ on_wire s ++ s_q s /\
  (s_idle s = true \/ src_is_idle s = true -> sent = accepted).
Proof.
  intros A hr ops H. pose proof (src_conserve hr ops (src_init (A := A))) as C.
  destruct (src_trace hr src_init ops) as [[sent acc] s].
  destruct C as [[Hv Hi] C].
  - eapply Forall_impl; [|exact H]. intros o [H1 H2]. destruct o as [| | | |[|]|]; cbn; congruence.
  - split; cbn; [discriminate|auto].
  - cbn [on_wire src_init s_valid s_q app] in C. change (sent = acc ++ on_wire s ++ s_q s) in C.
    split; [exact C|]. intros [E|E].
    + rewrite C, (Hi E). unfold on_wire. destruct (s_valid s); [|now rewrite app_nil_r].
      destruct (Hv eq_refl) as (_ & _ & H3 & _). congruence.
    + unfold src_is_idle in E. rewrite C. destruct (s_q s); [|discriminate]. unfold on_wire.
      destruct (s_valid s); [|now rewrite app_nil_r]. destruct (Hv eq_refl) as (_ & H2 & _). rewrite H2 in E. discriminate.
Qed.
Print Assumptions C42_idle_means_done.

(** C42, the other direction: when everything was accepted, the next clock edge sets idle. *)
Theorem C42_done_becomes_idle : forall A (ops : list (sop A)) r,
  Forall (fun o => o <> SClear /\ o <> SReset true) ops ->
  let '(sent, accepted, s) := src_trace true src_init ops in
  s_valid s = true -> s_q s = [] -> r = true ->
  let s' := src_step true s (SEdge r) in s_idle s' = true /\ src_is_idle s' = true.
Proof.
  intros A ops r H. pose proof (src_conserve true ops (src_init (A := A))) as C.
  destruct (src_trace true src_init ops) as [[sent acc] s].
  destruct C as [[Hv Hi] C].
  - eapply Forall_impl; [|exact H]. intros o [H1 H2]. destruct o as [| | | |[|]|]; cbn; congruence.
  - split; cbn; [discriminate|auto].
  - intros E1 E2 ->. cbv zeta. destruct (Hv E1) as (_ & _ & _ & Et). cbn [src_step]. unfold src_edge. rewrite Et, E1, E2. auto.
Qed.
Print Assumptions C42_done_becomes_idle.

Example C42_nontrivial :
  let '(sent, accepted, s) := src_trace true src_init [SSend 1; SSend 2; SEdge true; SEdge false; SEdge true; SEdge true] in
  sent = [1; 2] /\ accepted = [1; 2] /\ s_idle s = true.
Proof. repeat split; reflexivity. Qed.
