(** wait() and idle() of the stream receivers (C67). *)
From Coq Require Import ZArith Lia List Bool.
From Coq Require Import ZifyBool ZifyNat.
From Verif Require Import Py M_stream S_stream M_axisframe M_axis S_axis S_axisrun P_axis P_axischan M_rxwait T_axis.
Import ListNotations.
Open Scope Z_scope.

(** What wait() promises, for a queue [q], [q'] after one more operation: the calls that returned or
    block are those made, in order; a call blocks only while the queue is empty; the calls that return
    in the operation do so with an item in the queue. *)
Definition wait_honest {X} (made : list Z) (w w' : rxw) (q' : list X) : Prop :=
  w_done w ++ w_blocked w = made /\
  (q' <> [] -> w_blocked w' = []) /\
  exists new, w_done w' = w_done w ++ new /\ (new <> [] -> q' <> []).

Definition waits {E} (l : list (wop E)) : list Z := flat_map (fun o => match o with WWait t => [t] | _ => [] end) l.

Definition wi {X} (made : list Z) (w : rxw) (q : list X) : Prop :=
  w_done w ++ w_blocked w = made /\ w_ev w = negb (isnil q) /\ (q <> [] -> w_blocked w = []).

Lemma wi_honest {X} made made' w w' (q q' : list X) : wi made w q -> wi made' w' q' ->
  (exists new, w_done w' = w_done w ++ new /\ (new <> [] -> q' <> [])) -> wait_honest made w w' q'.
Proof. intros (H1 & _) (_ & _ & H2) H3. split; auto. Qed.

Lemma wi_same {X} made w (q : list X) : wi made w q -> wi made w q /\ (exists new, w_done w = w_done w ++ new /\ (new <> [] -> q <> [])).
Proof. intros H. split; [exact H|]. exists []. rewrite app_nil_r. split; [reflexivity|congruence]. Qed.
Lemma wi_wait {X} made w (q : list X) t : wi made w q ->
  wi (made ++ [t]) (w_wait q t w) q /\ (exists new, w_done (w_wait q t w) = w_done w ++ new /\ (new <> [] -> q <> [])).
Proof.
  intros (H1 & H2 & H3). unfold w_wait. rewrite H2. destruct q as [|x q]; cbn.
  - split; [split; [|split; [reflexivity|congruence]]; cbn; now rewrite app_assoc, H1|]. exists []. rewrite app_nil_r. split; [reflexivity|congruence].
  - rewrite H3 in H1 by discriminate. rewrite app_nil_r in H1. split.
    + split; cbn; [rewrite H1, H3 by discriminate; apply app_nil_r|]. split; [reflexivity|exact H3].
    + exists [t]. split; [reflexivity|discriminate].
Qed.
Lemma wi_clear {X} made w (q : list X) : wi made w q ->
  wi made (w_clear w) (@nil X) /\ (exists new, w_done (w_clear w) = w_done w ++ new /\ (new <> [] -> (@nil X) <> [])).
Proof. intros (H1 & H2 & H3). split; [split; [exact H1|split; [reflexivity|congruence]]|]. exists []. cbn. rewrite app_nil_r. split; [reflexivity|congruence]. Qed.
Lemma wi_take {X} made w (p q' : list X) : wi made w (p ++ q') ->
  wi made (w_take (p ++ q') q' w) q' /\ (exists new, w_done (w_take (p ++ q') q' w) = w_done w ++ new /\ (new <> [] -> q' <> [])).
Proof.
  intros (H1 & H2 & H3). unfold w_take. destruct q' as [|x q']; cbn [isnil].
  - rewrite andb_true_r, app_nil_r in *. destruct p as [|y p]; cbn; (split; [split; [exact H1|split; [cbn in *; auto|congruence]]|]);
    exists []; rewrite app_nil_r; (split; [reflexivity|congruence]).
  - rewrite andb_false_r. split; [split; [exact H1|split; [rewrite H2; now destruct p|]]|].
    + intros _. apply H3. now destruct p.
    + exists []. rewrite app_nil_r. split; [reflexivity|congruence].
Qed.
Lemma wi_take_eq {X} made w (q p q' : list X) : p ++ q' = q -> wi made w q ->
  wi made (w_take q q' w) q' /\ (exists new, w_done (w_take q q' w) = w_done w ++ new /\ (new <> [] -> q' <> [])).
Proof. intros <-. apply wi_take. Qed.
Lemma wi_arrive {X} made w (q fs : list X) : wi made w q ->
  wi made (w_arrive q (q ++ fs) w) (q ++ fs) /\ (exists new, w_done (w_arrive q (q ++ fs) w) = w_done w ++ new /\ (new <> [] -> q ++ fs <> [])).
Proof.
  intros (H1 & H2 & H3). unfold w_arrive. destruct fs as [|f fs].
  - rewrite app_nil_r, Nat.ltb_irrefl. split; [split; auto|]. exists []. rewrite app_nil_r. split; [reflexivity|congruence].
  - assert (E : (length q <? length (q ++ f :: fs))%nat = true) by (apply Nat.ltb_lt; rewrite app_length; cbn; lia). rewrite E.
    assert (En : q ++ f :: fs <> []) by (destruct q; discriminate).
    split; [split; cbn; [now rewrite app_nil_r|split; [destruct q; reflexivity|reflexivity]]|]. exists (w_blocked w). auto.
Qed.

(** ** the four receivers *)
Section Rx.
Context {S E X : Type} (step : S -> wop E -> S) (qq : S -> list X) (ww : S -> rxw).
Hypothesis Hstep : forall s o made, wi made (ww s) (qq s) ->
  wi (made ++ match o with WWait t => [t] | _ => [] end) (ww (step s o)) (qq (step s o)) /\
  (exists new, w_done (ww (step s o)) = w_done (ww s) ++ new /\ (new <> [] -> qq (step s o) <> [])).

Lemma wi_run l : forall s made, wi made (ww s) (qq s) -> wi (made ++ waits l) (ww (fold_left step l s)) (qq (fold_left step l s)).
Proof.
  induction l as [|o l IH]; intros s made H; cbn [fold_left waits flat_map]; [now rewrite app_nil_r|].
  destruct (Hstep s o made H) as [H1 _]. rewrite app_assoc. now apply IH.
Qed.
Lemma rx_honest l o s : wi [] (ww s) (qq s) ->
  let x := fold_left step l s in let x' := step x o in wait_honest (waits l) (ww x) (ww x') (qq x').
Proof.
  intros H. cbv zeta. pose proof (wi_run l s [] H) as H1. cbn [app] in H1. destruct (Hstep _ o _ H1) as [H2 H3].
  exact (wi_honest _ _ _ _ _ _ H1 H2 H3).
Qed.
End Rx.

Ltac wsame := cbn [app]; rewrite ?app_nil_r; apply wi_same; assumption.

Lemma wmon_wi A hr (s : mon A * rxw) o made : wi made (snd s) (m_q (fst s)) ->
  wi (made ++ match o with WWait t => [t] | _ => [] end) (snd (wmon_step hr s o)) (m_q (fst (wmon_step hr s o))) /\
  (exists new, w_done (snd (wmon_step hr s o)) = w_done (snd s) ++ new /\ (new <> [] -> m_q (fst (wmon_step hr s o)) <> [])).
Proof.
  destruct s as [m w]. cbn [fst snd]. intros H. destruct o as [o|t]; cbn [wmon_step fst snd]; [|now apply wi_wait].
  rewrite app_nil_r. destruct o as [v r d| | |b| |]; cbn [mon_step]; try (apply wi_same; exact H).
  - cbn [m_q]. destruct (m_q m) as [|x q] eqn:Eq; cbn [tl]; [apply (wi_take made w [] []); exact H|].
    apply (wi_take made w [x] q). exact H.
  - cbn [m_q]. now apply (wi_clear made w (m_q m)).
  - destruct b; apply wi_same; exact H.
  - assert (E : exists fs, m_q (mon_edge hr m) = m_q m ++ fs).
    { unfold mon_edge. destruct (m_task (mon_start m)); try (exists []; rewrite app_nil_r; reflexivity).
      destruct (_ && _); cbn; [eauto|exists []; now rewrite app_nil_r]. }
    destruct E as [fs ->]. now apply wi_arrive.
Qed.

Lemma wsnk_wi A hr (s : snk A * rxw) o made : wi made (snd s) (k_q (fst s)) ->
  wi (made ++ match o with WWait t => [t] | _ => [] end) (snd (wsnk_step hr s o)) (k_q (fst (wsnk_step hr s o))) /\
  (exists new, w_done (snd (wsnk_step hr s o)) = w_done (snd s) ++ new /\ (new <> [] -> k_q (fst (wsnk_step hr s o)) <> [])).
Proof.
  destruct s as [k w]. cbn [fst snd]. intros H. destruct o as [o|t]; cbn [wsnk_step fst snd]; [|now apply wi_wait].
  rewrite app_nil_r. destruct o as [o|v d|]; cbn [kev_step].
  - destruct o as [b|n| | |b|]; cbn [snk_step]; try (apply wi_same; exact H).
    + destruct (Bool.eqb _ _); apply wi_same; exact H.
    + destruct (k_q k) as [|x q] eqn:Eq; cbn [k_q snk_wake]; [rewrite Eq; apply (wi_take made w [] []); exact H|].
      apply (wi_take made w [x] q). exact H.
    + cbn [k_q]. now apply (wi_clear made w (k_q k)).
    + destruct b; apply wi_same; exact H.
  - assert (E : exists fs, k_q (snk_edge hr k v d) = k_q k ++ fs).
    { unfold snk_edge. destruct (k_task (snk_run k)); try (exists []; rewrite app_nil_r; reflexivity).
      cbn [k_q snk_run k_ready]. destruct (_ && v); [eauto|exists []; now rewrite app_nil_r]. }
    destruct E as [fs ->]. now apply wi_arrive.
  - apply wi_same; exact H.
Qed.

Lemma wamon_wi c (s : wamon) o made : wi made (wn_w s) (n_q (wn_m s)) ->
  wi (made ++ match o with WWait t => [t] | _ => [] end) (wn_w (wamon_step c s o)) (n_q (wn_m (wamon_step c s o))) /\
  (exists new, w_done (wn_w (wamon_step c s o)) = w_done (wn_w s) ++ new /\ (new <> [] -> n_q (wn_m (wamon_step c s o)) <> [])).
Proof.
  destruct s as [m a w]. cbn [wn_m wn_w]. intros H. destruct o as [o|t]; cbn [wamon_step wn_m wn_w]; [|now apply wi_wait].
  rewrite app_nil_r. destruct o as [v r d|r| |b| |]; cbn [amon_step]; try (apply wi_same; exact H).
  - exact (wi_take_eq made w _ _ _ (mrecv_taken m r) H).
  - cbn [n_q]. now apply (wi_clear made w (n_q m)).
  - destruct b; apply wi_same; exact H.
  - assert (E : exists fs, n_q (amon_edge c m) = n_q m ++ fs).
    { unfold amon_edge. destruct (n_task (amon_start m)); try (exists []; rewrite app_nil_r; reflexivity).
      destruct (_ && _); [|exists []; rewrite app_nil_r; reflexivity]. destruct (rx_beat _ _ _) as [p fs]. cbn. eauto. }
    destruct E as [fs ->]. now apply wi_arrive.
Qed.

Lemma wasnk_wi c (s : wasnk) o made : wi made (wz_w s) (z_q (wz_k s)) ->
  wi (made ++ match o with WWait t => [t] | _ => [] end) (wz_w (wasnk_step c s o)) (z_q (wz_k (wasnk_step c s o))) /\
  (exists new, w_done (wz_w (wasnk_step c s o)) = w_done (wz_w s) ++ new /\ (new <> [] -> z_q (wz_k (wasnk_step c s o)) <> [])).
Proof.
  destruct s as [k a w]. cbn [wz_k wz_w]. intros H. destruct o as [o|t]; cbn [wasnk_step wz_k wz_w]; [|now apply wi_wait].
  rewrite app_nil_r. destruct o as [o|v d|]; cbn [zev_step].
  - destruct o as [b|lb lf|r| |b|]; cbn [asnk_step]; try (apply wi_same; exact H).
    + destruct (Bool.eqb _ _); apply wi_same; exact H.
    + exact (wi_take_eq made w _ _ _ (recv_taken k r) H).
    + cbn [z_q]. now apply (wi_clear made w (z_q k)).
    + destruct b; apply wi_same; exact H.
  - assert (E : exists fs, z_q (asnk_edge c k v d) = z_q k ++ fs).
    { unfold asnk_edge. destruct (z_task (asnk_run k)); try (exists []; rewrite app_nil_r; reflexivity).
      match goal with |- context [let '(x, y) := ?e in _] => destruct e as [p fs] end. cbn. eauto. }
    destruct E as [fs ->]. now apply wi_arrive.
  - apply wi_same; exact H.
Qed.

(** Every history of all operations (signals, receives, clears, resets, pauses, limits, clock edges and
    calls of wait()), and one more operation. *)
Theorem C67_wait : forall A hr (c : scfg) v r (d : A) b limit lb lf,
  (forall l o, let x := fold_left (wmon_step hr) l (mon_init v r d, w_init) in let x' := wmon_step hr x o in
     wait_honest (waits l) (snd x) (snd x') (m_q (fst x'))) /\
  (forall l o, let x := fold_left (wsnk_step hr) l (snk_init limit : snk A, w_init) in let x' := wsnk_step hr x o in
     wait_honest (waits l) (snd x) (snd x') (k_q (fst x'))) /\
  (forall l o, let x := fold_left (wamon_step c) l (wamon_init v r b) in let x' := wamon_step c x o in
     wait_honest (waits l) (wn_w x) (wn_w x') (n_q (wn_m x'))) /\
  (forall l o, let x := fold_left (wasnk_step c) l (wasnk_init lb lf) in let x' := wasnk_step c x o in
     wait_honest (waits l) (wz_w x) (wz_w x') (z_q (wz_k x'))).
Proof.
  intros A hr c v r d b limit lb lf.
  assert (W0 : forall Y : Type, wi [] w_init (@nil Y)) by (intros; split; [reflexivity|]; split; [reflexivity|congruence]).
  split; [|split; [|split]]; intros l o.
  - exact (rx_honest (wmon_step hr) (fun x => m_q (fst x)) snd (wmon_wi A hr) l o (mon_init v r d, w_init) (W0 _)).
  - exact (rx_honest (wsnk_step hr) (fun x => k_q (fst x)) snd (wsnk_wi A hr) l o (snk_init limit, w_init) (W0 _)).
  - exact (rx_honest (wamon_step c) (fun x => n_q (wn_m x)) wn_w (wamon_wi c) l o (wamon_init v r b) (W0 _)).
  - exact (rx_honest (wasnk_step c) (fun x => z_q (wz_k x)) wz_w (wasnk_wi c) l o (wasnk_init lb lf) (W0 _)).
Qed.
Print Assumptions C67_wait.

Definition wbeat (x : Z) (last : bool) : beat := {| b_data := x; b_keep := 3; b_id := 0; b_dest := 0; b_user := 0; b_last := last |}.
Example C67_wait_nontrivial :
  let l := [WEv (ZClkE false zero_beat); WWait 1; WWait 2; WEv ZWakeE; WEv (ZClkE true (wbeat 5 false)); WEv (ZClkE true (wbeat 7 true)); WWait 3;
            WEv (ZOp (ZRecv (RRecv true))); WWait 4; WEv (ZOp (ZReset true)); WEv (ZOp (ZReset false)); WEv (ZClkE false zero_beat); WEv ZWakeE] in
  let x := fold_left (wasnk_step abus) l (wasnk_init (-1) (-1)) in
  w_done (wz_w x) = [1; 2; 3] /\ w_blocked (wz_w x) = [4] /\
  (let x' := wasnk_step abus x (WEv (ZClkE true (wbeat 9 true))) in w_done (wz_w x') = [1; 2; 3; 4] /\ w_blocked (wz_w x') = [] /\ length (z_q (wz_k x')) = 1%nat).
Proof. vm_compute. repeat split. Qed.

(** ** idle() *)
(** at least one byte of a frame that is not complete *)
Definition holds_bytes (p : option frame) : Prop := exists f d0 d, p = Some f /\ f_data f = d0 :: d.
Lemma part_true_holds p : part_true p = true <-> holds_bytes p.
Proof.
  unfold part_true, holds_bytes. destruct p as [f|]; [|split; [discriminate|intros (f & d0 & d & H & _); discriminate]]. split.
  - intros H. destruct (f_data f) as [|d0 d] eqn:E; [discriminate|]. exists f, d0, d. auto.
  - intros (f' & d0 & d & [= <-] & ->). rewrite zlen_cons. pose proof (zlen_nonneg d). lia.
Qed.
Lemma part_false_holds p : part_true p = false <-> ~ holds_bytes p.
Proof. rewrite <- part_true_holds. destruct (part_true p); split; congruence. Qed.
Lemma idle_no_partial : forall c v r b lb lf,
  (forall l, let x := fold_left (wamon_step c) l (wamon_init v r b) in wamon_idle x = true -> part_true (n_part (wn_m x)) = false) /\
  (forall l, let x := fold_left (wasnk_step c) l (wasnk_init lb lf) in wasnk_idle x = true -> part_true (z_part (wz_k x)) = false).
Proof.
  intros c v r b lb lf. split; intros l; cbv zeta.
  - assert (H : wn_act (fold_left (wamon_step c) l (wamon_init v r b)) = false -> part_true (n_part (wn_m (fold_left (wamon_step c) l (wamon_init v r b)))) = false).
    2: { unfold wamon_idle. rewrite negb_true_iff. exact H. }
    assert (H0 : wn_act (wamon_init v r b) = false -> part_true (n_part (wn_m (wamon_init v r b))) = false) by reflexivity.
    revert H0. generalize (wamon_init v r b). induction l as [|o l IH]; intros x Hx; cbn [fold_left]; [exact Hx|]. apply IH. clear IH.
    destruct x as [m a w]. cbn [wn_m wn_act] in *. destruct o as [o|t]; cbn [wamon_step wn_m wn_act]; [|exact Hx].
    destruct o as [v' r' b'|o| |[|]| |]; cbn [amon_step amon_act]; try exact Hx.
    + destruct (mrecv_task m o) as (_ & -> & _). exact Hx.
    + reflexivity.
    + cbn [amon_start n_part]. destruct (n_task m); try exact Hx. reflexivity.
    + unfold amon_edge. cbn [amon_start n_task n_part n_ready n_valid].
      destruct (n_task m) eqn:Et; try exact Hx; cbn [n_part amon_start]; rewrite ?Et; try exact Hx;
      (destruct ((negb (x_ready c) || n_ready m) && n_valid m); [destruct (rx_beat _ _ _) as [p fs] eqn:Er|cbn; auto]); cbn [n_part].
      * cbn [part_true]. discriminate.
      * destruct (part_true (n_part m)) eqn:Ep; [|discriminate]. intros Ha. specialize (Hx Ha). congruence.
  - assert (H : wz_act (fold_left (wasnk_step c) l (wasnk_init lb lf)) = false -> part_true (z_part (wz_k (fold_left (wasnk_step c) l (wasnk_init lb lf)))) = false).
    2: { unfold wasnk_idle. rewrite negb_true_iff. exact H. }
    assert (H0 : wz_act (wasnk_init lb lf) = false -> part_true (z_part (wz_k (wasnk_init lb lf))) = false) by reflexivity.
    revert H0. generalize (wasnk_init lb lf). induction l as [|o l IH]; intros x Hx; cbn [fold_left]; [exact Hx|]. apply IH. clear IH.
    destruct x as [k a w]. cbn [wz_k wz_act] in *. destruct o as [o|t]; cbn [wasnk_step wz_k wz_act]; [|exact Hx].
    destruct o as [[b'|lb' lf'|o| |[|]|]|v' b'|]; cbn [zev_step asnk_step asnk_act]; try exact Hx.
    + destruct (Bool.eqb _ _); exact Hx.
    + destruct (recv_task k o) as [_ ->]. exact Hx.
    + reflexivity.
    + cbn [asnk_run z_part]. destruct (z_task k); try exact Hx. reflexivity.
    + unfold asnk_edge. cbn [asnk_run z_task z_part z_ready].
      destruct (z_task k) eqn:Et; try exact Hx; cbn [z_part asnk_run]; rewrite ?Et; try exact Hx;
      (destruct ((negb (x_ready c) || z_ready k) && v'); [destruct (rx_beat _ _ _) as [p fs] eqn:Er|cbn; auto]); cbn [z_part].
      * cbn [part_true]. discriminate.
      * destruct (part_true (z_part k)) eqn:Ep; [|discriminate]. intros Ha. specialize (Hx Ha). congruence.
      * destruct (part_true (z_part k)) eqn:Ep; [|discriminate]. intros Ha. specialize (Hx Ha). congruence.
Qed.
(** Every history: while a frame is partly received idle() is false, for the sink and the monitor. *)
Theorem C67_idle_no_partial_frame : forall c v r b lb lf,
  (forall l, let x := fold_left (wamon_step c) l (wamon_init v r b) in wamon_idle x = true -> ~ holds_bytes (n_part (wn_m x))) /\
  (forall l, let x := fold_left (wasnk_step c) l (wasnk_init lb lf) in wasnk_idle x = true -> ~ holds_bytes (z_part (wz_k x))).
Proof.
  intros c v r b lb lf. destruct (idle_no_partial c v r b lb lf) as [H1 H2]. split; intros l; cbv zeta; intros H; apply part_false_holds; [now apply H1|now apply H2].
Qed.
Print Assumptions C67_idle_no_partial_frame.

(** After a clock edge without a transfer the monitor's idle() is exact, for every history; so is the
    sink's if it was never paused and has no queue limit. *)
Definition wcalm (o : wop zev) : Prop :=
  match o with WEv (ZOp (ZPause b)) => b = false | WEv (ZOp (ZLimits lb lf)) => lb <= 0 /\ lf <= 0 | _ => True end.

Lemma monitor_idle_exact : forall c v r b l, let x := fold_left (wamon_step c) l (wamon_init v r b) in
  (negb (x_ready c) || n_ready (wn_m x)) && n_valid (wn_m x) = false ->
  let x' := wamon_step c x (WEv NClk) in wamon_idle x' = negb (part_true (n_part (wn_m x'))).
Proof.
  intros c v r b l. cbv zeta.
  assert (H : forall x, x = fold_left (wamon_step c) l (wamon_init v r b) ->
    n_task (wn_m x) = MSleep \/ n_task (wn_m x) = MDead -> wn_act x = part_true (n_part (wn_m x))).
  { intros x ->. assert (H0 : let x := wamon_init v r b in n_task (wn_m x) = MSleep \/ n_task (wn_m x) = MDead -> wn_act x = part_true (n_part (wn_m x))) by reflexivity.
    cbv zeta in H0. revert H0. generalize (wamon_init v r b). induction l as [|o l IH]; intros x Hx; cbn [fold_left]; [exact Hx|]. apply IH. clear IH.
    destruct x as [m a w]. cbn [wn_m wn_act] in *. destruct o as [o|t]; cbn [wamon_step wn_m wn_act]; [|exact Hx].
    destruct o as [v' r' b'|o| |[|]| |]; cbn [amon_step amon_act]; try exact Hx.
    + cbn [n_task n_part]. destruct (n_task m); try destruct (_ || _); intros [H|H]; try discriminate; apply Hx; auto.
    + destruct (mrecv_task m o) as (-> & -> & _). exact Hx.
    + reflexivity.
    + cbn [n_task n_part]. destruct (n_task m); intros [H|H]; try discriminate; apply Hx; auto.
    + cbn [amon_start n_task n_part]. destruct (n_task m); intros [H|H]; try discriminate; apply Hx; auto.
    + unfold amon_edge. cbn [amon_start n_task n_part n_ready n_valid].
      destruct (n_task m) eqn:Et; try exact Hx; cbn [n_part n_task amon_start]; rewrite ?Et; try exact Hx;
      (destruct ((negb (x_ready c) || n_ready m) && n_valid m); [destruct (rx_beat _ _ _) as [p fs]; intros [H|H]; discriminate|reflexivity]). }
  specialize (H _ eq_refl). revert H. generalize (fold_left (wamon_step c) l (wamon_init v r b)). intros [m a w].
  cbn [wn_m wn_act]. intros Hs He. unfold wamon_idle. f_equal. cbn [wamon_step wn_m wn_act amon_act amon_step].
  unfold amon_edge. cbn [amon_start n_task n_ready n_valid]. rewrite He.
  destruct (n_task m) eqn:Et; cbn [amon_start n_part]; rewrite ?Et; try reflexivity; apply Hs; auto.
Qed.
Theorem C67_monitor_idle_exact : forall c v r b l, let x := fold_left (wamon_step c) l (wamon_init v r b) in
  (negb (x_ready c) || n_ready (wn_m x)) && n_valid (wn_m x) = false ->
  let x' := wamon_step c x (WEv NClk) in wamon_idle x' = true <-> ~ holds_bytes (n_part (wn_m x')).
Proof. intros c v r b l x He x'. rewrite <- part_false_holds. unfold x', x. rewrite (monitor_idle_exact c v r b l He). apply negb_true_iff. Qed.
Print Assumptions C67_monitor_idle_exact.

Lemma sink_idle_exact : forall c lb lf l, lb <= 0 -> lf <= 0 -> Forall wcalm l ->
  let x := fold_left (wasnk_step c) l (wasnk_init lb lf) in
  forall v b, (negb (x_ready c) || z_ready (wz_k x)) && v = false ->
  let x' := wasnk_step c x (WEv (ZClkE v b)) in wasnk_idle x' = negb (part_true (z_part (wz_k x'))).
Proof.
  intros c lb lf l Hlb Hlf Hl. cbv zeta. intros v b He.
  set (I := fun x => (z_pause (wz_k x) = false /\ z_limb (wz_k x) <= 0 /\ z_limf (wz_k x) <= 0) /\
    match z_task (wz_k x) with KEdge _ ps => ps = false | KSleep | KDead => wz_act x = part_true (z_part (wz_k x)) | _ => True end).
  assert (H : I (fold_left (wasnk_step c) l (wasnk_init lb lf))).
  { clear He. assert (H0 : I (wasnk_init lb lf)) by (repeat split; assumption).
    revert H0. generalize (wasnk_init lb lf). induction Hl as [|o l Ho Hl IH]; intros x Hx; cbn [fold_left]; [exact Hx|]. apply IH. clear IH.
    destruct x as [k a w]. unfold I in *. cbn [wz_k wz_act] in *. destruct o as [o|t]; cbn [wasnk_step wz_k wz_act]; [|exact Hx].
    destruct Hx as ((Hp & H1 & H2) & H3).
    destruct o as [[b'|lb' lf'|o| |[|]|]|v' b'|]; cbn [zev_step asnk_step asnk_act wcalm] in *.
    + subst b'. rewrite Hp. cbn. auto.
    + cbn. destruct Ho. auto.
    + assert (E : z_pause (fst (asnk_recv k o)) = z_pause k /\ z_limb (fst (asnk_recv k o)) = z_limb k /\ z_limf (fst (asnk_recv k o)) = z_limf k).
      { unfold asnk_recv. destruct o as [cp| |n]; destruct (z_q k); try (cbn; auto; fail); try (destruct (z_readq k); cbn; auto; fail);
        destruct (read_all _ _ _); cbn; auto. }
      destruct E as (-> & -> & ->). split; [auto|]. destruct (recv_task k o) as [[[-> _]| ->] ->]; [exact H3|]. destruct (z_task k); auto.
    + cbn. auto.
    + cbn. auto.
    + cbn. destruct (z_task k); auto.
    + cbn. destruct (z_task k); auto.
    + unfold asnk_edge. cbn [asnk_run z_task z_part z_ready z_limb z_limf z_occb z_occf z_q].
      assert (Ef : forall p q, occ_full (z_limb k) (z_limf k) p q = false).
      { intros p q. unfold occ_full. assert (E1 : 0 <? z_limb k = false) by lia. assert (E2 : 0 <? z_limf k = false) by lia. now rewrite E1, E2. }
      destruct (z_task k) as [| |n|n ps|] eqn:Et; cbn [z_pause asnk_run z_limb z_limf z_task z_part]; rewrite ?Et; try (split; [auto|]; auto; fail);
      match goal with |- context [let '(x, y) := ?e in _] => destruct e as [p fs] eqn:Ee end; cbn [z_pause z_limb z_limf z_task z_part];
      (split; [auto|]); rewrite ?Hp, ?H3, ?Ef; cbn [orb Bool.eqb]; rewrite ?andb_true_r, ?orb_false_r;
      (destruct v'; cbn [negb andb]; [destruct (x_ready c); cbn; auto|rewrite !andb_false_r in *; injection Ee as <- _; destruct (x_ready c); cbn; try destruct (z_wake k); try destruct n; auto]).
    + cbn. destruct (z_task k); auto. }
  revert H He. generalize (fold_left (wasnk_step c) l (wasnk_init lb lf)). intros [k a w].
  unfold I. cbn [wz_k wz_act]. intros (_ & Hs) He. unfold wasnk_idle. f_equal. cbn [wasnk_step wz_k wz_act asnk_act zev_step].
  unfold asnk_edge. cbn [asnk_run z_task z_part z_ready]. rewrite He.
  destruct (z_task k) as [| |n|n ps|] eqn:Et; cbn [asnk_run z_part]; rewrite ?Et; try reflexivity; exact Hs.
Qed.
Theorem C67_sink_idle_exact : forall c lb lf l, lb <= 0 -> lf <= 0 -> Forall wcalm l ->
  let x := fold_left (wasnk_step c) l (wasnk_init lb lf) in
  forall v b, (negb (x_ready c) || z_ready (wz_k x)) && v = false ->
  let x' := wasnk_step c x (WEv (ZClkE v b)) in wasnk_idle x' = true <-> ~ holds_bytes (z_part (wz_k x')).
Proof. intros c lb lf l H1 H2 H3 x v b He x'. rewrite <- part_false_holds. unfold x', x. rewrite (sink_idle_exact c lb lf l H1 H2 H3 v b He). apply negb_true_iff. Qed.
Print Assumptions C67_sink_idle_exact.

(** The claim without these conditions is false: a sink paused while it receives the last transfer goes
    to sleep and idle() stays false at every further edge, though no frame is in progress, the frame was
    received and nothing is sent. The same for a sink whose frame limit is exceeded. *)
Lemma asleep_edges c n : forall x v b, z_task (wz_k x) = KSleep ->
  fold_left (wasnk_step c) (repeat (WEv (ZClkE v b)) n) x =
  match n with O => x | _ => {| wz_k := asnk_run (wz_k x); wz_act := wz_act x; wz_w := wz_w x |} end.
Proof.
  induction n as [|n IH]; intros x v b H; [reflexivity|]. cbn [repeat fold_left].
  assert (E : wasnk_step c x (WEv (ZClkE v b)) = {| wz_k := asnk_run (wz_k x); wz_act := wz_act x; wz_w := wz_w x |}).
  { unfold wasnk_step, zev_step, asnk_edge, asnk_act. cbn [asnk_run z_task]. rewrite H. f_equal. cbn [z_q asnk_run]. unfold w_arrive. now rewrite Nat.ltb_irrefl. }
  rewrite E, IH by (cbn; now rewrite H). destruct n; [reflexivity|]. destruct x as [[q p rq ob of lb lf pa wk tk rd] a w]. cbn in *. subst tk. reflexivity.
Qed.

Theorem C67_sink_idle_refuted :
  (exists l, Forall (fun o => match o with WEv (ZOp (ZReset _)) => False | _ => True end) l /\
     forall n, let x := fold_left (wasnk_step abus) (l ++ repeat (WEv (ZClkE false zero_beat)) n) (wasnk_init (-1) (-1)) in
       z_part (wz_k x) = None /\ length (z_q (wz_k x)) = 1%nat /\ wasnk_idle x = false) /\
  (exists l, Forall wcalm l /\
     forall n, let x := fold_left (wasnk_step abus) (l ++ repeat (WEv (ZClkE false zero_beat)) n) (wasnk_init (-1) 1) in
       z_part (wz_k x) = None /\ length (z_q (wz_k x)) = 2%nat /\ wasnk_idle x = false).
Proof.
  split.
  - exists [WEv (ZClkE false zero_beat); WEv ZWakeE; WEv (ZOp (ZPause true)); WEv (ZClkE true (wbeat 5 true))].
    split; [repeat constructor|]. intros n. cbv zeta. rewrite fold_left_app, asleep_edges by reflexivity. destruct n; repeat split.
  - exists [WEv (ZClkE false zero_beat); WEv ZWakeE; WEv (ZClkE true (wbeat 5 true)); WEv (ZClkE true (wbeat 6 true))].
    split; [repeat constructor|]. intros n. cbv zeta. rewrite fold_left_app, asleep_edges by reflexivity. destruct n; repeat split.
Qed.
Print Assumptions C67_sink_idle_refuted.

Example C67_idle_nontrivial :
  let x := fold_left (wasnk_step abus) [WEv (ZClkE false zero_beat); WEv ZWakeE; WEv (ZClkE true (wbeat 5 false))] (wasnk_init (-1) (-1)) in
  wasnk_idle x = false /\ part_true (z_part (wz_k x)) = true /\
  (let x' := wasnk_step abus x (WEv (ZClkE false zero_beat)) in wasnk_idle x' = false) /\
  (let x' := fold_left (wasnk_step abus) [WEv (ZClkE true (wbeat 5 true)); WEv (ZClkE false zero_beat)] x in wasnk_idle x' = true /\ length (z_q (wz_k x')) = 1%nat).
Proof. vm_compute. repeat split. Qed.
