(** Property theorems for the AXI-Lite operation engine: C34, and C31, C32 for AXI-Lite. *)
From Coq Require Import ZArith Lia List Bool Permutation.
From Coq Require Import ZifyBool ZifyNat.
From Verif Require Import Py S_flat M_axi S_axi P_axi M_axil S_axil P_axil M_liteeng S_liteeng P_liteeng.
Import ListNotations.
Open Scope Z_scope.

(** C34.  Since the last reset: the completed operations are the first ones that were issued, in order;
    each got its own consecutive responses, as many as it has words; the transfers made are the
    first transfers of the operations in issue order.  If nothing can run, all transfers were made
    and only missing responses keep an operation from completing. *)
Definition attributed {C E R} (sends : C -> list E) (words : C -> Z) (s : eng C E R) (l : list (gout C E R))
  (stuck : Prop) : Prop :=
  let ep := epoch l in
  exists segs rest,
    (length segs <= length (started ep))%nat /\
    completed ep = combine (firstn (length segs) (started ep)) segs /\
    received ep = concat segs ++ rest /\
    Forall2 (fun c seg => zlen seg = words c) (firstn (length segs) (started ep)) segs /\
    (exists more, flat_map sends (started ep) = sent ep ++ more) /\
    (stuck -> sent ep = flat_map sends (started ep) /\
       (length segs = length (started ep) \/
        exists c, nth_error (started ep) (length segs) = Some c /\ zlen rest < words c)).

Lemma cycles_nonneg L a n : 0 < L -> 0 <= n -> 0 <= lite_cycles L a n.
Proof. intros HL Hn. unfold lite_cycles. pose proof (Z.mod_pos_bound a L HL). apply Z.div_pos; lia. Qed.

Lemma attributed_of {C E R} (sends : C -> list E) need words (Hw : forall c, 0 <= words c -> need c = Z.to_nat (words c))
  (Hneg : forall c, words c < 0 -> need c = O) h :
  (forall c, In c (started (snd (@eng_run C E R sends need eng_init h))) -> 0 <= words c) ->
  let '(s, l) := @eng_run C E R sends need eng_init h in
  attributed sends words s l
    (g_wtask s = true /\ eng_step sends need s GGet = (s, []) /\ eng_step sends need s GSend = (s, []) /\
     eng_step sends need s GRGet = (s, [])).
Proof.
  intros Hpos. pose proof (@eng_attribution C E R sends need h) as H. destruct (eng_run sends need eng_init h) as [s l].
  cbn [snd] in Hpos. unfold attributed. cbv zeta in *.
  assert (Hep : forall c, In c (started (epoch l)) -> 0 <= words c).
  { intros c Hc. apply Hpos. destruct (epoch_split l) as [Q|(pre & Hl)]; [now rewrite epoch_quiet in Hc|].
    rewrite Hl, started_app, in_app_iff. now right. }
  destruct H as (segs & rest & H1 & H2 & H3 & H4 & H5 & H6). exists segs, rest.
  split; auto. split; auto. split; auto. split; [|split; auto].
  - assert (Hin : forall c, In c (firstn (length segs) (started (epoch l))) -> In c (started (epoch l))).
    { intros c Hc. rewrite <- (firstn_skipn (length segs)), in_app_iff. now left. }
    clear -H4 Hin Hep Hw. revert H4 Hin. generalize (firstn (length segs) (started (epoch l))) as cs.
    induction 1 as [|c seg cs segs Hc HF IH]; intros Hin; constructor.
    + rewrite (Hw c) in Hc by (apply Hep, Hin; cbn; auto).
      assert (0 <= words c) by (apply Hep, Hin; cbn; auto). unfold zlen. lia.
    + apply IH. intros c' Hc'. apply Hin. cbn; auto.
  - intros (S1 & S2 & S3 & S4). destruct (H6 S1 S2 S3 S4) as (K1 & K2). split; auto.
    destruct K2 as [K2|(c & K2 & K3)]; [now left|right]. exists c. split; auto.
    assert (0 <= words c) by (apply Hep; eapply nth_error_In; eauto). rewrite (Hw c) in K3 by lia. unfold zlen. lia.
Qed.

Theorem C34_write_attribution : forall L h, 0 < L ->
  let '(s, l) := lite_w_run L h in
  attributed (lite_w_sends L) (fun o => lite_cycles L (lc_addr (snd o)) (zlen (lc_data (snd o)))) s l
    (g_wtask s = true /\ forall o, In o [GGet; GSend; GRGet] -> eng_step (lite_w_sends L) (lite_w_need L) s o = (s, [])).
Proof.
  intros L h HL.
  pose proof (attributed_of (R:=resp_t) (lite_w_sends L) (lite_w_need L) (fun o => lite_cycles L (lc_addr (snd o)) (zlen (lc_data (snd o))))) as H.
  specialize (H ltac:(reflexivity)). specialize (H ltac:(intros c Hc; pose proof (cycles_nonneg L (lc_addr (snd c)) (zlen (lc_data (snd c))) HL (zlen_nonneg _)); lia) h).
  specialize (H ltac:(intros c _; apply cycles_nonneg; auto using zlen_nonneg)).
  unfold lite_w_run in *. destruct (eng_run _ _ _ h) as [s l]. unfold attributed in *. cbv zeta in *.
  destruct H as (segs & rest & H1 & H2 & H3 & H4 & H5 & H6). exists segs, rest. repeat (split; [assumption|]).
  intros (S1 & S2). apply H6. repeat split; auto; apply S2; cbn; auto.
Qed.
Print Assumptions C34_write_attribution.

Theorem C34_read_attribution : forall L h, 0 < L ->
  let '(s, l) := lite_r_run L h in
  (forall o, In o (started l) -> 0 <= lr_len (snd o)) ->
  attributed (lite_r_sends L) (fun o => lite_cycles L (lr_addr (snd o)) (lr_len (snd o))) s l
    (g_wtask s = true /\ forall o, In o [GGet; GSend; GRGet] -> eng_step (lite_r_sends L) (lite_r_need L) s o = (s, [])).
Proof.
  intros L h HL.
  pose proof (attributed_of (R:=lrd) (lite_r_sends L) (lite_r_need L) (fun o => lite_cycles L (lr_addr (snd o)) (lr_len (snd o)))) as H.
  specialize (H ltac:(reflexivity)). specialize (H ltac:(intros c Hc; unfold lite_r_need; lia) h).
  unfold lite_r_run in *. destruct (eng_run _ _ _ h) as [s l]. cbn [snd] in H. intros Hpos.
  specialize (H ltac:(intros c Hc; apply cycles_nonneg; auto)). unfold attributed in *. cbv zeta in *.
  destruct H as (segs & rest & H1 & H2 & H3 & H4 & H5 & H6). exists segs, rest. repeat (split; [assumption|]).
  intros (S1 & S2). apply H6. repeat split; auto; apply S2; cbn; auto.
Qed.
Print Assumptions C34_read_attribution.

(** two overlapping writes, an error in the second *)
Example C34_nontrivial :
  let c1 := (1, {| lc_addr := 2; lc_data := [1; 2; 3]; lc_prot := 2 |}) in
  let c2 := (2, {| lc_addr := 8; lc_data := [4; 5; 6; 7]; lc_prot := 2 |}) in
  let h := [GIssue c1; GGet; GSend; GInit c2; GSend; GRGet; GStart 0; GSend; GResp OKAY; GSend; GGet; GSend; GResp OKAY;
            GRGet; GSend; GResp SLVERR] in
  completed (snd (lite_w_run 4 h)) = [(c1, [OKAY; OKAY]); (c2, [SLVERR])] /\
  sent (snd (lite_w_run 4 h)) = lite_w_sends 4 c1 ++ lite_w_sends 4 c2.
Proof. vm_compute. auto. Qed.

(* ------------------------------------------------------------------ *)
(** the bus side: B answers a W transfer, R an AR transfer *)
Definition w_answered (e : lev) : bool := match e with LW _ => true | LAW _ => false end.
Definition r_answered (e : lax) : bool := true.

Lemma filter_pairs {A} (f : A -> lax) (g : A -> lwd) l :
  length (filter w_answered (flat_map (fun j => [LAW (f j); LW (g j)]) l)) = length l.
Proof. induction l; cbn; congruence. Qed.

Lemma w_need_ans L o : 0 < L -> are_bytes (lc_data (snd o)) ->
  lite_w_need L o = length (filter w_answered (lite_w_sends L o)).
Proof.
  intros HL HD. destruct o as [i [A D prot]]. unfold lite_w_need, lite_w_sends. cbn [snd lc_addr lc_data] in *.
  rewrite lite_write_spec by auto. cbn [fst]. rewrite filter_pairs.
  pose proof (zlen_zrange 0 (lite_cycles L A (zlen D))) as H. pose proof (cycles_nonneg L A (zlen D) HL (zlen_nonneg D)).
  unfold zlen in H at 1. lia.
Qed.
Lemma w_last_ans L o pre e : 0 < L -> are_bytes (lc_data (snd o)) -> lite_w_sends L o = pre ++ [e] -> w_answered e = true.
Proof.
  intros HL HD. destruct o as [i [A D prot]]. unfold lite_w_sends. cbn [snd lc_addr lc_data] in *.
  rewrite lite_write_spec by auto. cbn [fst]. generalize (zrange 0 (lite_cycles L A (zlen D))) as ks.
  intros ks. destruct ks as [|k ks] using rev_ind; [destruct pre; discriminate|].
  rewrite flat_map_app. cbn [flat_map app]. intros H.
  change [LAW (lw_a L A prot k); LW (lw_w L A D k)] with ([LAW (lw_a L A prot k)] ++ [LW (lw_w L A D k)]) in H.
  rewrite app_assoc in H. apply app_inj_tail in H. destruct H as [_ <-]. reflexivity.
Qed.
Lemma r_need_ans L o : 0 < L -> 0 <= lr_len (snd o) -> lite_r_need L o = length (filter r_answered (lite_r_sends L o)).
Proof.
  intros HL Hn. unfold lite_r_need, lite_r_sends, lite_read.
  replace (filter r_answered _) with (map (fun k => {| la_addr := lite_addr L (lr_addr (snd o)) k; la_prot := lr_prot (snd o) |})
      (zrange 0 (lite_cycles L (lr_addr (snd o)) (lr_len (snd o))))) by (induction (zrange 0 _); cbn; congruence).
  rewrite map_length. pose proof (zlen_zrange 0 (lite_cycles L (lr_addr (snd o)) (lr_len (snd o)))) as H.
  pose proof (cycles_nonneg L (lr_addr (snd o)) (lr_len (snd o)) HL Hn). unfold zlen in H. lia.
Qed.

(** C31: idle() is true exactly if every operation that was queued has completed; the event wait()
    sleeps on is set exactly then. *)
Theorem C31_lite_write_idle_partial : forall L h, 0 < L ->
  let '(s, l) := lite_w_run L h in
  answers_follow w_answered l -> Forall (fun o => are_bytes (lc_data (snd o))) (initiated h) -> NoDup (initiated h) ->
  (eng_is_idle s = true <-> forall o, In o (started l) -> In o (map fst (completed l)) \/ In o (flushed l)) /\
  g_idle s = eng_is_idle s /\
  (g_pend s = [] -> forall o, In o (initiated h) <-> In o (started l)).
Proof.
  intros L h HL. unfold lite_w_run.
  pose proof (eng_finish (lite_w_sends L) (lite_w_need L) w_answered (fun o => are_bytes (lc_data (snd o)))
    (fun c Hc => w_need_ans L c HL Hc) (fun c pre e Hc => w_last_ans L c pre e HL Hc) h) as Hf.
  pose proof (inv_run (E:=lev) (lite_w_sends L) (lite_w_need L) h) as Hi.
  pose proof (initiated_run (E:=lev) (lite_w_sends L) (lite_w_need L) h) as Hp.
  destruct (eng_run _ _ _ h) as [s l]. intros Ha Hv Hnd.
  apply (idle_exact _ _ h s l Hi Hp Hnd (fun o => are_bytes (lc_data (snd o))) Hv). exact (Hf Ha).
Qed.
Print Assumptions C31_lite_write_idle_partial.

Theorem C31_lite_read_idle_partial : forall L h, 0 < L ->
  let '(s, l) := lite_r_run L h in
  answers_follow r_answered l -> Forall (fun o => 0 <= lr_len (snd o)) (initiated h) -> NoDup (initiated h) ->
  (eng_is_idle s = true <-> forall o, In o (started l) -> In o (map fst (completed l)) \/ In o (flushed l)) /\
  g_idle s = eng_is_idle s /\
  (g_pend s = [] -> forall o, In o (initiated h) <-> In o (started l)).
Proof.
  intros L h HL. unfold lite_r_run.
  pose proof (eng_finish (lite_r_sends L) (lite_r_need L) r_answered (fun o => 0 <= lr_len (snd o))
    (fun c Hc => r_need_ans L c HL Hc) (fun c pre e Hc _ => eq_refl) h) as Hf.
  pose proof (inv_run (E:=lax) (lite_r_sends L) (lite_r_need L) h) as Hi.
  pose proof (initiated_run (E:=lax) (lite_r_sends L) (lite_r_need L) h) as Hp.
  destruct (eng_run _ _ _ h) as [s l]. intros Ha Hv Hnd.
  apply (idle_exact _ _ h s l Hi Hp Hnd (fun o => 0 <= lr_len (snd o)) Hv). exact (Hf Ha).
Qed.
Print Assumptions C31_lite_read_idle_partial.

(** C31 is false for init_write / init_read: until the task runs, idle() does not see the operation *)
Theorem C31_lite_init_not_counted_refuted : forall L c,
  let '(s, l) := lite_w_run L [GInit c] in
  In c (initiated [GInit c : gop _ resp_t]) /\ eng_is_idle s = true /\ g_idle s = true /\
  ~ In c (map fst (completed l)) /\ ~ In c (flushed l).
Proof. intros L c. cbn. auto 8. Qed.
Print Assumptions C31_lite_init_not_counted_refuted.

Example C31_lite_nontrivial :
  let c := (1, {| lc_addr := 2; lc_data := [1; 2]; lc_prot := 2 |}) in
  let h := [GInit c; GStart 0; GGet; GSend; GSend; GRGet] in
  eng_is_idle (fst (lite_w_run 4 h)) = false /\ eng_is_idle (fst (lite_w_run 4 (h ++ [GResp OKAY]))) = true.
Proof. vm_compute. auto. Qed.

(* ------------------------------------------------------------------ *)
(** C32.  No operation completes twice, a completed operation is not flushed; when reset is asserted every
    queued operation has completed or is completed with None, and the master is idle. *)
Definition finished_once {C E R} (s : eng C E R) (l : list (gout C E R)) (reset : bool) : Prop :=
  NoDup (map fst (completed l)) /\
  (forall o, In o (flushed l) -> ~ In o (map fst (completed l))) /\
  (forall o, In o (map fst (completed l)) \/ In o (flushed l) -> In o (started l)) /\
  (reset = true ->
     (forall o, In o (started l) -> In o (map fst (completed l)) \/ In o (flushed l)) /\
     eng_is_idle s = true /\ g_idle s = true).

Definition ends_in_reset {C R} (h : list (gop C R)) : bool :=
  match rev h with GReset true :: _ => true | _ => false end.

Lemma finished_once_of {C E R} (sends : C -> list E) need ans (valid : C -> Prop) h :
  (forall c, valid c -> need c = length (filter ans (sends c))) ->
  (forall c pre e, valid c -> sends c = pre ++ [e] -> ans e = true) ->
  let '(s, l) := @eng_run C E R sends need eng_init h in
  answers_follow ans l -> Forall valid (started l) -> NoDup (started l) -> finished_once s l (ends_in_reset h).
Proof.
  intros H1 H2. pose proof (eng_finish sends need ans valid H1 H2 h) as Hf.
  assert (Hr : ends_in_reset h = true -> let '(s, l) := @eng_run C E R sends need eng_init h in
     pending s = [] /\ g_inflight s = 0 /\ g_idle s = true).
  { unfold ends_in_reset. destruct (rev h) as [|[| | | | | | |[]] h'] eqn:E1; try discriminate. intros _.
    pose proof (reset_state (E:=E) sends need (rev h')) as K.
    replace h with (rev h' ++ [GReset true]) by (rewrite <- (rev_involutive h), E1; reflexivity).
    destruct (eng_run sends need eng_init (rev h' ++ [GReset true])) as [s l]. tauto. }
  destruct (eng_run sends need eng_init h) as [s l]. intros Ha Hv Hnd. destruct (Hf Ha Hv) as (F1 & F2).
  destruct (F2 Hnd) as (F3 & F4 & F5). split; auto. split; auto. split.
  - intros o Ho. apply F1. now left.
  - intros Er. destruct (Hr Er) as (R1 & R2 & R3). split; [|split; auto].
    + intros o Ho. apply F1 in Ho. rewrite R1 in Ho. destruct Ho as [Ho|[]]. exact Ho.
    + unfold eng_is_idle. rewrite R2. reflexivity.
Qed.

Theorem C32_lite_write_reset : forall L h, 0 < L ->
  let '(s, l) := lite_w_run L h in
  answers_follow w_answered l -> Forall (fun o => are_bytes (lc_data (snd o))) (started l) -> NoDup (started l) ->
  finished_once s l (ends_in_reset h).
Proof.
  intros L h HL. apply (finished_once_of _ _ w_answered (fun o => are_bytes (lc_data (snd o)))).
  - intros c Hc. now apply w_need_ans.
  - intros c pre e Hc. now apply (w_last_ans L c).
Qed.
Print Assumptions C32_lite_write_reset.

Theorem C32_lite_read_reset : forall L h, 0 < L ->
  let '(s, l) := lite_r_run L h in
  answers_follow r_answered l -> Forall (fun o => 0 <= lr_len (snd o)) (started l) -> NoDup (started l) ->
  finished_once s l (ends_in_reset h).
Proof.
  intros L h HL. apply (finished_once_of _ _ r_answered (fun o => 0 <= lr_len (snd o))).
  - intros c Hc. now apply r_need_ans.
  - reflexivity.
Qed.
Print Assumptions C32_lite_read_reset.

(** three operations: one completed, one half sent, one queued *)
Example C32_lite_nontrivial :
  let c i := (i, {| lc_addr := 0; lc_data := [1; 2; 3; 4; 5]; lc_prot := 2 |}) in
  let h := [GIssue (c 1); GGet; GSend; GSend; GSend; GSend; GRGet; GResp OKAY; GResp DECERR;
            GIssue (c 2); GIssue (c 3); GGet; GSend; GRGet; GReset true] in
  completed (snd (lite_w_run 4 h)) = [(c 1, [OKAY; DECERR])] /\ flushed (snd (lite_w_run 4 h)) = [c 3; c 2; c 2].
Proof. vm_compute. auto. Qed.

(** The assumption on the other side is needed: a write that was answered before its transfers were made is
    completed, and a reset completes it again with None. *)
Theorem C32_lite_early_answer_refuted : exists c h,
  let '(s, l) := lite_w_run 4 h in
  NoDup (started l) /\ In (c, [OKAY]) (completed l) /\ In c (flushed l).
Proof.
  exists (1, {| lc_addr := 0; lc_data := [1]; lc_prot := 2 |}).
  exists [GIssue (1, {| lc_addr := 0; lc_data := [1]; lc_prot := 2 |}); GGet; GRGet; GResp OKAY; GReset true].
  vm_compute. repeat split; auto. repeat constructor. intros [].
Qed.
Print Assumptions C32_lite_early_answer_refuted.
