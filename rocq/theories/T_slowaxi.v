(** C88: AXI slaves whose target takes time. *)
From Coq Require Import ZArith Lia List Bool Permutation.
From Coq Require Import ZifyBool ZifyNat.
From Verif Require Import Py S_flat M_sparse S_sparse P_sparse M_memory P_memory M_axi S_axi P_axi P_axislave P_axiop P_axicomp P_axiram
  M_axil S_axil P_axil M_liteeng S_liteeng P_liteeng M_axieng S_axieng P_axieng P_axiattr T_axieng M_sys S_sys P_sys P_syswr P_sysrd T_sys T_sysrd
  M_litesys S_litesys P_litesys S_live P_fair P_ulive P_ylive T_litelive T_axilive M_slowslv S_slowslv T_slowslv M_slowaxi S_slowaxi P_slowaw.
Import ListNotations.
Open Scope Z_scope.

(** C88, writes.  AxiMaster - AxiSlave, any target whose writes take time and may raise; others may change it at any time, also between the
    beginning and the end of an access; any operations, any schedule h, possibly unfinished.  What C52 and C54 say of an immediate target holds:
    there are, for each operation, the calls made for it and the responses given to it ([written]) such that
    - the calls made so far are the first calls of the operations in issue order;
    - for each ID the operations completed so far are the first ones issued, each with its own responses;
    - all calls of a completed operation with data (and of the operations issued before it) have been made;
    - if no task or channel can run, everything was called and everything has completed. *)
Theorem C88_write_system : forall T (tw : T -> Z -> list Z -> T * res unit) c idn t0 h, 0 < idn -> Forall vothers h ->
  let '(y, l) := vsys_run c idn (log_write tw) (m_lanes c) true (t0, []) h in
  let A := assigned op_id idn 0 (xstarted l) in
  let log := snd (vs_target (y_s y)) in
  Forall (fun p => write_legal (m_lanes c) (fst p)) A ->
  xcrashed l = false /\
  (forall d, In d (xcompleted l) -> exists u, snd (fst d) = Some u) /\
  exists ex, Forall2 (written c) A ex /\ is_prefix log (concat (map snd ex)) /\
    (forall u, exists k, (k <= length (with_tag u A))%nat /\
       completed_on u l = combine (firstn k (with_tag u A)) (firstn k (map fst (on_tag u A ex)))) /\
    (forall i o u, nth_error A i = Some (o, u) -> wc_data (snd o) <> [] ->
       (length (with_tag u (firstn i A)) < length (completed_on u l))%nat ->
       is_prefix (concat (map snd (firstn (S i) ex))) log) /\
    (quiescent (vsys_step c idn (log_write tw) (m_lanes c) true) y ->
       log = concat (map snd ex) /\ e_pend (y_m y) = [] /\
       forall u, completed_on u l = combine (with_tag u A) (map fst (on_tag u A ex))).
Proof.
  intros T tw c idn t0 h Hi Hh.
  pose proof (vsys_main tw c (fun f => exists g, f = vs_poke (fun tl => (g (fst tl), snd tl))) (fun f H => H) idn Hi t0 h) as M.
  assert (Hp : Forall (P_sys.poke_ok (C := wop) (fun f => exists g, f = vs_poke (fun tl : T * list call => (g (fst tl), snd tl)))) h).
  { eapply Forall_impl; [|exact Hh]. intros [ | | | | | | | | | | | | | ]; cbn; tauto. }
  specialize (M Hp). destruct (vsys_run _ _ _ _ _ _ h) as [y l]. cbv zeta in *. intros HA.
  destruct (M HA) as (M1 & M2 & ex & es & o & more & rest & sN & _ & _ & _ & _ & M3 & M4 & M5 & M6 & M7).
  split; auto. split; auto. exists ex. auto.
Qed.
Print Assumptions C88_write_system.

(** C88 for memory used by nobody else: at every moment of every run, also between the accesses of a beat, the memory is the initial memory
    updated with a prefix of the bytes of the operations, in issue order; all operations return OKAY; the bytes of completed operations (and of
    those issued before them) are in the prefix; if no task or channel can run, all bytes are. *)
Theorem C88_write_memory : forall T L lo hi phi (inv : T -> Prop) view tw tr,
  flat_target L lo hi phi inv view tw tr ->
  forall c idn t0 h, m_lanes c = L -> 0 < idn -> inv t0 -> Forall no_poke h ->
  let '(y, l) := vsys_run c idn (log_write tw) L true (t0, []) h in
  let A := assigned op_id idn 0 (xstarted l) in
  Forall (fun p => write_legal L (fst p) /\ lo <= wc_addr (snd (fst p)) /\
                   wc_addr (snd (fst p)) + zlen (wc_data (snd (fst p))) <= hi) A ->
  exists rss bytes,
    Forall2 (fun p rs => Forall (fun b => b_id b = snd p) rs /\ write_returns c (fst p) (snd p) rs = Some OKAY) A rss /\
    is_prefix bytes (op_bytes_of A) /\
    view (fst (vs_target (y_s y))) =f put phi (view t0) bytes /\
    (forall u, exists k, (k <= length (with_tag u A))%nat /\
       completed_on u l = combine (firstn k (with_tag u A)) (firstn k (on_tag u A rss))) /\
    (forall i o u, nth_error A i = Some (o, u) -> wc_data (snd o) <> [] ->
       (length (with_tag u (firstn i A)) < length (completed_on u l))%nat ->
       is_prefix (op_bytes_of (firstn (S i) A)) bytes) /\
    (quiescent (vsys_step c idn (log_write tw) L true) y ->
       bytes = op_bytes_of A /\ e_pend (y_m y) = [] /\
       forall u, completed_on u l = combine (with_tag u A) (on_tag u A rss)).
Proof.
  intros T L lo hi phi inv view tw tr Hft c idn t0 h HL Hi Ht Hh. subst L.
  pose proof (vsys_main0 tw c idn t0 h Hi Hh) as M.
  destruct (vsys_run c idn (log_write tw) (m_lanes c) true (t0, []) h) as [y l]. cbv zeta in *.
  set (A := assigned op_id idn 0 (xstarted l)) in *. destruct (vs_target (y_s y)) as [t log]. intros HA.
  assert (HA1 : Forall (fun p => write_legal (m_lanes c) (fst p)) A) by (eapply Forall_impl; [|exact HA]; intros p (H & _); exact H).
  destruct (M HA1) as (_ & _ & ex & tN & HF & [more Hpre] & Hrep & HrepN & Hcomp & Hdone & Hq).
  pose proof (written_ok _ _ _ HF) as Hcok. pose proof (written_range c lo hi _ _ HF) as Hrg.
  assert (HA2 : Forall (fun p : wop * Z => lo <= wc_addr (snd (fst p)) /\ wc_addr (snd (fst p)) + zlen (wc_data (snd (fst p))) <= hi) A)
    by (eapply Forall_impl; [|exact HA]; intros p (_ & H); exact H).
  specialize (Hrg HA2).
  destruct (replays_flat _ _ _ _ _ _ _ _ Hft _ _ _ Ht Hcok Hrg HrepN) as (Fall & _ & _).
  rewrite Hpre in Hcok, Hrg. apply Forall_app in Hcok as [Hcok _]. rewrite calls_bytes_app in Hrg. apply Forall_app in Hrg as [Hrg _].
  destruct (replays_flat _ _ _ _ _ _ _ _ Hft _ _ _ Ht Hcok Hrg Hrep) as (_ & _ & Hv).
  assert (Hlen : length ex = length A) by (clear - HF; induction HF; cbn; congruence).
  assert (Hon : forall u, on_tag u A (map fst ex) = map fst (on_tag u A ex)) by (intros u; rewrite <- combine_on_tag by auto; reflexivity).
  exists (map fst ex), (calls_bytes log). split; [now apply written_okay|].
  split; [exists (calls_bytes more); rewrite <- calls_bytes_app, <- Hpre; symmetry; now apply (written_bytes c)|].
  split; [exact Hv|]. split; [intros u; rewrite Hon; apply Hcomp|]. split.
  - intros i o u Hn Hd Hk. destruct (Hdone i o u Hn Hd Hk) as [z Hz]. exists (calls_bytes z). rewrite Hz, calls_bytes_app. f_equal.
    apply (written_bytes c).
    + clear - HF. revert i. induction HF as [|p x A ex Hx HF IH]; intros i; [constructor|]. cbn [firstn]. constructor; auto.
      destruct i; [constructor|]. apply IH.
    + assert (K : existsb failed (concat (map snd ex)) = false) by exact Fall.
      rewrite <- (firstn_skipn (S i) ex), map_app, concat_app, existsb_app in K. now apply orb_false_iff in K.
  - intros Hqq. destruct (Hq Hqq) as (-> & Hpe & Hall). split; [now apply (written_bytes c)|]. split; [exact Hpe|].
    intros u. rewrite Hon. apply Hall.
Qed.
Print Assumptions C88_write_memory.

(** ** steps still to make *)
Lemma sw_ops_len word data strb is : forall i so, (length (sw_ops word data strb is i so) <= length is + 1)%nat.
Proof.
  assert (F : forall i so, (length (match so with Some s => if (i =? s)%Z then [] else [((word + s)%Z, zslice data s i)] | None => [] end) <= match so with Some _ => 1 | None => 0 end)%nat).
  { intros i [s|]; [destruct (i =? s)|]; cbn; lia. }
  assert (K : forall i so, (length (sw_ops word data strb is i so) <= length is + match so with Some _ => 1 | None => 0 end)%nat).
  { induction is as [|x is IH]; intros i so; cbn [sw_ops]; [apply F|]. destruct (Z.testbit strb x).
    - pose proof (IH (i + 1) (match so with None => Some i | Some s => Some s end)). destruct so; cbn [length]; lia.
    - rewrite app_length. pose proof (F i so). pose proof (IH (i + 1) None). cbn [length] in *. lia. }
  intros i so. pose proof (K i so). destruct so; lia.
Qed.
Lemma zseq_length a n : length (zseq a n) = n.
Proof. revert a. induction n; intros a; cbn; auto. Qed.
Definition vpot {T} (s : wslow (T * list call)) : nat :=
  match s with VWr _ _ ops _ => (length ops + 6)%nat | VResp _ _ => 5%nat | _ => 0%nat end.
Lemma vpot_done {T} ok b (tl : T * list call) : (vpot (v_done ok b tl) <= 5)%nat.
Proof. unfold v_done, v_beats. destruct ok; [destruct (0 <? _)|]; cbn; lia. Qed.
Lemma vpot_next {T} ok b ops (tl : T * list call) : (vpot (v_next ok b ops tl) <= length ops + 6)%nat.
Proof. destruct ops; [pose proof (vpot_done ok b tl); cbn [v_next length]; lia|cbn; lia]. Qed.
Definition vwt (c : mcfg) (e : wev) : nat := (Z.to_nat (m_lanes c) + 8)%nat.
Definition vswt (c : mcfg) (o : wop) : nat :=
  ((Z.to_nat (m_lanes c) + 11) * (2 * Z.to_nat (cycles_of (wc_addr (snd o)) (zlen (wc_data (snd o))) (wc_size (snd o)))))%nat.
Lemma vswt_ok c o t : (lsum (fun e => vwt c e + 3) (w_sends c o t) <= vswt c o)%nat.
Proof.
  assert (K : forall l : list wev, lsum (fun e => (vwt c e + 3)%nat) l = ((Z.to_nat (m_lanes c) + 11) * length l)%nat).
  { induction l as [|e l IH]; [cbn; lia|]. rewrite lsum_cons, IH. cbn [length]. unfold vwt. lia. }
  rewrite K. unfold w_sends, master_write, vswt. cbv zeta. apply Nat.mul_le_mono_l. apply mw_loop_len.
Qed.

(** C88: after any history of legal INCR writes, under any fair schedule (every access that was begun is done some time), exactly the operations
    issued complete, as C60 has it for immediate targets. *)
Theorem C88_write_completes : forall T (tw : T -> Z -> list Z -> T * res unit) c idn t0 h sched, 0 < idn ->
  Forall vothers h -> Forall (write_legal (m_lanes c)) (ysubmitted h) ->
  (forall m, yno_issue (sched m) /\ vothers (sched m)) -> fair internal sched ->
  exists N, forall M, (N <= M)%nat -> let '(y, l) := vsys_run c idn (log_write tw) (m_lanes c) true (t0, []) (h ++ first_steps sched M) in
    let A := assigned op_id idn 0 (xstarted l) in
    Permutation (map (fun d => fst (fst d)) (xcompleted l)) (ysubmitted h) /\ (forall d, In d (xcompleted l) -> exists u, snd (fst d) = Some u) /\
    (exists ex, Forall2 (written c) A ex /\ (forall u, completed_on u l = combine (with_tag u A) (map fst (on_tag u A ex))) /\
       snd (vs_target (y_s y)) = concat (map snd ex)) /\
    xcrashed l = false /\ x_is_idle (y_m y) = true /\ e_idle (y_m y) = true /\
    quiescent (vsys_step c idn (log_write tw) (m_lanes c) true) y.
Proof.
  intros T tw c idn t0 h sched Hi Hh Hv Hs Hf.
  destruct (vsys_run c idn (log_write tw) (m_lanes c) true (t0, []) h) as [y0 l0] eqn:E0.
  destruct (y_completes (w_sends c) w_opens w_epat w_chk b_id op_id idn w_opens (vs_act (log_write tw)) (vs_in (m_lanes c) true)
    (@vpot T) (vwt c) (vswt c)) with (sched := sched) (y := y0) as [N HN].
  - intros s k e _. unfold vwt. destruct s as [t|s t|ok s ops t|b t|t], e as [a|w]; cbn [vs_in vpot]; try lia.
    + destruct (sl_start (m_lanes c) a) as [s'|]; [|cbn; lia]. pose proof (vpot_done true s' t). cbn [v_done] in *. lia.
    + destruct (to_bytes _ _ _); [|cbn; lia]. match goal with |- context [v_next ?ok ?s ?ops ?t] => pose proof (vpot_next ok s ops t); pose proof (sw_ops_len (ss_cur s / m_lanes c * m_lanes c)) end.
      match goal with H : context [length (sw_ops ?w ?d ?st (zrange 0 (m_lanes c)) 0 None)] |- _ => pose proof (sw_ops_len w d st (zrange 0 (m_lanes c)) 0 None) as Hl end.
      unfold zrange in Hl. rewrite zseq_length in Hl. cbn [vpot] in *. unfold zrange in *. rewrite Z.sub_0_r in *. lia.
  - intros s r s' H. destruct s as [t|s t|ok s ops t|b t|t]; try discriminate; [now apply v_no_emit in H|]. injection H as <- <-. cbn. lia.
  - intros s s' H. destruct (v_tau_cases _ _ _ H) as (ok & b & ops & tl & -> & [[-> ->]|(x & d & ops' & -> & [(u & _ & ->)|(er & _ & ->)])]).
    + pose proof (vpot_done ok b tl). cbn [vpot length]. lia.
    + match goal with |- context [v_next ?ok ?s ?ops ?t] => pose proof (vpot_next ok s ops t) end. cbn [vpot length]. lia.
    + match goal with |- context [v_done ?ok ?s ?t] => pose proof (vpot_done ok s t) end. cbn [vpot length]. lia.
  - apply vswt_ok.
  - intros m. destruct (Hs m) as (H1 & H2). destruct (sched m); cbn in *; try tauto. destruct H2 as (g & ->).
    intros s. destruct s as [t|s t|ok s ops t|b t|t]; cbn; auto. split; auto. destruct ops as [|[x d] ops]; [exact I|]. destruct (log_write _ t x d) as [? []], (log_write _ (_, _) x d) as [? []]; exact I.
  - exact Hf.
  - exists N. intros M HM. specialize (HN M HM).
    assert (Ho : Forall vothers (h ++ first_steps sched M)).
    { apply Forall_app. split; auto. apply first_forall. intros m; apply Hs. }
    pose proof (C88_write_system T tw c idn t0 (h ++ first_steps sched M) Hi Ho) as MM.
    unfold vsys_run in *.
    pose proof (y_submitted (w_sends c) w_opens w_epat w_chk b_id op_id idn w_opens (vs_act (log_write tw)) (vs_in (m_lanes c) true)
       (h ++ first_steps sched M) (sys_init (VIdle (t0, [])))) as P.
    pose proof (axi_idle (w_sends c) w_opens w_epat w_chk b_id op_id idn w_opens (vs_act (log_write tw)) (vs_in (m_lanes c) true)
       (VIdle (t0, [])) (h ++ first_steps sched M)) as D.
    rewrite y_run_app, E0 in *. destruct (y_run _ _ _ _ _ _ _ _ _ _ y0 (first_steps sched M)) as [y l1]. cbn [fst] in HN. cbv zeta in *.
    rewrite ysub_app, (ysub_none (first_steps sched M)), app_nil_r in P by (apply first_forall; intros m; apply Hs).
    cbn [sys_init y_m xeng_init e_pend] in P. rewrite app_nil_r in P.
    destruct MM as (M0 & M1 & ex & M2 & _ & _ & _ & M3).
    + rewrite P in Hv. apply Forall_app in Hv. destruct Hv as [Hv _]. apply Forall_map with (f := fst). rewrite assigned_fst. exact Hv.
    + destruct (M3 HN) as (M4 & M5 & M6). rewrite M5, app_nil_r in P.
      pose proof (all_done (assigned op_id idn 0 (xstarted (l0 ++ l1))) (l0 ++ l1) ex fst (eq_sym (F2_len _ _ _ M2)) M1 M6) as Q. rewrite assigned_fst in Q.
      split; [rewrite Q; now symmetry|]. split; [exact M1|]. split; [eauto|]. split; auto.
      destruct D as (D1 & D2); [apply Permutation_length in Q; rewrite map_length in Q; exact Q|]. split; [unfold x_is_idle; rewrite D1; reflexivity|]. split; [exact D2|exact HN].
Qed.
Print Assumptions C88_write_completes.

(** the same for AXI-Lite *)
Definition lspot {T} (s : lwslow (T * list call)) : nat :=
  match s with LSWr ops _ => (length ops + 6)%nat | LSResp _ _ => 4%nat | _ => 0%nat end.
Lemma lspot_next {T} ops (tl : T * list call) : (lspot (ls_next ops tl) <= length ops + 6)%nat.
Proof. destruct ops; cbn; lia. Qed.
(** C87: after any history, under any fair schedule, exactly the operations issued complete, as C59 has it for immediate targets. *)
Theorem C87_lite_write_completes : forall T (tw : T -> Z -> list Z -> T * res unit) L t0 h sched, 0 < L ->
  Forall lsothers h -> Forall lite_write_legal (usubmitted h) ->
  (forall m, uno_issue (sched m) /\ lsothers (sched m)) -> fair uinternal sched ->
  exists N, forall M, (N <= M)%nat -> let '(y, l) := lssys_run L (log_write tw) true (t0, []) (h ++ first_steps sched M) in
    Permutation (map fst (completed l)) (usubmitted h) /\
    (exists ex, Forall2 (lite_written L) (started l) ex /\ completed l = combine (started l) (map fst ex) /\
       snd (lss_target (u_s y)) = concat (map snd ex)) /\
    eng_is_idle (u_m y) = true /\ g_idle (u_m y) = true /\ uquiescent (lssys_step L (log_write tw) true) y.
Proof.
  intros T tw L t0 h sched HL Hh Hv Hs Hf.
  destruct (lssys_run L (log_write tw) true (t0, []) h) as [y0 l0] eqn:E0.
  destruct (u_completes (lite_w_sends L) (lite_w_need L) lw_kind (lss_act (log_write tw)) (lss_in L true)
    (@lspot T) (fun _ => (Z.to_nat L + 8)%nat)) with (sched := sched) (y := y0) as [N HN].
  - intros s k e _. destruct s as [t|a t|ops t|b t|t], e as [a'|w]; cbn [lss_in lspot]; try lia.
    destruct (to_bytes _ _ _) as [data|]; [|cbn; lia].
    match goal with |- context [ls_next ?ops t] => pose proof (lspot_next ops t) end.
    match goal with H : context [length (sw_ops ?w ?d ?st (zrange 0 L) 0 None)] |- _ => pose proof (sw_ops_len w d st (zrange 0 L) 0 None) as Hl end.
    unfold zrange in *. rewrite zseq_length, Z.sub_0_r in *. lia.
  - intros s r s' H. destruct s as [t|a t|ops t|b t|t]; try discriminate.
    + cbn in H. destruct ops as [|[x d] ops]; [discriminate|]. destruct (log_write _ t x d) as [? []]; discriminate.
    + injection H as <- <-. cbn. lia.
  - intros s s' H. destruct s as [t|a t|ops t|b t|t]; try discriminate. cbn in H. destruct ops as [|[x d] ops]; [injection H as <-; cbn; lia|].
    destruct (log_write _ t x d) as [t' []]; injection H as <-; [pose proof (lspot_next ops t')|]; cbn [lspot length] in *; lia.
  - intros m. destruct (Hs m) as (H1 & H2). destruct (sched m); cbn in *; try tauto. destruct H2 as (g & ->).
    intros s. destruct s as [t|a t|ops t|b t|t]; cbn; auto. split; auto. destruct ops as [|[x d] ops]; [exact I|]. destruct (log_write _ t x d) as [? []], (log_write _ (_, _) x d) as [? []]; exact I.
  - exact Hf.
  - exists N. intros M HM. specialize (HN M HM).
    pose proof (C87_lite_write_system T tw L t0 (h ++ first_steps sched M) HL) as MM.
    unfold lssys_run in *. pose proof (u_submitted (lite_w_sends L) (lite_w_need L) lw_kind (lss_act (log_write tw)) (lss_in L true)
       (h ++ first_steps sched M) (usys_init (LSIdle (t0, [])))) as P.
    pose proof (lite_idle (lite_w_sends L) (lite_w_need L) lw_kind (lss_act (log_write tw)) (lss_in L true) (LSIdle (t0, [])) (h ++ first_steps sched M)) as D.
    rewrite u_run_app, E0 in *. destruct (u_run _ _ _ _ _ y0 (first_steps sched M)) as [y l1]. cbn [fst] in HN. cbv zeta in M.
    rewrite usub_app, (usub_none (first_steps sched M)), app_nil_r in P by (apply first_forall; intros m; apply Hs).
    cbn [usys_init u_m eng_init g_pend] in P. rewrite app_nil_r in P.
    destruct MM as (ex & M1 & _ & _ & M2).
    + apply Forall_app. split; auto. apply first_forall. intros m; apply Hs.
    + rewrite P in Hv. apply Forall_app in Hv. apply Hv.
    + destruct (M2 HN) as (M3 & M4 & M5). rewrite M4, app_nil_r in P. pose proof (F2_len _ _ _ M1) as Hl.
      assert (Hc : map fst (completed (l0 ++ l1)) = started (l0 ++ l1)) by (rewrite M5; apply comb_fst; rewrite map_length; exact Hl).
      rewrite Hc. split; [now symmetry|]. split; [eauto|].
      destruct D as (D1 & D2); [rewrite <- Hc, map_length; reflexivity|]. split; [unfold eng_is_idle; rewrite D1; reflexivity|]. split; [exact D2|exact HN].
Qed.
Print Assumptions C87_lite_write_completes.

(** C88, any AXI master.  AxiSlaveWrite on a target whose writes take time and may raise, others changing it at any time: if it has accepted
    whole bursts of any type that it does not refuse, and waits for the next, it has answered each burst once and in order, SLVERR exactly if one
    of the calls of the burst raised; the calls of each beat write the strobed bytes of its word in ascending order, all of them if none of the
    beat raised, whatever became of earlier beats; and these are all calls. *)
Theorem C88_slave_writes : forall T (tw : T -> Z -> list Z -> T * res unit) L t0 h bs, Forall vsothers h ->
  let x := sv_run w_opens (vs_act (log_write tw)) (vs_in L true) (VIdle (t0, [])) h in
  (exists tl, sa_s x = VIdle tl) -> sa_in x = burst_transfers bs -> Forall (wburst_ok L) bs ->
  exists ans, Forall2 (wburst_answer L true) bs ans /\ sa_out x = map snd ans /\
    snd (vs_target (sa_s x)) = flat_map (fun a => concat (fst a)) ans.
Proof.
  intros T tw L t0 h bs Hh x Hi Hin Hf.
  pose proof (sv_trace w_opens (vs_act (log_write tw)) (vs_in L true) (fun f => exists g, f = vs_poke (fun tl => (g (fst tl), snd tl))) (VIdle (t0, [])) h Hh) as Ht.
  fold x in Ht. cbv zeta in Ht.
  destruct (vfin_trace tw {| m_lanes := L; m_mbl := 0 |} _ (fun f H => H) _ _ _ _ Ht Hi) as (new & E & HF). cbn [vfin] in HF.
  destruct (HF bs Hin Hf) as (ans & A1 & A2 & ->). exists ans. split; [exact A1|]. split; [exact A2|exact E].
Qed.
Print Assumptions C88_slave_writes.

(** the operations of C52, with others that write between *)
Definition sx_poke (s : wslow (sparse * list call)) : wslow (sparse * list call) := vs_poke (fun tl => (fst (ram_write (fst tl) 13 [99]), snd tl)) s.
Example C88_nontrivial :
  let '(y, l) := vsys_run ex_cfg 4 (log_write ram_write) 4 true (sm_init 16, []) (map YInit ex_ops ++ concat (repeat (ex_round ++ [YPoke sx_poke]) 60)) in
  (map (fun d => (fst (fst (fst (fst d))), snd (fst d), map b_resp (snd d))) (xcompleted l),
   map (fun e => (fst (fst e), zlen (snd (fst e)))) (snd (vs_target (y_s y))),
   map (peek (fst (vs_target (y_s y)))) (zrange 0 16)) =
  ([(1, Some 0, [OKAY; OKAY; OKAY]); (2, Some 7, [OKAY]); (3, Some 1, [OKAY])],
   [(2, 2); (4, 2); (6, 2); (8, 2); (10, 2); (12, 1); (4, 3); (15, 1); (16, 2)],
   [32; 33; 1; 2; 21; 22; 23; 6; 7; 8; 9; 10; 11; 99; 0; 31]).
Proof. vm_compute. reflexivity. Qed.
(** a burst of two beats with two runs of strobes each, others write in between; the first call of the first beat raises *)
Definition sx_wt (s : Z * list (Z * list Z)) (a : Z) (d : list Z) : (Z * list (Z * list Z)) * res unit :=
  ((fst s + 1, if fst s =? 0 then snd s else snd s ++ [(a, d)]), if fst s =? 0 then Err KeyError else Ok tt).
Definition sx_aw : axc := {| ax_addr := 8; ax_id := 5; ax_len := 1; ax_size := 2; ax_burst := INCR; ax_side := ex_side |}.
Definition sx_w (d s : Z) (l : bool) : wch := {| w_data := d; w_strb := s; w_user := 0; w_last := l |}.
Definition sx_hist : list (sev wev (wslow ((Z * list (Z * list Z)) * list call))) :=
  [SvGo; SvIn (EvAW sx_aw); SvGo; SvIn (EvW (sx_w 67305985 11 false)); SvIn (EvW (sx_w 1 1 true)); SvGo; SvIn (EvW (sx_w 67305985 13 true));
   SvGo; SvPoke (vs_poke (fun tl => ((fst (fst tl), snd (fst tl) ++ [(14, [77])]), snd tl))); SvGo; SvGo; SvGo].
Example C88_slave_nontrivial :
  let x := sv_run w_opens (vs_act (log_write sx_wt)) (vs_in 4 true) (VIdle ((0, []), [])) sx_hist in
  sa_in x = burst_transfers [(sx_aw, [sx_w 67305985 11 false; sx_w 67305985 13 true])] /\ sa_out x = [{| b_id := 5; b_resp := SLVERR; b_user := 0 |}] /\
  sa_s x = VIdle ((3, [(12, [1]); (14, [77]); (14, [3; 4])]), [(8, [1; 2], Err KeyError); (12, [1], Ok tt); (14, [3; 4], Ok tt)]).
Proof. vm_compute. repeat split. Qed.
