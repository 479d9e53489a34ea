(** C87: AXI-Lite slaves whose target takes time. *)
From Coq Require Import ZArith Lia List Bool.
From Coq Require Import ZifyBool ZifyNat.
From Verif Require Import Py S_flat M_sparse S_sparse P_sparse M_memory P_memory M_axi S_axi P_axi P_axislave P_axiop P_axicomp P_axiram
  M_axil S_axil P_axil M_liteeng S_liteeng P_liteeng M_sys S_sys P_sys P_syswr P_sysrd T_sys T_sysrd
  M_litesys S_litesys P_litesys P_litewr P_literd T_litesys M_slowslv S_slowslv P_slowlw.
Import ListNotations.
Open Scope Z_scope.

(** C87, AXI-Lite writes.  AxiLiteMaster - AxiLiteSlave, any target whose writes take time and may raise; others may change it at any time, also
    between the beginning and the end of an access; any write operations, any schedule h, possibly unfinished.  What C56 says of an immediate
    target holds: there are, for each operation, the calls made for it and the responses given to it such that
    - the calls made so far are the first calls of the operations in issue order;
    - the operations completed so far are the first ones issued, each with its own responses, and all their calls have been made;
    - if no task or channel can run, everything was called and everything has completed. *)
Theorem C87_lite_write_system : forall T (tw : T -> Z -> list Z -> T * res unit) L t0 h, 0 < L -> Forall lsothers h ->
  let '(y, l) := lssys_run L (log_write tw) true (t0, []) h in
  let A := started l in
  let log := snd (lss_target (u_s y)) in
  Forall lite_write_legal A ->
  exists ex, Forall2 (lite_written L) A ex /\ is_prefix log (concat (map snd ex)) /\
    (exists k, (k <= length A)%nat /\ completed l = combine (firstn k A) (firstn k (map fst ex)) /\
       is_prefix (concat (map snd (firstn k ex))) log) /\
    (uquiescent (lssys_step L (log_write tw) true) y ->
       log = concat (map snd ex) /\ g_pend (u_m y) = [] /\ completed l = combine A (map fst ex)).
Proof.
  intros T tw L t0 h HL Hh.
  pose proof (lssys_main tw L HL (fun f => exists g, f = lss_poke (fun tl => (g (fst tl), snd tl))) (fun f H => H) t0 h) as M.
  assert (Hp : Forall (upoke_ok (C := Z * lwcmd) (fun f => exists g, f = lss_poke (fun tl : T * list call => (g (fst tl), snd tl)))) h).
  { eapply Forall_impl; [|exact Hh]. intros [ | | | | | | | | | | | | ]; cbn; tauto. }
  specialize (M Hp). destruct (lssys_run _ _ _ _ h) as [y l]. cbv zeta in *. unfold slog in *. intros HA.
  destruct (M HA) as (ex & es & o & more & rest & sN & _ & _ & _ & M3 & M4 & M5 & M6). exists ex. auto.
Qed.
Print Assumptions C87_lite_write_system.

(** Without others, on a target that stores bytes: at every moment the memory is the initial memory updated with a prefix of the bytes of the
    operations, in issue order; all operations return OKAY; the bytes of completed operations are in the prefix; in the end all bytes are. *)
Theorem C87_lite_write_memory : forall T L lo hi phi (inv : T -> Prop) view tw tr,
  flat_target L lo hi phi inv view tw tr -> 0 < L ->
  forall t0 h, inv t0 -> Forall uno_poke h ->
  let '(y, l) := lssys_run L (log_write tw) true (t0, []) h in
  let A := started l in
  Forall (fun o => lite_write_legal o /\ lo <= lc_addr (snd o) /\ lc_addr (snd o) + zlen (lc_data (snd o)) <= hi) A ->
  exists k bytes, (k <= length A)%nat /\
    map fst (completed l) = firstn k A /\ Forall (fun d => lite_write_resp (snd d) = OKAY) (completed l) /\
    is_prefix bytes (lite_op_bytes A) /\ is_prefix (lite_op_bytes (firstn k A)) bytes /\
    view (fst (lss_target (u_s y))) =f put phi (view t0) bytes /\
    (uquiescent (lssys_step L (log_write tw) true) y ->
       bytes = lite_op_bytes A /\ g_pend (u_m y) = [] /\ map fst (completed l) = A).
Proof.
  intros T L lo hi phi inv view tw tr Hft HL t0 h Ht Hh.
  pose proof (lssys_main0 tw L t0 h HL Hh) as M.
  destruct (lssys_run L (log_write tw) true (t0, []) h) as [y l]. cbv zeta in *.
  set (A := started l) in *. destruct (lss_target (u_s y)) as [t log]. intros HA.
  assert (HA1 : Forall lite_write_legal A) by (eapply Forall_impl; [|exact HA]; intros p (H & _); exact H).
  destruct (M HA1) as (ex & tN & HF & [more Hpre] & Hrep & HrepN & (k & Hk & Hcomp & Hdone) & Hq).
  pose proof (lwritten_ok _ _ _ HF) as Hcok. pose proof (lwritten_range L lo hi _ _ HF) as Hrg.
  assert (HA2 : Forall (fun o : Z * lwcmd => lo <= lc_addr (snd o) /\ lc_addr (snd o) + zlen (lc_data (snd o)) <= hi) A)
    by (eapply Forall_impl; [|exact HA]; intros p (_ & H); exact H).
  specialize (Hrg HA2).
  destruct (replays_flat _ _ _ _ _ _ _ _ Hft _ _ _ Ht Hcok Hrg HrepN) as (Fall & _ & _).
  rewrite Hpre in Hcok, Hrg. apply Forall_app in Hcok as [Hcok _]. rewrite calls_bytes_app in Hrg. apply Forall_app in Hrg as [Hrg _].
  destruct (replays_flat _ _ _ _ _ _ _ _ Hft _ _ _ Ht Hcok Hrg Hrep) as (_ & _ & Hv).
  assert (Hlen : length ex = length A) by (clear - HF; induction HF; cbn; congruence).
  pose proof (lwritten_okay _ _ _ HF Fall) as Hokay.
  assert (Hfst : forall (a : list (Z * lwcmd)) (b : list (list resp_t)), length b = length a -> map fst (combine a b) = a).
  { induction a as [|x a IH]; intros [|z b] E; try discriminate; cbn; [reflexivity|]. now rewrite IH by (injection E; auto). }
  exists k, (calls_bytes log). split; [exact Hk|]. split; [|split; [|split; [|split; [|split; [exact Hv|]]]]].
  - rewrite Hcomp. apply Hfst. rewrite !firstn_length, map_length. lia.
  - rewrite Hcomp. apply Forall_forall. intros [o rs] Hin. apply in_combine_r in Hin. rewrite Forall_forall in Hokay. cbn [snd]. apply Hokay.
    rewrite <- (firstn_skipn k (map fst ex)). apply in_or_app. now left.
  - exists (calls_bytes more). rewrite <- calls_bytes_app, <- Hpre. symmetry. now apply (lwritten_bytes L).
  - destruct Hdone as [z Hz]. exists (calls_bytes z). rewrite Hz, calls_bytes_app. f_equal. apply (lwritten_bytes L); [now apply forall2_firstn|].
    assert (K : existsb failed (concat (map snd ex)) = false) by exact Fall.
    rewrite <- (firstn_skipn k ex), map_app, concat_app, existsb_app in K. now apply orb_false_iff in K.
  - intros Hqq. destruct (Hq Hqq) as (-> & Hpe & Hall). split; [now apply (lwritten_bytes L)|]. split; [exact Hpe|].
    rewrite Hall. apply Hfst. now rewrite map_length.
Qed.
Print Assumptions C87_lite_write_memory.

(** the slave alone, as a trace *)
Lemma sv_trace {E R S} (kind : E -> bool) (act : S -> sact R S) sin (pk : (S -> S) -> Prop) s h :
  Forall (fun o => match o with SvPoke f => pk f | _ => True end) h ->
  let x := sv_run kind act sin s h in strace kind act sin pk s (sa_in x) (sa_out x) (sa_s x).
Proof.
  intros Hh. unfold sv_run.
  assert (K : forall x0, strace kind act sin pk s (sa_in x0) (sa_out x0) (sa_s x0) ->
    let x := fold_left (sv_step kind act sin) h x0 in strace kind act sin pk s (sa_in x) (sa_out x) (sa_s x)); [|apply K; constructor].
  induction Hh as [|o h Ho Hh IH]; intros x0 Hx; [exact Hx|]. cbn [fold_left]. apply IH.
  assert (G : forall es o s', strace kind act sin pk (sa_s x0) es o s' -> strace kind act sin pk s (sa_in x0 ++ es) (sa_out x0 ++ o) s') by (intros; eapply strace_app; eauto).
  destruct o as [e| |f]; cbn [sv_step].
  - destruct (act (sa_s x0)) as [k|r s'|s'|] eqn:Ea; auto. destruct (Bool.eqb k (kind e)) eqn:Ek; auto. apply eqb_prop in Ek. subst k. cbn [sa_s sa_in sa_out].
    rewrite <- (app_nil_r (sa_out x0)). apply G. apply st_in; [exact Ea|constructor].
  - destruct (act (sa_s x0)) as [k|r s'|s'|] eqn:Ea; auto; cbn [sa_s sa_in sa_out].
    + rewrite <- (app_nil_r (sa_in x0)). apply G. eapply st_emit; [exact Ea|constructor].
    + rewrite <- (app_nil_r (sa_in x0)), <- (app_nil_r (sa_out x0)). apply G. eapply st_tau; [exact Ea|constructor].
  - cbn [sa_s sa_in sa_out]. rewrite <- (app_nil_r (sa_in x0)), <- (app_nil_r (sa_out x0)). apply G. eapply st_poke; [exact Ho|constructor].
Qed.

(** C87, any AXI-Lite master.  AxiLiteSlaveWrite on a target whose writes take time and may raise, others changing it at any time: if it has
    accepted whole words that fit the bus and waits for the next, it has answered each word once and in order, SLVERR exactly if one of the
    calls of the word raised; the calls of a word write its strobed bytes in ascending order, all of them if none raised; and these are all calls. *)
Theorem C87_lite_slave_writes : forall T (tw : T -> Z -> list Z -> T * res unit) L t0 h ws, 0 < L -> Forall svothers h ->
  let x := sv_run lw_kind (lss_act (log_write tw)) (lss_in L true) (LSIdle (t0, [])) h in
  (exists tl, sa_s x = LSIdle tl) -> sa_in x = word_transfers ws -> Forall (fun p => 0 <= lw_data (snd p) < 256 ^ L) ws ->
  exists ans, Forall2 (fun p c => lite_calls L true (fst p) (snd p) c) ws ans /\
    sa_out x = map (fun c => if existsb failed c then SLVERR else OKAY) ans /\ snd (lss_target (sa_s x)) = concat ans.
Proof.
  intros T tw L t0 h ws HL Hh x Hi Hin Hf.
  pose proof (sv_trace lw_kind (lss_act (log_write tw)) (lss_in L true) (fun f => exists g, f = lss_poke (fun tl => (g (fst tl), snd tl))) (LSIdle (t0, [])) h Hh) as Ht.
  fold x in Ht. cbv zeta in Ht.
  destruct (sfin_trace tw L HL _ (fun f H => H) _ _ _ _ Ht I Hi) as (new & E & HF). cbn [sfin] in HF. destruct (HF ws Hin Hf) as (ans & A1 & A2 & ->).
  exists ans. split; [exact A1|]. split; [exact A2|exact E].
Qed.
Print Assumptions C87_lite_slave_writes.

(** the operations of C56, with others that write between *)
Definition sl_round {C S} (f : S -> S) : list (uop C S) :=
  [UStart 0; UGet; USend; ULoad true; ULoad false; UXfer true; UXfer false; USlave; UPoke f; ULoadB; UXferB; URGet; URecv].
Definition sl_poke (s : lwslow (sparse * list call)) : lwslow (sparse * list call) := lss_poke (fun tl => (fst (ram_write (fst tl) 13 [99]), snd tl)) s.
Example C87_nontrivial :
  let '(y, l) := lssys_run 4 (log_write ram_write) true (sm_init 16, []) (map UInit exl_ops ++ concat (repeat (sl_round sl_poke) 60)) in
  (map (fun d => (fst (fst d), snd d)) (completed l),
   map (fun e => (fst (fst e), zlen (snd (fst e)))) (snd (lss_target (u_s y))),
   map (peek (fst (lss_target (u_s y)))) (zrange 0 16)) =
  ([(1, [OKAY; OKAY; OKAY; OKAY]); (2, [OKAY]); (3, [OKAY; OKAY])],
   [(2, 2); (4, 4); (8, 4); (12, 1); (4, 3); (15, 1); (16, 2)],
   [32; 33; 1; 2; 21; 22; 23; 6; 7; 8; 9; 10; 11; 99; 0; 31]).
Proof. vm_compute. reflexivity. Qed.
(** a word with two runs of strobes: two calls, others write in between; then a word whose first call raises *)
Definition sl_wt (s : Z * list (Z * list Z)) (a : Z) (d : list Z) : (Z * list (Z * list Z)) * res unit :=
  ((fst s + 1, if fst s =? 2 then snd s else snd s ++ [(a, d)]), if fst s =? 2 then Err KeyError else Ok tt).
Definition sl_words : list (lax * lwd) := [({| la_addr := 8; la_prot := 0 |}, {| lw_data := 67305985; lw_strb := 11 |}); ({| la_addr := 5; la_prot := 0 |}, {| lw_data := 5; lw_strb := 5 |})].
Definition sl_hist : list (sev lev (lwslow ((Z * list (Z * list Z)) * list call))) :=
  [SvGo; SvIn (LAW {| la_addr := 8; la_prot := 0 |}); SvGo; SvIn (LAW {| la_addr := 8; la_prot := 0 |}); SvIn (LW {| lw_data := 67305985; lw_strb := 11 |}); SvGo;
   SvPoke (lss_poke (fun tl => ((fst (fst tl), snd (fst tl) ++ [(10, [77])]), snd tl))); SvGo; SvGo; SvGo;
   SvIn (LAW {| la_addr := 5; la_prot := 0 |}); SvIn (LW {| lw_data := 5; lw_strb := 5 |}); SvGo; SvGo].
Example C87_slave_nontrivial :
  let x := sv_run lw_kind (lss_act (log_write sl_wt)) (lss_in 4 true) (LSIdle ((0, []), [])) sl_hist in
  sa_in x = word_transfers sl_words /\ sa_out x = [OKAY; SLVERR] /\
  sa_s x = LSIdle ((3, [(8, [1; 2]); (10, [77]); (11, [4])]), [(8, [1; 2], Ok tt); (11, [4], Ok tt); (4, [5], Err KeyError)]).
Proof. vm_compute. repeat split. Qed.
