(** C59: AXI-Lite operations complete under every fair schedule. *)
From Coq Require Import ZArith Lia List Bool Permutation.
From Coq Require Import ZifyBool ZifyNat.
From Verif Require Import Py S_flat M_sparse S_sparse P_sparse M_memory P_memory M_axi S_axi P_axi P_axislave P_axiop P_axicomp P_axiram
  M_axil S_axil P_axil M_liteeng S_liteeng P_liteeng M_sys S_sys P_sys P_syswr P_sysrd T_sys T_sysrd S_axisys P_sysram T_sysram
  M_litesys S_litesys P_litesys P_litewr P_literd T_litesys M_literw S_literw P_literw S_live P_fair P_ulive.
Import ListNotations.
Open Scope Z_scope.

Lemma lite_idle {C E R S} (sends : C -> list E) need kind (act : S -> sact R S) sin (s0 : S) h :
  let '(y, l) := u_run sends need kind act sin (usys_init s0) h in
  length (completed l) = length (started l) -> g_inflight (u_m y) = 0 /\ g_idle (u_m y) = true.
Proof.
  assert (M : let '(y, l) := u_run sends need kind act sin (usys_init s0) h in mrun sends need y l).
  { induction h as [|o h IH] using rev_ind; [exists []; split; [reflexivity|constructor]|].
    rewrite u_run_app. destruct (u_run sends need kind act sin (usys_init s0) h) as [y l]. cbn [u_run].
    pose proof (mrun_step sends need kind act sin y l o IH) as K. destruct (u_step sends need kind act sin y o) as [y' os].
    rewrite app_nil_r. exact K. }
  destruct (u_run sends need kind act sin (usys_init s0) h) as [y l]. intros Hl.
  destruct (mrun_facts sends need y l M) as (Q & F & _ & _ & I). apply epoch_quiet in Q.
  destruct I as (_ & _ & _ & _ & _ & _ & _ & Hin & Hid & _). rewrite Q in Hin.
  assert (g_inflight (u_m y) = 0) by (unfold zlen in Hin; lia). split; auto. rewrite Hid. unfold eng_is_idle. rewrite H. reflexivity.
Qed.

Lemma comb_fst {A B} (a : list A) (b : list B) : length a = length b -> map fst (combine a b) = a.
Proof. revert b. induction a as [|x a IH]; intros [|z b] H; cbn in *; try discriminate; [reflexivity|]. f_equal. apply IH. lia. Qed.
Lemma F2_len {A B} (P : A -> B -> Prop) a b : Forall2 P a b -> length a = length b.
Proof. induction 1; cbn; auto. Qed.
Lemma first_forall {O} (P : O -> Prop) sched N : (forall m, P (sched m)) -> Forall P (first_steps sched N).
Proof. intros H. apply Forall_forall. intros o Ho. apply in_map_iff in Ho. destruct Ho as (m & <- & _). apply H. Qed.
Lemma usub_app {C S} (a b : list (uop C S)) : usubmitted (a ++ b) = usubmitted a ++ usubmitted b.
Proof. unfold usubmitted. apply flat_map_app. Qed.
Lemma usub_none {C S} (a : list (uop C S)) : Forall uno_issue a -> usubmitted a = [].
Proof. induction 1 as [|o a H _ IH]; [reflexivity|]. cbn [usubmitted flat_map]. fold (usubmitted a). rewrite IH. destruct o; cbn in *; tauto. Qed.

(** C59.  AxiLiteMaster - AxiLiteSlave, any target (it may raise, others may change it at any time), any history h, then any fair
    schedule without further write operations: after finitely many steps exactly the operations issued have completed, each with its own
    responses ([lite_written]), all calls were made, in issue order, the master is idle and no task or channel can run; so it stays. *)
Theorem C59_lite_write_completes : forall T (tw : T -> Z -> list Z -> T * res unit) L t0 h sched, 0 < L ->
  Forall lwothers h -> Forall lite_write_legal (usubmitted h) ->
  (forall m, uno_issue (sched m) /\ lwothers (sched m)) -> fair uinternal sched ->
  exists N, forall M, (N <= M)%nat -> let '(y, l) := lwsys_run L (log_write tw) true (t0, []) (h ++ first_steps sched M) in
    Permutation (map fst (completed l)) (usubmitted h) /\
    (exists ex, Forall2 (lite_written L) (started l) ex /\ completed l = combine (started l) (map fst ex) /\
       snd (lws_target (u_s y)) = concat (map snd ex)) /\
    eng_is_idle (u_m y) = true /\ g_idle (u_m y) = true /\ uquiescent (lwsys_step L (log_write tw) true) y.
Proof.
  intros T tw L t0 h sched HL Hh Hv Hs Hf.
  destruct (lwsys_run L (log_write tw) true (t0, []) h) as [y0 l0] eqn:E0.
  destruct (u_completes (lite_w_sends L) (lite_w_need L) lw_kind (@lws_act (T * list call)) (lws_in (log_write tw) L true)
    (fun s => match s with LWResp _ _ => 4%nat | _ => 0%nat end) (fun _ => 5%nat)) with (sched := sched) (y := y0) as [N HN].
  - intros s k e _. destruct s as [?|? ?|? ?|?], e as [?|?]; cbn; try lia. destruct (lite_sw _ _ _ _ _ _) as [? [?|?]]; lia.
  - intros s r s' H. destruct s; try discriminate. injection H as <- <-. lia.
  - intros s s' H. destruct s; discriminate.
  - intros m. destruct (Hs m) as (H1 & H2). destruct (sched m); cbn in *; try tauto. destruct H2 as (g & ->).
    intros s. destruct s; cbn; auto.
  - exact Hf.
  - exists N. intros M HM. specialize (HN M HM).
    pose proof (C56_lite_write_system T tw L t0 (h ++ first_steps sched M) HL) as MM.
    unfold lwsys_run in *. pose proof (u_submitted (lite_w_sends L) (lite_w_need L) lw_kind (@lws_act (T * list call)) (lws_in (log_write tw) L true)
       (h ++ first_steps sched M) (usys_init (LWIdle (t0, [])))) as P.
    pose proof (lite_idle (lite_w_sends L) (lite_w_need L) lw_kind (@lws_act (T * list call)) (lws_in (log_write tw) L true) (LWIdle (t0, [])) (h ++ first_steps sched M)) as D.
    rewrite u_run_app, E0 in *. destruct (u_run _ _ _ _ _ y0 (first_steps sched M)) as [y l1]. cbn [fst] in HN. cbv zeta in M.
    rewrite usub_app, (usub_none (first_steps sched M)), app_nil_r in P by (apply first_forall; intros m; apply Hs).
    cbn [usys_init u_m eng_init g_pend] in P. rewrite app_nil_r in P.
    destruct MM as (ex & M1 & _ & _ & M2).
    + apply Forall_app. split; auto. apply first_forall. intros m; apply Hs.
    + rewrite P in Hv. apply Forall_app in Hv. apply Hv.
    + destruct (M2 HN) as (M3 & M4 & M5). rewrite M4, app_nil_r in P. pose proof (F2_len _ _ _ M1) as Hl.
      assert (Hc : map fst (completed (l0 ++ l1)) = started (l0 ++ l1)) by (rewrite M5; apply comb_fst; rewrite map_length; exact Hl).
      rewrite Hc. split; [now symmetry|]. split; [eauto|].
      destruct D as (D1 & D2); [rewrite <- Hc, map_length; reflexivity|]. split; [unfold eng_is_idle; rewrite D1; reflexivity|]. split; [exact D2|exact HN].
Qed.
Print Assumptions C59_lite_write_completes.

(** The same for reads ([lite_fetched]: each byte as the call for its word returned it). *)
Theorem C59_lite_read_completes : forall T (tr : T -> Z -> Z -> T * res (list Z)) L t0 h sched, 0 < L ->
  Forall lrothers h -> Forall lite_read_legal (usubmitted h) ->
  (forall m, uno_issue (sched m) /\ lrothers (sched m)) -> fair uinternal sched ->
  exists N, forall M, (N <= M)%nat -> let '(y, l) := lrsys_run L (log_read tr) (t0, []) (h ++ first_steps sched M) in
    Permutation (map fst (completed l)) (usubmitted h) /\
    (exists ex, Forall2 (lite_fetched L) (started l) ex /\ completed l = combine (started l) (map fst ex) /\
       snd (lrs_target (u_s y)) = concat (map snd ex)) /\
    eng_is_idle (u_m y) = true /\ g_idle (u_m y) = true /\ uquiescent (lrsys_step L (log_read tr)) y.
Proof.
  intros T tr L t0 h sched HL Hh Hv Hs Hf.
  destruct (lrsys_run L (log_read tr) (t0, []) h) as [y0 l0] eqn:E0.
  destruct (u_completes (lite_r_sends L) (lite_r_need L) lr_kind (lrs_act (log_read tr) L) (@lrs_in (T * list rcall))
    (fun s => match s with LRRead _ _ => 5%nat | LRResp _ _ => 4%nat | _ => 0%nat end) (fun _ => 6%nat)) with (sched := sched) (y := y0) as [N HN].
  - intros s k e _. destruct s as [?|? ?|? ?]; cbn; lia.
  - intros s r s' H. destruct s; try discriminate; cbn in H; [destruct (lite_sr _ _ _ _); discriminate|]. injection H as <- <-. lia.
  - intros s s' H. destruct s; try discriminate. cbn in H. destruct (lite_sr _ _ _ _). injection H as <-. lia.
  - intros m. destruct (Hs m) as (H1 & H2). destruct (sched m); cbn in *; try tauto. destruct H2 as (g & ->).
    intros s. destruct s as [|a t|]; cbn; auto. split; auto. destruct (lite_sr _ _ a t), (lite_sr _ _ a _). exact I.
  - exact Hf.
  - exists N. intros M HM. specialize (HN M HM).
    pose proof (C57_lite_read_system T tr L t0 (h ++ first_steps sched M) HL) as MM.
    unfold lrsys_run in *. pose proof (u_submitted (lite_r_sends L) (lite_r_need L) lr_kind (lrs_act (log_read tr) L) (@lrs_in (T * list rcall))
       (h ++ first_steps sched M) (usys_init (LRIdle (t0, [])))) as P.
    pose proof (lite_idle (lite_r_sends L) (lite_r_need L) lr_kind (lrs_act (log_read tr) L) (@lrs_in (T * list rcall)) (LRIdle (t0, [])) (h ++ first_steps sched M)) as D.
    rewrite u_run_app, E0 in *. destruct (u_run _ _ _ _ _ y0 (first_steps sched M)) as [y l1]. cbn [fst] in HN. cbv zeta in M.
    rewrite usub_app, (usub_none (first_steps sched M)), app_nil_r in P by (apply first_forall; intros m; apply Hs).
    cbn [usys_init u_m eng_init g_pend] in P. rewrite app_nil_r in P.
    destruct MM as (ex & M1 & _ & _ & M2).
    + apply Forall_app. split; auto. apply first_forall. intros m; apply Hs.
    + rewrite P in Hv. apply Forall_app in Hv. apply Hv.
    + destruct (M2 HN) as (M3 & M4 & M5). rewrite M4, app_nil_r in P. pose proof (F2_len _ _ _ M1) as Hl.
      assert (Hc : map fst (completed (l0 ++ l1)) = started (l0 ++ l1)) by (rewrite M5; apply comb_fst; rewrite map_length; exact Hl).
      rewrite Hc. split; [now symmetry|]. split; [eauto|].
      destruct D as (D1 & D2); [rewrite <- Hc, map_length; reflexivity|]. split; [unfold eng_is_idle; rewrite D1; reflexivity|]. split; [exact D2|exact HN].
Qed.
Print Assumptions C59_lite_read_completes.

(** the hypotheses hold: a fair schedule without further operations *)
Definition exl_fair {C S} : nat -> uop C S := enum u_code.
Example C59_nontrivial_hyp : Forall lite_write_legal (usubmitted (map UInit exl_ops : list (uop (Z * lwcmd) (lwslv (sparse * list call))))) /\
  Forall lite_read_legal (usubmitted (map UInit exl_rops : list (uop (Z * lrcmd) (lrslv (sparse * list rcall))))) /\
  (forall m, uno_issue (exl_fair m : uop (Z * lwcmd) (lwslv (sparse * list call))) /\ lwothers (exl_fair m : uop (Z * lwcmd) (lwslv (sparse * list call)))) /\
  (forall m, uno_issue (exl_fair m : uop (Z * lrcmd) (lrslv (sparse * list rcall))) /\ lrothers (exl_fair m : uop (Z * lrcmd) (lrslv (sparse * list rcall)))) /\
  fair uinternal (exl_fair : nat -> uop (Z * lwcmd) (lwslv (sparse * list call))) /\ fair uinternal (exl_fair : nat -> uop (Z * lrcmd) (lrslv (sparse * list rcall))).
Proof.
  split; [repeat constructor; cbn; lia|]. split; [cbn; unfold exl_rops, lite_read_legal; repeat (apply Forall_cons; [cbn; lia|]); apply Forall_nil|].
  split; [|split].
  - intros m. unfold exl_fair, enum. destruct (u_code_ok (C := (Z * lwcmd)) (S := lwslv (sparse * list call)) (m - Nat.sqrt m * Nat.sqrt m)) as [K1 K2]. split; [exact K1|].
    destruct (u_code _) as [| | | | | | | | | | | |f]; cbn; auto. now destruct (K2 f).
  - intros m. unfold exl_fair, enum. destruct (u_code_ok (C := (Z * lrcmd)) (S := lrslv (sparse * list rcall)) (m - Nat.sqrt m * Nat.sqrt m)) as [K1 K2]. split; [exact K1|].
    destruct (u_code _) as [| | | | | | | | | | | |f]; cbn; auto. now destruct (K2 f).
  - split; apply enum_fair, u_code_all.
Qed.
(** under it the example operations have completed after 600 steps, not after 200 *)
Example C59_nontrivial :
  map (fun N => let '(y, l) := lwsys_run 4 (log_write ram_write) true (sm_init 32, []) (map UInit exl_ops ++ first_steps exl_fair N) in
    (map (fun d => (fst (fst d), snd d)) (completed l), g_idle (u_m y))) [200; 600]%nat =
  [([], false); ([(1, [OKAY; OKAY; OKAY; OKAY]); (2, [OKAY]); (3, [OKAY; OKAY])], true)].
Proof. vm_compute. reflexivity. Qed.
Example C59_nontrivial_read :
  map (fun N => let '(y, l) := lrsys_run 4 (log_read ram_read) (fst (ram_write (sm_init 32) 2 [1; 2; 3; 4; 5; 6; 7; 8; 9; 10]), []) (map UInit exl_rops ++ first_steps exl_fair N) in
    (map (fun d => (fst (fst d), lite_read_resp 4 (snd (fst d)) (snd d))) (completed l), g_idle (u_m y))) [200; 600]%nat =
  [([], false); ([(1, ([2; 3; 4; 5; 6; 7; 8; 9; 10; 0], OKAY)); (2, ([0; 1], OKAY))], true)].
Proof. vm_compute. reflexivity. Qed.
