(** Property C59 for AxiLiteMaster connected to AxiLiteSlave / AxiLiteRam as a whole. *)
From Coq Require Import ZArith Lia List Bool Permutation.
From Coq Require Import ZifyBool ZifyNat.
From Verif Require Import Py S_flat M_sparse S_sparse P_sparse M_memory P_memory M_axi S_axi P_axiram M_axil M_liteeng S_liteeng P_liteeng M_sys S_sys S_axisys P_sysram
  M_litesys S_litesys P_litesys T_litesys M_literw S_literw P_literw T_sysram T_literw S_live P_fair P_ulive T_litelive.
Import ListNotations.
Open Scope Z_scope.

Section Proj.
Context {T : Type}.
Variable tw : T -> Z -> list Z -> T * res unit.
Variable tr : T -> Z -> Z -> T * res (list Z).
Variable L : Z.
Local Notation TW := (T * list call)%type.
Local Notation TR := (T * list rcall)%type.
Local Notation step := (lx_step L (log_write tw) (log_read tr) cp_w2r cp_r2w).
Local Notation run := (lx_run L (log_write tw) (log_read tr) cp_w2r cp_r2w).

(** the steps of a half: its own, and a change of the target for every step of the other half *)
Definition lwp (z : lxs TW TR) (o : lxop TW TR) : uop (Z * lwcmd) (lwslv TW) :=
  match o with VW o => o | VR o => UPoke (lws_poke (cp_r2w (lrs_target (u_s (fst (lrsys_step L (log_read tr) (v_r z) o)))))) end.
Definition lrp (z : lxs TW TR) (o : lxop TW TR) : uop (Z * lrcmd) (lrslv TR) :=
  match o with VR o => o | VW o => UPoke (lrs_poke (cp_w2r (lws_target (u_s (fst (lwsys_step L (log_write tw) true (v_w z) o)))))) end.
Fixpoint lwps (z : lxs TW TR) (h : list (lxop TW TR)) := match h with [] => [] | o :: h => lwp z o :: lwps (fst (step z o)) h end.
Fixpoint lrps (z : lxs TW TR) (h : list (lxop TW TR)) := match h with [] => [] | o :: h => lrp z o :: lrps (fst (step z o)) h end.

Lemma lwps_run h : forall z, let '(z', l) := run z h in
  u_run (lite_w_sends L) (lite_w_need L) lw_kind (@lws_act TW) (lws_in (log_write tw) L true) (v_w z) (lwps z h) = (v_w z', lw_outs l).
Proof.
  induction h as [|o h IH]; intros z; [reflexivity|]. cbn [lx_run lwps]. destruct (step z o) as [z1 l1] eqn:Es. specialize (IH z1). cbn [fst].
  destruct (run z1 h) as [z2 l2]. cbn [u_run]. rewrite lw_outs_app.
  destruct o as [o|o]; cbn [lx_step lwp] in *.
  - unfold lwsys_step in *. destruct (u_step _ _ _ _ _ (v_w z) o) as [w os]. injection Es as <- <-. cbn [v_w] in IH. rewrite IH, lw_outs_inl. reflexivity.
  - destruct (lrsys_step L (log_read tr) (v_r z) o) as [r os]. injection Es as <- <-. cbn [v_w fst u_step] in *. rewrite IH, lw_outs_inr. reflexivity.
Qed.
Lemma lrps_run h : forall z, let '(z', l) := run z h in
  u_run (lite_r_sends L) (lite_r_need L) lr_kind (lrs_act (log_read tr) L) (@lrs_in TR) (v_r z) (lrps z h) = (v_r z', lr_outs l).
Proof.
  induction h as [|o h IH]; intros z; [reflexivity|]. cbn [lx_run lrps]. destruct (step z o) as [z1 l1] eqn:Es. specialize (IH z1). cbn [fst].
  destruct (run z1 h) as [z2 l2]. cbn [u_run]. rewrite lr_outs_app.
  destruct o as [o|o]; cbn [lx_step lrp] in *.
  - destruct (lwsys_step L (log_write tw) true (v_w z) o) as [r os]. injection Es as <- <-. cbn [v_r fst u_step] in *. rewrite IH, lr_outs_inl. reflexivity.
  - unfold lrsys_step in *. destruct (u_step _ _ _ _ _ (v_r z) o) as [w os]. injection Es as <- <-. cbn [v_r] in IH. rewrite IH, lr_outs_inr. reflexivity.
Qed.
Lemma lwps_app h1 : forall z h2, lwps z (h1 ++ h2) = lwps z h1 ++ lwps (fst (run z h1)) h2.
Proof.
  induction h1 as [|o h IH]; intros z h2; [reflexivity|]. cbn [app lwps lx_run]. rewrite IH. destruct (step z o) as [z1 l1]. cbn [fst].
  destruct (run z1 h) as [z2 l2]. reflexivity.
Qed.
Lemma lrps_app h1 : forall z h2, lrps z (h1 ++ h2) = lrps z h1 ++ lrps (fst (run z h1)) h2.
Proof.
  induction h1 as [|o h IH]; intros z h2; [reflexivity|]. cbn [app lrps lx_run]. rewrite IH. destruct (step z o) as [z1 l1]. cbn [fst].
  destruct (run z1 h) as [z2 l2]. reflexivity.
Qed.
(** the schedules of the halves *)
Definition lwsc (z : lxs TW TR) (sched : nat -> lxop TW TR) (m : nat) := lwp (fst (run z (first_steps sched m))) (sched m).
Definition lrsc (z : lxs TW TR) (sched : nat -> lxop TW TR) (m : nat) := lrp (fst (run z (first_steps sched m))) (sched m).
Lemma lwsc_first z sched M : first_steps (lwsc z sched) M = lwps z (first_steps sched M).
Proof. induction M as [|M IH]; [reflexivity|]. rewrite !first_steps_S, lwps_app, IH. reflexivity. Qed.
Lemma lrsc_first z sched M : first_steps (lrsc z sched) M = lrps z (first_steps sched M).
Proof. induction M as [|M IH]; [reflexivity|]. rewrite !first_steps_S, lrps_app, IH. reflexivity. Qed.

Lemma lwp_ok z o : lx_nopoke o -> lwothers (lwp z o).
Proof. destruct o as [o|o]; cbn [lwp lx_nopoke]; intros H; [destruct o; cbn in *; tauto|]. cbn. eexists (fun _ => _). reflexivity. Qed.
Lemma lrp_ok z o : lx_nopoke o -> lrothers (lrp z o).
Proof. destruct o as [o|o]; cbn [lrp lx_nopoke]; intros H; [|destruct o; cbn in *; tauto]. cbn. eexists (fun _ => _). reflexivity. Qed.
Lemma lwps_ok h : Forall lx_nopoke h -> forall z, Forall lwothers (lwps z h).
Proof. induction 1 as [|o h Ho Hh IH]; intros z; constructor; auto. apply lwp_ok; auto. Qed.
Lemma lrps_ok h : Forall lx_nopoke h -> forall z, Forall lrothers (lrps z h).
Proof. induction 1 as [|o h Ho Hh IH]; intros z; constructor; auto. apply lrp_ok; auto. Qed.
Lemma lwps_sub h : forall z, usubmitted (lwps z h) = lx_wsubmitted h.
Proof.
  induction h as [|o h IH]; intros z; [reflexivity|]. cbn [lwps]. unfold lx_wsubmitted in *. cbn [flat_map]. rewrite usub_app, <- (IH (fst (step z o))).
  destruct o as [o|o]; cbn [lwp]; unfold usubmitted; cbn [flat_map app]; [now rewrite app_nil_r|reflexivity].
Qed.
Lemma lrps_sub h : forall z, usubmitted (lrps z h) = lx_rsubmitted h.
Proof.
  induction h as [|o h IH]; intros z; [reflexivity|]. cbn [lrps]. unfold lx_rsubmitted in *. cbn [flat_map]. rewrite usub_app, <- (IH (fst (step z o))).
  destruct o as [o|o]; cbn [lrp]; unfold usubmitted; cbn [flat_map app]; [reflexivity|now rewrite app_nil_r].
Qed.
Lemma lwsc_fair z sched : fair lx_internal sched -> fair uinternal (lwsc z sched).
Proof. intros H o Ho n. destruct (H (VW o) Ho n) as (m & Hm & E). exists m. split; auto. unfold lwsc. rewrite E. reflexivity. Qed.
Lemma lrsc_fair z sched : fair lx_internal sched -> fair uinternal (lrsc z sched).
Proof. intros H o Ho n. destruct (H (VR o) Ho n) as (m & Hm & E). exists m. split; auto. unfold lrsc. rewrite E. reflexivity. Qed.
Lemma lwp_no z o : lx_no_issue o -> uno_issue (lwp z o).
Proof. destruct o; cbn; auto. Qed.
Lemma lrp_no z o : lx_no_issue o -> uno_issue (lrp z o).
Proof. destruct o; cbn; auto. Qed.

(** the halves have the same target *)
Definition lsync (z : lxs TW TR) : Prop := fst (lws_target (u_s (v_w z))) = fst (lrs_target (u_s (v_r z))).
Lemma lsync_run h : forall z, lsync z -> lsync (fst (run z h)).
Proof.
  induction h as [|o h IH]; intros z Hz; [exact Hz|]. cbn [lx_run]. destruct (step z o) as [z1 l1] eqn:Es.
  assert (H1 : lsync z1).
  { destruct o as [o|o]; cbn [lx_step] in Es; [destruct (lwsys_step _ _ _ _ _) as [w os]|destruct (lrsys_step _ _ _ _) as [w os]]; injection Es as <- _;
      unfold lsync; cbn [v_w v_r uset_s u_s]; [destruct (u_s (v_r z))|destruct (u_s (v_w z))]; reflexivity. }
  specialize (IH z1 H1). destruct (run z1 h). exact IH.
Qed.
Lemma lx_quiet z : lsync z -> uquiescent (lwsys_step L (log_write tw) true) (v_w z) -> uquiescent (lrsys_step L (log_read tr)) (v_r z) ->
  forall o, lx_internal o -> step z o = (z, []).
Proof.
  intros Hz Hw Hr [o|o] Ho; cbn [lx_internal lx_step] in *.
  - rewrite (Hw o Ho). cbn [map]. f_equal. destruct z as [w [m a wc b s]]. unfold lsync in Hz. cbn [v_w v_r u_s uset_s u_m u_a u_w u_b] in *. do 2 f_equal.
    unfold cp_w2r. rewrite Hz. destruct s as [t|a0 t|r t]; cbn; destruct t; reflexivity.
  - rewrite (Hr o Ho). cbn [map]. f_equal. destruct z as [[m a wc b s] r]. unfold lsync in Hz. cbn [v_w v_r u_s uset_s u_m u_a u_w u_b] in *. do 2 f_equal.
    unfold cp_r2w. rewrite <- Hz. destruct s as [t|a0 t|b0 t|t]; cbn; destruct t; reflexivity.
Qed.
End Proj.

(** C59, reads and writes together on one byte-storing target: after finitely many steps of any fair schedule exactly the operations issued have completed,
    in the order in which they were started, all with OKAY; the memory holds the bytes of all writes in that order; both halves are idle. *)
Theorem C59_lite_memory_completes : forall T L lo hi phi (inv : T -> Prop) view tw tr,
  flat_target L lo hi phi inv view tw tr -> 0 < L -> lo mod L = 0 -> hi mod L = 0 ->
  forall t0 h sched, inv t0 -> Forall lx_nopoke h ->
  Forall (lwrite_in lo hi) (lx_wsubmitted h) -> Forall (lread_in lo hi) (lx_rsubmitted h) ->
  (forall m, lx_no_issue (sched m) /\ lx_nopoke (sched m)) -> fair lx_internal sched ->
  exists N, forall M, (N <= M)%nat -> let '(z, l) := lrw_run L tw tr (lrw_init t0) (h ++ first_steps sched M) in
    Permutation (lwrites_of l) (lx_wsubmitted h) /\ Permutation (lreads_of l) (lx_rsubmitted h) /\
    map fst (completed (lw_outs l)) = lwrites_of l /\ map fst (completed (lr_outs l)) = lreads_of l /\
    Forall (fun d => lite_write_resp (snd d) = OKAY) (completed (lw_outs l)) /\
    Forall (fun d => snd (lite_read_resp L (snd (fst d)) (snd d)) = OKAY) (completed (lr_outs l)) /\
    view (lrw_target z) =f put phi (view t0) (lite_op_bytes (lwrites_of l)) /\
    eng_is_idle (u_m (v_w z)) = true /\ eng_is_idle (u_m (v_r z)) = true.
Proof.
  intros T L lo hi phi inv view tw tr Hft HL Hlo Hhi t0 h sched Ht0 Hh HW HR Hs Hf.
  pose (z0 := lrw_init t0 : lxs (T * list call) (T * list rcall)).
  pose (z1 := fst (lrw_run L tw tr z0 h)).
  destruct (C59_lite_write_completes T tw L t0 (lwps tw tr L z0 h) (lwsc tw tr L z1 sched) HL) as [N1 H1].
  { apply lwps_ok; auto. } { rewrite lwps_sub. apply Forall_impl with (2 := HW). intros o Ho; apply Ho. }
  { intros m. split; [apply lwp_no, Hs|apply lwp_ok, Hs]. } { apply lwsc_fair; auto. }
  destruct (C59_lite_read_completes T tr L t0 (lrps tw tr L z0 h) (lrsc tw tr L z1 sched) HL) as [N2 H2].
  { apply lrps_ok; auto. } { rewrite lrps_sub. apply Forall_impl with (2 := HR). intros o Ho; apply Ho. }
  { intros m. split; [apply lrp_no, Hs|apply lrp_ok, Hs]. } { apply lrsc_fair; auto. }
  exists (N1 + N2)%nat. intros M HM. specialize (H1 M ltac:(lia)). specialize (H2 M ltac:(lia)).
  rewrite lwsc_first in H1. rewrite lrsc_first in H2. unfold z1, lrw_run in H1, H2. rewrite <- lwps_app in H1. rewrite <- lrps_app in H2.
  pose proof (lwps_run tw tr L (h ++ first_steps sched M) z0) as R1. pose proof (lrps_run tw tr L (h ++ first_steps sched M) z0) as R2.
  pose proof (lsync_run tw tr L (h ++ first_steps sched M) z0 eq_refl) as Y.
  pose proof (C58_memory T L lo hi phi inv view tw tr Hft HL Hlo Hhi t0 (h ++ first_steps sched M) [] Ht0) as MM. rewrite app_nil_r in MM.
  unfold lrw_run in *. fold z0 in MM |- *.
  destruct (lx_run L (log_write tw) (log_read tr) cp_w2r cp_r2w z0 (h ++ first_steps sched M)) as [z l]. cbn [lx_run fst] in *. cbv zeta in MM. rewrite app_nil_r in MM.
  change (v_w z0) with (@usys_init (Z * lwcmd) lev resp_t _ (LWIdle (t0, @nil call))) in R1.
  change (v_r z0) with (@usys_init (Z * lrcmd) lax lrd _ (LRIdle (t0, @nil rcall))) in R2.
  unfold lwsys_run in H1. rewrite R1 in H1. unfold lrsys_run in H2. rewrite R2 in H2.
  rewrite lwps_sub in H1. rewrite lrps_sub in H2.
  destruct H1 as (P1 & (ex1 & X1 & X2 & _) & I1 & _ & Q1). destruct H2 as (P2 & (ex2 & X3 & X4 & _) & I2 & _ & Q2).
  assert (C1 : map fst (completed (lw_outs l)) = lwrites_of l) by (rewrite X2; apply comb_fst; rewrite map_length; apply (F2_len _ _ _ X1)).
  assert (C2 : map fst (completed (lr_outs l)) = lreads_of l) by (rewrite X4; apply comb_fst; rewrite map_length; apply (F2_len _ _ _ X3)).
  rewrite C1 in P1. rewrite C2 in P2.
  destruct MM as (kw & kr & bytes & pts & _ & _ & OK & _ & _ & RD & _ & V & _ & _ & _ & _ & _ & _ & Q).
  - apply Forall_app. split; auto. apply first_forall. intros m. apply Hs.
  - rewrite P1. exact HW.
  - rewrite P2. exact HR.
  - destruct (Q (lx_quiet tw tr L z Y Q1 Q2)) as (-> & _ & _).
    repeat (split; [assumption|]). split; [|auto].
    apply Forall_forall. intros [o rs] Hin. apply In_nth_error in Hin. destruct Hin as (j & Hj). cbn [fst snd]. rewrite (RD j o rs Hj). reflexivity.
Qed.
Print Assumptions C59_lite_memory_completes.

(** AxiLiteMaster on AxiLiteRam *)
Corollary C59_lite_ram_completes : forall size L m0 h sched, 0 < size -> 0 < L -> size mod L = 0 -> sm_reachable size m0 -> Forall lx_nopoke h ->
  Forall lite_write_legal (lx_wsubmitted h) -> Forall lite_read_legal (lx_rsubmitted h) ->
  Forall (fun o => 0 <= lc_addr (snd o)) (lx_wsubmitted h) -> Forall (fun o => 0 <= lr_addr (snd o)) (lx_rsubmitted h) ->
  (forall m, lx_no_issue (sched m) /\ lx_nopoke (sched m)) -> fair lx_internal sched ->
  exists N, forall M, (N <= M)%nat -> let '(z, l) := lrw_run L ram_write ram_read (lrw_init m0) (h ++ first_steps sched M) in
    Permutation (lwrites_of l) (lx_wsubmitted h) /\ Permutation (lreads_of l) (lx_rsubmitted h) /\
    map fst (completed (lw_outs l)) = lwrites_of l /\ map fst (completed (lr_outs l)) = lreads_of l /\
    Forall (fun d => lite_write_resp (snd d) = OKAY) (completed (lw_outs l)) /\
    Forall (fun d => snd (lite_read_resp L (snd (fst d)) (snd d)) = OKAY) (completed (lr_outs l)) /\
    peek (lrw_target z) =f put (fun x => x mod size) (peek m0) (lite_op_bytes (lwrites_of l)) /\
    eng_is_idle (u_m (v_w z)) = true /\ eng_is_idle (u_m (v_r z)) = true.
Proof.
  intros size L m0 h sched Hs HL Hm Hr Hh HW HR HW0 HR0 Hsc Hf.
  destruct (upper_bound (fun p : Z * lwcmd => lc_addr (snd p) + zlen (lc_data (snd p))) L (lx_wsubmitted h) HL) as (b1 & B1 & B2 & B3).
  destruct (upper_bound (fun p : Z * lrcmd => lr_addr (snd p) + lr_len (snd p)) L (lx_rsubmitted h) HL) as (b2 & B4 & B5 & B6).
  assert (Hhi : (b1 + b2) mod L = 0) by (rewrite Z.add_mod, B1, B4 by lia; reflexivity).
  assert (HLn : L <> 0) by lia.
  apply (C59_lite_memory_completes _ L 0 (b1 + b2) _ _ _ _ _ (ram_flat L size 0 (b1 + b2) HL Hs Hm) HL (Z.mod_0_l _ HLn) Hhi m0 h sched Hr Hh); auto.
  - rewrite Forall_forall in *. intros p Hp. specialize (HW p Hp). specialize (HW0 p Hp). specialize (B3 p Hp). cbv beta in B3, HW0. split; [exact HW|]. lia.
  - rewrite Forall_forall in *. intros p Hp. specialize (HR p Hp). specialize (HR0 p Hp). specialize (B6 p Hp). cbv beta in B6, HR0. split; [exact HR|].
    unfold lite_read_legal in HR. lia.
Qed.
Print Assumptions C59_lite_ram_completes.

(** the hypotheses hold for the operations of T_literw.v; a fair schedule of both halves *)
Definition exl_afair : nat -> lxop (sparse * list call) (sparse * list rcall) := enum (fun k => if Nat.even k then VW (u_code (Nat.div2 k)) else VR (u_code (Nat.div2 k))).
Definition exl_ah : list (lxop (sparse * list call) (sparse * list rcall)) := map VW (map UInit exl_ops) ++ map VR (map UInit exl_rops).
Example C59_nontrivial_rw_hyp : Forall lx_nopoke exl_ah /\ Forall lite_write_legal (lx_wsubmitted exl_ah) /\ Forall lite_read_legal (lx_rsubmitted exl_ah) /\
  Forall (fun o => 0 <= lc_addr (snd o)) (lx_wsubmitted exl_ah) /\ Forall (fun o => 0 <= lr_addr (snd o)) (lx_rsubmitted exl_ah) /\
  (forall m, lx_no_issue (exl_afair m) /\ lx_nopoke (exl_afair m)) /\ fair lx_internal exl_afair.
Proof.
  split; [repeat constructor|]. split; [repeat constructor; cbn; lia|].
  split; [cbn; unfold lite_read_legal; repeat (apply Forall_cons; [cbn; lia|]); apply Forall_nil|].
  split; [cbn; repeat (apply Forall_cons; [cbn; lia|]); apply Forall_nil|].
  split; [cbn; repeat (apply Forall_cons; [cbn; lia|]); apply Forall_nil|].
  split.
  - intros m. unfold exl_afair, enum. set (k := (m - _)%nat). clearbody k. destruct (Nat.even k); cbn [lx_no_issue lx_nopoke].
    + destruct (u_code_ok (C := (Z * lwcmd)) (S := lwslv (sparse * list call)) (Nat.div2 k)) as [K1 K2]. split; [exact K1|].
      destruct (u_code _) as [| | | | | | | | | | | |f]; cbn; auto. now destruct (K2 f).
    + destruct (u_code_ok (C := (Z * lrcmd)) (S := lrslv (sparse * list rcall)) (Nat.div2 k)) as [K1 K2]. split; [exact K1|].
      destruct (u_code _) as [| | | | | | | | | | | |f]; cbn; auto. now destruct (K2 f).
  - apply enum_fair. intros [o|o] Ho; destruct (u_code_all o Ho) as (k & <-); [exists (2 * k)%nat|exists (S (2 * k))].
    + rewrite Nat.even_mul. cbn [Nat.even orb]. rewrite Nat.div2_double. reflexivity.
    + rewrite Nat.even_succ, Nat.odd_mul. cbn [Nat.odd Nat.even negb andb]. rewrite Nat.div2_succ_double. reflexivity.
Qed.
Example C59_nontrivial_rw :
  let '(z, l) := lrw_run 4 ram_write ram_read (lrw_init (sm_init 16)) (exl_ah ++ first_steps exl_afair 1500) in
  (map (fun d => fst (fst d)) (completed (lw_outs l)), exl_show l, eng_is_idle (u_m (v_w z)), eng_is_idle (u_m (v_r z)), map (peek (lrw_target z)) (zrange 0 16)) =
  ([1; 2; 3], [(1, ([2; 3; 4; 5; 6; 7; 8; 9; 10; 11], OKAY)); (2, ([0; 1], OKAY))], true, true, [32; 33; 1; 2; 21; 22; 23; 6; 7; 8; 9; 10; 11; 0; 0; 31]).
Proof. vm_compute. reflexivity. Qed.
