(** Property C60 for AxiMaster connected to AxiSlave / AxiRam as a whole. *)
From Coq Require Import ZArith Lia List Bool Permutation.
From Coq Require Import ZifyBool ZifyNat.
From Verif Require Import Py S_flat M_sparse S_sparse P_sparse M_memory P_memory M_axi S_axi P_axiram M_liteeng M_axieng S_axieng P_axieng M_sys S_sys P_sys T_sys T_sysrd
  M_axisys S_axisys P_sysram T_sysram M_litesys S_litesys M_literw S_live P_fair P_ulive P_ylive T_litelive T_axilive.
Import ListNotations.
Open Scope Z_scope.

Lemma forall2_of_nth {X Y} (P : X -> Y -> Prop) a : forall b, length a = length b -> (forall i x, nth_error a i = Some x -> exists y, nth_error b i = Some y /\ P x y) -> Forall2 P a b.
Proof.
  induction a as [|x a IH]; intros [|y b] Hl H; try discriminate Hl; [constructor|]. constructor.
  - destruct (H 0%nat x eq_refl) as (y' & E & HP). injection E as <-. exact HP.
  - apply IH; [now injection Hl|]. intros i x' Hx. exact (H (S i) x' Hx).
Qed.

Section Proj.
Context {T : Type}.
Variable tw : T -> Z -> list Z -> T * res unit.
Variable tr : T -> Z -> Z -> T * res (list Z).
Variable c : mcfg.
Variables widn ridn : Z.
Local Notation TW := (T * list call)%type.
Local Notation TR := (T * list rcall)%type.
Local Notation step := (ax_step c widn ridn (log_write tw) (log_read tr) cp_w2r cp_r2w).
Local Notation run := (ax_run c widn ridn (log_write tw) (log_read tr) cp_w2r cp_r2w).

(** the steps of a half: its own, and a change of the target for every step of the other half *)
Definition awp (z : axs TW TR) (o : aop TW TR) : yop wop (wslv TW) :=
  match o with BW o => o | BR o => YPoke (ws_poke (cp_r2w (rs_target (y_s (fst (rsys_step c ridn (log_read tr) (m_lanes c) (z_r z) o)))))) end.
Definition arp (z : axs TW TR) (o : aop TW TR) : yop rop (rslv TR) :=
  match o with BR o => o | BW o => YPoke (rs_poke (cp_w2r (ws_target (y_s (fst (wsys_step c widn (log_write tw) (m_lanes c) true (z_w z) o)))))) end.
Fixpoint awps (z : axs TW TR) (h : list (aop TW TR)) := match h with [] => [] | o :: h => awp z o :: awps (fst (step z o)) h end.
Fixpoint arps (z : axs TW TR) (h : list (aop TW TR)) := match h with [] => [] | o :: h => arp z o :: arps (fst (step z o)) h end.

Lemma awps_run h : forall z, let '(z', l) := run z h in
  y_run (w_sends c) w_opens w_epat w_chk b_id op_id widn w_opens (@ws_act TW) (ws_in (log_write tw) (m_lanes c) true) (z_w z) (awps z h) = (z_w z', w_outs l).
Proof.
  induction h as [|o h IH]; intros z; [reflexivity|]. cbn [ax_run awps]. destruct (step z o) as [z1 l1] eqn:Es. specialize (IH z1). cbn [fst].
  destruct (run z1 h) as [z2 l2]. cbn [y_run]. rewrite w_outs_app.
  destruct o as [o|o]; cbn [ax_step awp] in *.
  - unfold wsys_step in *. destruct (y_step _ _ _ _ _ _ _ _ _ _ (z_w z) o) as [w os]. injection Es as <- <-. cbn [z_w] in IH. rewrite IH, w_outs_inl. reflexivity.
  - destruct (rsys_step c ridn (log_read tr) (m_lanes c) (z_r z) o) as [r os]. injection Es as <- <-. cbn [z_w fst y_step] in *. rewrite IH, w_outs_inr. reflexivity.
Qed.
Lemma arps_run h : forall z, let '(z', l) := run z h in
  y_run (r_sends c) r_opens r_epat r_chk r_id op_id ridn r_kind (rs_act (log_read tr) (m_lanes c)) (@rs_in TR (m_lanes c)) (z_r z) (arps z h) = (z_r z', r_outs l).
Proof.
  induction h as [|o h IH]; intros z; [reflexivity|]. cbn [ax_run arps]. destruct (step z o) as [z1 l1] eqn:Es. specialize (IH z1). cbn [fst].
  destruct (run z1 h) as [z2 l2]. cbn [y_run]. rewrite r_outs_app.
  destruct o as [o|o]; cbn [ax_step arp] in *.
  - destruct (wsys_step c widn (log_write tw) (m_lanes c) true (z_w z) o) as [r os]. injection Es as <- <-. cbn [z_r fst y_step] in *. rewrite IH, r_outs_inl. reflexivity.
  - unfold rsys_step in *. destruct (y_step _ _ _ _ _ _ _ _ _ _ (z_r z) o) as [w os]. injection Es as <- <-. cbn [z_r] in IH. rewrite IH, r_outs_inr. reflexivity.
Qed.
Lemma awps_app h1 : forall z h2, awps z (h1 ++ h2) = awps z h1 ++ awps (fst (run z h1)) h2.
Proof.
  induction h1 as [|o h IH]; intros z h2; [reflexivity|]. cbn [app awps ax_run]. rewrite IH. destruct (step z o) as [z1 l1]. cbn [fst].
  destruct (run z1 h) as [z2 l2]. reflexivity.
Qed.
Lemma arps_app h1 : forall z h2, arps z (h1 ++ h2) = arps z h1 ++ arps (fst (run z h1)) h2.
Proof.
  induction h1 as [|o h IH]; intros z h2; [reflexivity|]. cbn [app arps ax_run]. rewrite IH. destruct (step z o) as [z1 l1]. cbn [fst].
  destruct (run z1 h) as [z2 l2]. reflexivity.
Qed.
(** the schedules of the halves *)
Definition awsc (z : axs TW TR) (sched : nat -> aop TW TR) (m : nat) := awp (fst (run z (first_steps sched m))) (sched m).
Definition arsc (z : axs TW TR) (sched : nat -> aop TW TR) (m : nat) := arp (fst (run z (first_steps sched m))) (sched m).
Lemma awsc_first z sched M : first_steps (awsc z sched) M = awps z (first_steps sched M).
Proof. induction M as [|M IH]; [reflexivity|]. rewrite !first_steps_S, awps_app, IH. reflexivity. Qed.
Lemma arsc_first z sched M : first_steps (arsc z sched) M = arps z (first_steps sched M).
Proof. induction M as [|M IH]; [reflexivity|]. rewrite !first_steps_S, arps_app, IH. reflexivity. Qed.

Lemma awp_ok z o : a_nopoke o -> wothers (awp z o).
Proof. destruct o as [o|o]; cbn [awp a_nopoke]; intros H; [destruct o; cbn in *; tauto|]. cbn. eexists (fun _ => _). reflexivity. Qed.
Lemma arp_ok z o : a_nopoke o -> rothers (arp z o).
Proof. destruct o as [o|o]; cbn [arp a_nopoke]; intros H; [|destruct o; cbn in *; tauto]. cbn. eexists (fun _ => _). reflexivity. Qed.
Lemma awps_ok h : Forall a_nopoke h -> forall z, Forall wothers (awps z h).
Proof. induction 1 as [|o h Ho Hh IH]; intros z; constructor; auto. apply awp_ok; auto. Qed.
Lemma arps_ok h : Forall a_nopoke h -> forall z, Forall rothers (arps z h).
Proof. induction 1 as [|o h Ho Hh IH]; intros z; constructor; auto. apply arp_ok; auto. Qed.
Lemma awps_sub h : forall z, ysubmitted (awps z h) = a_wsubmitted h.
Proof.
  induction h as [|o h IH]; intros z; [reflexivity|]. cbn [awps]. unfold a_wsubmitted in *. cbn [flat_map]. rewrite ysub_app, <- (IH (fst (step z o))).
  destruct o as [o|o]; cbn [awp]; unfold ysubmitted; cbn [flat_map app]; [now rewrite app_nil_r|reflexivity].
Qed.
Lemma arps_sub h : forall z, ysubmitted (arps z h) = a_rsubmitted h.
Proof.
  induction h as [|o h IH]; intros z; [reflexivity|]. cbn [arps]. unfold a_rsubmitted in *. cbn [flat_map]. rewrite ysub_app, <- (IH (fst (step z o))).
  destruct o as [o|o]; cbn [arp]; unfold ysubmitted; cbn [flat_map app]; [reflexivity|now rewrite app_nil_r].
Qed.
Lemma awsc_fair z sched : fair a_internal sched -> fair internal (awsc z sched).
Proof. intros H o Ho n. destruct (H (BW o) Ho n) as (m & Hm & E). exists m. split; auto. unfold awsc. rewrite E. reflexivity. Qed.
Lemma arsc_fair z sched : fair a_internal sched -> fair internal (arsc z sched).
Proof. intros H o Ho n. destruct (H (BR o) Ho n) as (m & Hm & E). exists m. split; auto. unfold arsc. rewrite E. reflexivity. Qed.
Lemma awp_no z o : a_no_issue o -> yno_issue (awp z o).
Proof. destruct o; cbn; auto. Qed.
Lemma arp_no z o : a_no_issue o -> yno_issue (arp z o).
Proof. destruct o; cbn; auto. Qed.

(** the halves have the same target *)
Definition async (z : axs TW TR) : Prop := fst (ws_target (y_s (z_w z))) = fst (rs_target (y_s (z_r z))).
Lemma async_run h : forall z, async z -> async (fst (run z h)).
Proof.
  induction h as [|o h IH]; intros z Hz; [exact Hz|]. cbn [ax_run]. destruct (step z o) as [z1 l1] eqn:Es.
  assert (H1 : async z1).
  { destruct o as [o|o]; cbn [ax_step] in Es; [destruct (wsys_step _ _ _ _ _ _ _) as [w os]|destruct (rsys_step _ _ _ _ _ _) as [w os]]; injection Es as <- _;
      unfold async; cbn [z_w z_r set_s y_s]; [destruct (y_s (z_r z))|destruct (y_s (z_w z))]; reflexivity. }
  specialize (IH z1 H1). destruct (run z1 h). exact IH.
Qed.
Lemma ax_quiet z : async z -> quiescent (wsys_step c widn (log_write tw) (m_lanes c) true) (z_w z) -> quiescent (rsys_step c ridn (log_read tr) (m_lanes c)) (z_r z) ->
  forall o, a_internal o -> step z o = (z, []).
Proof.
  intros Hz Hw Hr [o|o] Ho; cbn [a_internal ax_step] in *.
  - rewrite (Hw o Ho). cbn [map]. f_equal. destruct z as [w [m a wc b s]]. unfold async in Hz. cbn [z_w z_r y_s set_s y_m y_a y_w y_b] in *. do 2 f_equal.
    unfold cp_w2r. rewrite Hz. destruct s as [t|s t|r0 s t|t]; cbn; destruct t; reflexivity.
  - rewrite (Hr o Ho). cbn [map]. f_equal. destruct z as [[m a wc b s] r]. unfold async in Hz. cbn [z_w z_r y_s set_s y_m y_a y_w y_b] in *. do 2 f_equal.
    unfold cp_r2w. rewrite <- Hz. destruct s as [t|s t|b0 t|t]; cbn; destruct t; reflexivity.
Qed.
End Proj.

(** C60, reads and writes together on one byte-storing target: after finitely many steps of any fair schedule exactly the operations issued have
    completed, those of each ID in the order in which they were started, all with OKAY; the memory holds the bytes of all writes in the order in
    which they were started; both halves are idle and no assertion failed. *)
Theorem C60_memory_completes : forall T L lo hi phi (inv : T -> Prop) view tw tr,
  flat_target L lo hi phi inv view tw tr -> 0 < L -> lo mod L = 0 -> hi mod L = 0 ->
  forall c widn ridn t0 h sched, m_lanes c = L -> 0 < widn -> 0 < ridn -> inv t0 -> Forall a_nopoke h ->
  Forall (fun o => write_in L lo hi (o, 0)) (a_wsubmitted h) -> Forall (fun o => read_in L lo hi (o, 0)) (a_rsubmitted h) ->
  (forall m, a_no_issue (sched m) /\ a_nopoke (sched m)) -> fair a_internal sched ->
  exists N, forall M, (N <= M)%nat -> let '(z, l) := rw_run c widn ridn tw tr (rw_init t0) (h ++ first_steps sched M) in
    let W := writes_of widn l in let R := reads_of ridn l in
    Permutation (map fst W) (a_wsubmitted h) /\ Permutation (map fst R) (a_rsubmitted h) /\
    Permutation (map (fun d => fst (fst d)) (xcompleted (w_outs l))) (map fst W) /\
    Permutation (map (fun d => fst (fst d)) (xcompleted (r_outs l))) (map fst R) /\
    (exists wrss, Forall2 (fun p rs => write_returns c (fst p) (snd p) rs = Some OKAY) W wrss /\
       forall u, completed_on u (w_outs l) = combine (with_tag u W) (on_tag u W wrss)) /\
    (exists rrss, Forall2 (fun p rs => exists d, read_returns c (fst p) (snd p) rs = Some (d, OKAY)) R rrss /\
       forall u, completed_on u (r_outs l) = combine (with_tag u R) (on_tag u R rrss)) /\
    view (rw_target z) =f put phi (view t0) (op_bytes_of W) /\
    xcrashed (w_outs l) = false /\ xcrashed (r_outs l) = false /\ x_is_idle (y_m (z_w z)) = true /\ x_is_idle (y_m (z_r z)) = true.
Proof.
  intros T L lo hi phi inv view tw tr Hft HL Hlo Hhi c widn ridn t0 h sched HcL Hw Hr Ht0 Hh HW HR Hs Hf.
  pose (z0 := rw_init t0 : axs (T * list call) (T * list rcall)).
  pose (z1 := fst (rw_run c widn ridn tw tr z0 h)).
  destruct (C60_write_completes T tw c widn t0 (awps tw tr c widn ridn z0 h) (awsc tw tr c widn ridn z1 sched) Hw) as [N1 H1].
  { apply awps_ok; auto. } { rewrite awps_sub. apply Forall_impl with (2 := HW). intros o Ho. rewrite HcL. apply Ho. }
  { intros m. split; [apply awp_no, Hs|apply awp_ok, Hs]. } { apply awsc_fair; auto. }
  destruct (C60_read_completes T tr c ridn t0 (arps tw tr c widn ridn z0 h) (arsc tw tr c widn ridn z1 sched) Hr) as [N2 H2].
  { apply arps_ok; auto. } { rewrite arps_sub. apply Forall_impl with (2 := HR). intros o Ho. rewrite HcL. apply Ho. }
  { intros m. split; [apply arp_no, Hs|apply arp_ok, Hs]. } { apply arsc_fair; auto. }
  exists (N1 + N2)%nat. intros M HM. specialize (H1 M ltac:(lia)). specialize (H2 M ltac:(lia)).
  rewrite awsc_first in H1. rewrite arsc_first in H2. unfold z1, rw_run in H1, H2. rewrite <- awps_app in H1. rewrite <- arps_app in H2.
  pose proof (awps_run tw tr c widn ridn (h ++ first_steps sched M) z0) as R1. pose proof (arps_run tw tr c widn ridn (h ++ first_steps sched M) z0) as R2.
  pose proof (async_run tw tr c widn ridn (h ++ first_steps sched M) z0 eq_refl) as Y.
  pose proof (C55_memory T L lo hi phi inv view tw tr Hft HL Hlo Hhi c widn ridn t0 (h ++ first_steps sched M) [] HcL Hw Hr Ht0) as MM. rewrite app_nil_r in MM.
  unfold rw_run in *. fold z0 in MM |- *.
  destruct (ax_run c widn ridn (log_write tw) (log_read tr) cp_w2r cp_r2w z0 (h ++ first_steps sched M)) as [z l]. cbn [ax_run fst] in *. cbv zeta in *. rewrite app_nil_r in MM.
  change (z_w z0) with (@sys_init wop wev bch _ (WIdle (t0, @nil call))) in R1.
  change (z_r z0) with (@sys_init rop axc rch _ (RIdle (t0, @nil rcall))) in R2.
  unfold wsys_run in H1. rewrite R1 in H1. unfold rsys_run in H2. rewrite R2 in H2.
  rewrite awps_sub in H1. rewrite arps_sub in H2.
  destruct H1 as (P1 & T1 & (ex1 & X1 & X2 & _) & D1 & I1 & _ & Q1). destruct H2 as (P2 & T2 & (ex2 & X3 & X4 & _) & D2 & I2 & _ & Q2).
  fold (writes_of widn l) in *. fold (reads_of ridn l) in *.
  pose proof (all_done (writes_of widn l) (w_outs l) ex1 fst (eq_sym (F2_len _ _ _ X1)) T1 X2) as C1.
  pose proof (all_done (reads_of ridn l) (r_outs l) ex2 fst (eq_sym (F2_len _ _ _ X3)) T2 X4) as C2.
  rewrite C1 in P1. rewrite C2 in P2.
  destruct MM as (wrss & rrss & bytes & pts & OK & Hlen & RD & _ & V & _ & _ & _ & _ & _ & _ & _ & _ & Q).
  - apply Forall_app. split; auto. apply first_forall. intros m. apply Hs.
  - apply (Forall_map fst (fun o => write_in L lo hi (o, 0))). rewrite P1. exact HW.
  - apply (Forall_map fst (fun o => read_in L lo hi (o, 0))). rewrite P2. exact HR.
  - destruct (Q (ax_quiet tw tr c widn ridn z Y Q1 Q2)) as (-> & U1 & U2).
    repeat (split; [assumption|]). split; [|split; [|auto]].
    + exists wrss. split; [|exact U1]. apply forall2_impl with (2 := OK). intros p rs H. apply H.
    + exists rrss. split; [|exact U2]. apply forall2_of_nth; [now symmetry|]. intros j [o u] Hj. destruct (RD j o u Hj) as (rs & E1 & _ & E2). exists rs. split; auto. cbn [fst snd]. eauto.
Qed.
Print Assumptions C60_memory_completes.

(** AxiMaster on AxiRam *)
Corollary C60_ram_completes : forall size c widn ridn m0 h sched, 0 < size -> 0 < m_lanes c -> size mod m_lanes c = 0 -> sm_reachable size m0 ->
  0 < widn -> 0 < ridn -> Forall a_nopoke h ->
  Forall (write_legal (m_lanes c)) (a_wsubmitted h) -> Forall (read_legal (m_lanes c)) (a_rsubmitted h) ->
  (forall m, a_no_issue (sched m) /\ a_nopoke (sched m)) -> fair a_internal sched ->
  exists N, forall M, (N <= M)%nat -> let '(z, l) := rw_run c widn ridn ram_write ram_read (rw_init m0) (h ++ first_steps sched M) in
    let W := writes_of widn l in let R := reads_of ridn l in
    Permutation (map fst W) (a_wsubmitted h) /\ Permutation (map fst R) (a_rsubmitted h) /\
    Permutation (map (fun d => fst (fst d)) (xcompleted (w_outs l))) (map fst W) /\
    Permutation (map (fun d => fst (fst d)) (xcompleted (r_outs l))) (map fst R) /\
    (exists wrss, Forall2 (fun p rs => write_returns c (fst p) (snd p) rs = Some OKAY) W wrss /\
       forall u, completed_on u (w_outs l) = combine (with_tag u W) (on_tag u W wrss)) /\
    (exists rrss, Forall2 (fun p rs => exists d, read_returns c (fst p) (snd p) rs = Some (d, OKAY)) R rrss /\
       forall u, completed_on u (r_outs l) = combine (with_tag u R) (on_tag u R rrss)) /\
    peek (rw_target z) =f put (fun x => x mod size) (peek m0) (op_bytes_of W) /\
    xcrashed (w_outs l) = false /\ xcrashed (r_outs l) = false /\ x_is_idle (y_m (z_w z)) = true /\ x_is_idle (y_m (z_r z)) = true.
Proof.
  intros size c widn ridn m0 h sched Hs HL Hm Hr Hwi Hri Hh HW HR Hsc Hf.
  destruct (upper_bound (fun p : wop => wc_addr (snd p) + zlen (wc_data (snd p))) (m_lanes c) (a_wsubmitted h) HL) as (b1 & B1 & B2 & B3).
  destruct (upper_bound (fun p : rop => rc_addr (snd p) + rc_len (snd p)) (m_lanes c) (a_rsubmitted h) HL) as (b2 & B4 & B5 & B6).
  assert (Hhi : (b1 + b2) mod m_lanes c = 0) by (rewrite Z.add_mod, B1, B4 by lia; reflexivity).
  assert (HLn : m_lanes c <> 0) by lia.
  apply (C60_memory_completes _ (m_lanes c) 0 (b1 + b2) _ _ _ _ _ (ram_flat (m_lanes c) size 0 (b1 + b2) HL Hs Hm) HL (Z.mod_0_l _ HLn) Hhi c widn ridn m0 h sched eq_refl Hwi Hri Hr Hh); auto.
  - rewrite Forall_forall in *. intros p Hp. specialize (HW p Hp). specialize (B3 p Hp). cbv beta in B3. split; [exact HW|]. destruct HW as (_ & _ & _ & HW). cbn [fst]. lia.
  - rewrite Forall_forall in *. intros p Hp. specialize (HR p Hp). specialize (B6 p Hp). cbv beta in B6. split; [exact HR|]. destruct HR as (_ & _ & HR & HR2). cbn [fst]. lia.
Qed.
Print Assumptions C60_ram_completes.

(** the hypotheses hold for the operations of T_sysram.v; a fair schedule of both halves *)
Definition ex_afair : nat -> aop (sparse * list call) (sparse * list rcall) := enum (fun k => if Nat.even k then BW (y_code (Nat.div2 k)) else BR (y_code (Nat.div2 k))).
Definition ex_ah : list (aop (sparse * list call) (sparse * list rcall)) := map BW (map YInit ex_ops) ++ map BR (map YInit ex_rops).
Example C60_nontrivial_rw_hyp : Forall a_nopoke ex_ah /\ Forall (write_legal 4) (a_wsubmitted ex_ah) /\ Forall (read_legal 4) (a_rsubmitted ex_ah) /\
  (forall m, a_no_issue (ex_afair m) /\ a_nopoke (ex_afair m)) /\ fair a_internal ex_afair.
Proof.
  split; [repeat constructor|]. split; [repeat constructor; cbn; try lia; try (exists 2; lia)|]. split; [repeat constructor; cbn; try lia; try (exists 2; lia)|].
  split.
  - intros m. unfold ex_afair, enum. set (k := (m - _)%nat). clearbody k. destruct (Nat.even k); cbn [a_no_issue a_nopoke].
    + destruct (y_code_ok (C := wop) (S := wslv (sparse * list call)) (Nat.div2 k)) as [K1 K2]. split; [exact K1|].
      destruct (y_code _) as [| | | | | | | | | | | | |f]; cbn; auto. now destruct (K2 f).
    + destruct (y_code_ok (C := rop) (S := rslv (sparse * list rcall)) (Nat.div2 k)) as [K1 K2]. split; [exact K1|].
      destruct (y_code _) as [| | | | | | | | | | | | |f]; cbn; auto. now destruct (K2 f).
  - apply enum_fair. intros [o|o] Ho; destruct (y_code_all o Ho) as (k & <-); [exists (2 * k)%nat|exists (S (2 * k))].
    + rewrite Nat.even_mul. cbn [Nat.even orb]. rewrite Nat.div2_double. reflexivity.
    + rewrite Nat.even_succ, Nat.odd_mul. cbn [Nat.odd Nat.even negb andb]. rewrite Nat.div2_succ_double. reflexivity.
Qed.
Example C60_nontrivial_rw :
  let '(z, l) := rw_run ex_cfg 4 4 ram_write ram_read (rw_init (sm_init 16)) (ex_ah ++ first_steps ex_afair 1500) in
  (map (fun d => fst (fst (fst (fst d)))) (xcompleted (w_outs l)), ex_show l, x_is_idle (y_m (z_w z)), x_is_idle (y_m (z_r z)), map (peek (rw_target z)) (zrange 0 16)) =
  ([1; 2; 3], [(1, Some ([2; 3; 4; 5; 6; 7], OKAY)); (2, Some ([0; 1], OKAY))], true, true, [32; 33; 1; 2; 21; 22; 23; 6; 7; 8; 9; 10; 11; 0; 0; 31]).
Proof. vm_compute. reflexivity. Qed.
