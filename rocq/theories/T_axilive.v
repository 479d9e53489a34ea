(** C60: AXI operations complete under every fair schedule. *)
From Coq Require Import ZArith Lia List Bool Permutation.
From Coq Require Import ZifyBool ZifyNat.
From Verif Require Import Py S_flat M_sparse M_memory M_axi S_axi P_axi P_axislave P_axiop P_axicomp P_axiram
  M_axil M_liteeng P_liteeng M_axieng S_axieng P_axieng M_sys S_sys P_sys P_syswr P_sysrd T_sys T_sysrd
  M_litesys S_litesys S_live P_fair P_ulive P_ylive T_litelive.
Import ListNotations.
Open Scope Z_scope.

Lemma ysub_app {C S} (a b : list (yop C S)) : ysubmitted (a ++ b) = ysubmitted a ++ ysubmitted b.
Proof. unfold ysubmitted. apply flat_map_app. Qed.
Lemma ysub_none {C S} (a : list (yop C S)) : Forall yno_issue a -> ysubmitted a = [].
Proof. induction 1 as [|o a H _ IH]; [reflexivity|]. cbn [ysubmitted flat_map]. fold (ysubmitted a). rewrite IH. destruct o; cbn in *; tauto. Qed.

(** ** transfers of a command *)
Lemma mw_iter_len c t cmd cycles k st : (length (fst (mw_iter c t cmd cycles k st)) <= 2)%nat.
Proof.
  unfold mw_iter. cbv zeta. destruct (mw_strb _ _ _); [|cbn; lia]. destruct (mw_val _ _ _ _) as [[val offset]|]; [|cbn; lia].
  destruct (_ <=? _); cbn; lia.
Qed.
Lemma mw_loop_len c t cmd cycles n : forall k st, (length (fst (mw_loop c t cmd cycles n k st)) <= 2 * n)%nat.
Proof.
  induction n as [|n IH]; intros k st; cbn [mw_loop]; [cbn; lia|].
  pose proof (mw_iter_len c t cmd cycles k st) as H. destruct (mw_iter c t cmd cycles k st) as [ev [st'|e]]; cbn [fst] in *; [|lia].
  specialize (IH (k + 1) st'). destruct (mw_loop c t cmd cycles n (k + 1) st') as [ev' r']. cbn [fst] in *. rewrite app_length. lia.
Qed.
Definition wt_w (e : wev) : nat := 6%nat.
Definition swt_w (c : mcfg) (o : wop) : nat := (18 * Z.to_nat (cycles_of (wc_addr (snd o)) (zlen (wc_data (snd o))) (wc_size (snd o))))%nat.
Lemma swt_w_ok c o t : (lsum (fun e => wt_w e + 3) (w_sends c o t) <= swt_w c o)%nat.
Proof.
  assert (K : forall l : list wev, lsum (fun e => (wt_w e + 3)%nat) l = (9 * length l)%nat).
  { induction l as [|e l IH]; [reflexivity|]. rewrite lsum_cons, IH. cbn [length]. unfold wt_w. lia. }
  rewrite K. unfold w_sends, master_write, swt_w. cbv zeta.
  match goal with |- context [mw_loop c t (snd o) ?a ?n ?k ?st] => pose proof (mw_loop_len c t (snd o) a n k st) end. lia.
Qed.
Definition wt_r (a : axc) : nat := (8 * Z.to_nat (ax_len a + 1) + 1)%nat.
Definition swt_r (c : mcfg) (o : rop) : nat := lsum (fun e => (wt_r e + 3)%nat) (r_sends c o 0).
Lemma mr_loop_len c t cmd cycles n : forall k cur m b, map ax_len (mr_loop c t cmd cycles n k cur m b) = map ax_len (mr_loop c 0 cmd cycles n k cur m b).
Proof. induction n as [|n IH]; intros k cur m b; cbn [mr_loop]; [reflexivity|]. rewrite !map_app, IH. f_equal. destruct (_ <=? _); reflexivity. Qed.
Lemma swt_r_ok c o t : (lsum (fun e => wt_r e + 3) (r_sends c o t) <= swt_r c o)%nat.
Proof.
  assert (K : forall l : list axc, lsum (fun e => (wt_r e + 3)%nat) l = lsum (fun n => (8 * Z.to_nat (n + 1) + 1 + 3)%nat) (map ax_len l)).
  { intros l. unfold lsum. rewrite map_map. reflexivity. }
  unfold swt_r. rewrite !K. unfold r_sends, master_read. rewrite mr_loop_len. lia.
Qed.

(** ** completed operations *)
Lemma filter_split {A} (p : A -> bool) l : forall x r, filter p l = x :: r ->
  exists l1 l2, l = l1 ++ x :: l2 /\ filter p l1 = [] /\ filter p l2 = r /\ p x = true.
Proof.
  induction l as [|a l IH]; intros x r H; [discriminate|]. cbn [filter] in H. destruct (p a) eqn:Ea.
  - injection H as <- <-. exists [], l. auto.
  - destruct (IH x r H) as (l1 & l2 & -> & H1 & H2 & H3). exists (a :: l1), l2. cbn [filter app]. rewrite Ea. auto.
Qed.
Lemma perm_tags {C} (A : list (C * Z)) : forall D, (forall u, filter (fun p => snd p =? u) A = filter (fun p => snd p =? u) D) -> Permutation A D.
Proof.
  induction A as [|[c u] A IH]; intros D H.
  - destruct D as [|[d v] D]; [constructor|]. specialize (H v). cbn [filter snd] in H. rewrite Z.eqb_refl in H. discriminate.
  - pose proof (H u) as Hu. cbn [filter snd] in Hu. rewrite Z.eqb_refl in Hu. symmetry in Hu.
    destruct (filter_split _ _ _ _ Hu) as (D1 & D2 & -> & E1 & E2 & _). apply Permutation_cons_app, IH. intros v.
    destruct (Z.eq_dec v u) as [->|Hne].
    + rewrite filter_app, E1, E2. reflexivity.
    + specialize (H v). rewrite filter_app in *. cbn [filter snd] in H. replace (u =? v) with false in H by lia. exact H.
Qed.
Lemma assigned_fst {C} (ask : C -> option Z) idn cs : forall k, map fst (assigned ask idn k cs) = cs.
Proof. induction cs as [|c cs IH]; intros k; [reflexivity|]. cbn [assigned]. destruct (ask c); cbn [map fst]; now rewrite IH. Qed.

(** all operations of every ID have completed: the completed ones are the started ones *)
Lemma all_done {C E R X} (A : list (C * Z)) (l : list (xout C E R)) (ex : list X) (f : X -> list R) :
  length ex = length A -> (forall d, In d (xcompleted l) -> exists u, snd (fst d) = Some u) ->
  (forall u, completed_on u l = combine (with_tag u A) (map f (on_tag u A ex))) ->
  Permutation (map (fun d => fst (fst d)) (xcompleted l)) (map fst A).
Proof.
  intros Hl Ht Hc.
  pose (D := map (fun d : C * option Z * list R => (fst (fst d), match snd (fst d) with Some u => u | None => 0 end)) (xcompleted l)).
  assert (E1 : map (fun d => fst (fst d)) (xcompleted l) = map fst D) by (unfold D; rewrite map_map; reflexivity).
  rewrite E1. apply Permutation_map. symmetry. apply perm_tags. intros u.
  assert (K : forall P : list (C * Z), filter (fun p => snd p =? u) P = map (fun c => (c, u)) (map fst (filter (fun p => snd p =? u) P))).
  { intros P. rewrite map_map. induction P as [|[c v] P IH]; [reflexivity|]. cbn [filter snd]. destruct (Z.eqb_spec v u) as [->|]; [|exact IH].
    cbn [map fst]. now rewrite <- IH. }
  rewrite (K A), (K D). f_equal. change (map fst (filter (fun p => snd p =? u) A)) with (with_tag u A).
  assert (Hlen : length (with_tag u A) = length (map f (on_tag u A ex))).
  { unfold with_tag, on_tag. rewrite !map_length. clear - Hl. revert ex Hl. induction A as [|[c v] A IH]; intros [|x ex] Hl; try discriminate Hl; [reflexivity|].
    cbn [combine filter fst snd]. injection Hl as Hl. destruct (v =? u); cbn [length]; now rewrite (IH ex Hl). }
  rewrite <- (comb_fst _ _ Hlen), <- Hc. unfold completed_on, D. rewrite map_map. cbn [fst].
  assert (Hx : forall L, (forall d : C * option Z * list R, In d L -> exists u, snd (fst d) = Some u) ->
    map (fun d => fst (fst d)) (filter (fun d => match snd (fst d) with Some v => v =? u | None => false end) L) =
    map fst (filter (fun p => snd p =? u) (map (fun d => (fst (fst d), match snd (fst d) with Some u => u | None => 0 end)) L))).
  { induction L as [|d L IH]; intros HL; [reflexivity|]. cbn [map filter fst snd]. destruct (HL d (or_introl eq_refl)) as (v & Ev). rewrite Ev.
    assert (IH' := IH (fun d' H => HL d' (or_intror H))). destruct (v =? u); cbn [map fst]; now rewrite IH'. }
  apply Hx. exact Ht.
Qed.

(** C60.  AxiMaster - AxiSlave, any target (it may raise, others may change it at any time), any history h of legal INCR writes with any
    IDs, then any fair schedule without further write operations: after finitely many steps exactly the operations issued have completed, those of
    each ID in issue order and each with its own responses ([written]), all calls were made, in issue order, no assertion failed,
    the master is idle and no task or channel can run; so it stays. *)
Theorem C60_write_completes : forall T (tw : T -> Z -> list Z -> T * res unit) c idn t0 h sched, 0 < idn ->
  Forall wothers h -> Forall (write_legal (m_lanes c)) (ysubmitted h) ->
  (forall m, yno_issue (sched m) /\ wothers (sched m)) -> fair internal sched ->
  exists N, forall M, (N <= M)%nat -> let '(y, l) := wsys_run c idn (log_write tw) (m_lanes c) true (t0, []) (h ++ first_steps sched M) in
    let A := assigned op_id idn 0 (xstarted l) in
    Permutation (map (fun d => fst (fst d)) (xcompleted l)) (ysubmitted h) /\ (forall d, In d (xcompleted l) -> exists u, snd (fst d) = Some u) /\
    (exists ex, Forall2 (written c) A ex /\ (forall u, completed_on u l = combine (with_tag u A) (map fst (on_tag u A ex))) /\
       snd (ws_target (y_s y)) = concat (map snd ex)) /\
    xcrashed l = false /\ x_is_idle (y_m y) = true /\ e_idle (y_m y) = true /\
    quiescent (wsys_step c idn (log_write tw) (m_lanes c) true) y.
Proof.
  intros T tw c idn t0 h sched Hi Hh Hv Hs Hf.
  destruct (wsys_run c idn (log_write tw) (m_lanes c) true (t0, []) h) as [y0 l0] eqn:E0.
  destruct (y_completes (w_sends c) w_opens w_epat w_chk b_id op_id idn w_opens (@ws_act (T * list call)) (ws_in (log_write tw) (m_lanes c) true)
    (fun s => match s with WResp _ _ => 5%nat | _ => 0%nat end) wt_w (swt_w c)) with (sched := sched) (y := y0) as [N HN].
  - assert (K : forall s t, (match @w_beats (T * list call) s t with WResp _ _ => 5%nat | _ => 0%nat end < 6)%nat).
    { intros s t. unfold w_beats. destruct (0 <? _); lia. }
    unfold wt_w. intros s k e _. destruct s as [t|s t|b t|t], e as [a|w]; cbn; try lia.
    + destruct (sl_start (m_lanes c) a) as [s'|]; [|lia]. pose proof (K s' t). lia.
    + destruct (sw_beat _ _ _ _ _ _) as [t' [s'|e]]; [|lia]. pose proof (K s' t'). lia.
  - intros s r s' H. destruct s; try discriminate. injection H as <- <-. lia.
  - intros s s' H. destruct s; discriminate.
  - apply swt_w_ok.
  - intros m. destruct (Hs m) as (H1 & H2). destruct (sched m); cbn in *; try tauto. destruct H2 as (g & ->).
    intros s. destruct s; cbn; auto.
  - exact Hf.
  - exists N. intros M HM. specialize (HN M HM).
    assert (Ho : Forall wothers (h ++ first_steps sched M)).
    { apply Forall_app. split; auto. apply first_forall. intros m; apply Hs. }
    pose proof (C54_write_system_shared T tw c idn t0 (h ++ first_steps sched M) Hi Ho) as MM.
    unfold wsys_run in *.
    pose proof (y_submitted (w_sends c) w_opens w_epat w_chk b_id op_id idn w_opens (@ws_act (T * list call)) (ws_in (log_write tw) (m_lanes c) true)
       (h ++ first_steps sched M) (sys_init (WIdle (t0, [])))) as P.
    pose proof (axi_idle (w_sends c) w_opens w_epat w_chk b_id op_id idn w_opens (@ws_act (T * list call)) (ws_in (log_write tw) (m_lanes c) true)
       (WIdle (t0, [])) (h ++ first_steps sched M)) as D.
    rewrite y_run_app, E0 in *. destruct (y_run _ _ _ _ _ _ _ _ _ _ y0 (first_steps sched M)) as [y l1]. cbn [fst] in HN. cbv zeta in *.
    rewrite ysub_app, (ysub_none (first_steps sched M)), app_nil_r in P by (apply first_forall; intros m; apply Hs).
    cbn [sys_init y_m xeng_init e_pend] in P. rewrite app_nil_r in P.
    destruct MM as (M0 & M1 & ex & M2 & _ & _ & _ & M3).
    + rewrite P in Hv. apply Forall_app in Hv. destruct Hv as [Hv _]. apply Forall_map with (f := fst). rewrite assigned_fst. exact Hv.
    + destruct (M3 HN) as (M4 & M5 & M6). rewrite M5, app_nil_r in P.
      pose proof (all_done (assigned op_id idn 0 (xstarted (l0 ++ l1))) (l0 ++ l1) ex fst (eq_sym (F2_len _ _ _ M2)) M1 M6) as Q. rewrite assigned_fst in Q.
      split; [rewrite Q; now symmetry|]. split; [exact M1|]. split; [eauto|]. split; auto.
      destruct D as (D1 & D2); [apply Permutation_length in Q; rewrite map_length in Q; exact Q|]. split; [unfold x_is_idle; rewrite D1; reflexivity|]. split; [exact D2|exact HN].
Qed.
Print Assumptions C60_write_completes.

(** The same for reads ([fetched]: each byte as the call for its container returned it). *)
Theorem C60_read_completes : forall T (tr : T -> Z -> Z -> T * res (list Z)) c idn t0 h sched, 0 < idn ->
  Forall rothers h -> Forall (read_legal (m_lanes c)) (ysubmitted h) ->
  (forall m, yno_issue (sched m) /\ rothers (sched m)) -> fair internal sched ->
  exists N, forall M, (N <= M)%nat -> let '(y, l) := rsys_run c idn (log_read tr) (m_lanes c) (t0, []) (h ++ first_steps sched M) in
    let A := assigned op_id idn 0 (xstarted l) in
    Permutation (map (fun d => fst (fst d)) (xcompleted l)) (ysubmitted h) /\ (forall d, In d (xcompleted l) -> exists u, snd (fst d) = Some u) /\
    (exists ex, Forall2 (fetched c) A ex /\ (forall u, completed_on u l = combine (with_tag u A) (map fst (on_tag u A ex))) /\
       snd (rs_target (y_s y)) = concat (map snd ex)) /\
    xcrashed l = false /\ x_is_idle (y_m y) = true /\ e_idle (y_m y) = true /\
    quiescent (rsys_step c idn (log_read tr) (m_lanes c)) y.
Proof.
  intros T tr c idn t0 h sched Hi Hh Hv Hs Hf.
  destruct (rsys_run c idn (log_read tr) (m_lanes c) (t0, []) h) as [y0 l0] eqn:E0.
  pose (pot := fun s : rslv (T * list rcall) => match s with RRead s _ => (8 * Z.to_nat (ss_left s - 1) + 7)%nat
     | RResp _ s _ => (8 * Z.to_nat (ss_left s) + 6)%nat | _ => 0%nat end).
  assert (Kb : forall s t, (pot (r_beats s t) <= 8 * Z.to_nat (ss_left s))%nat).
  { intros s t. unfold r_beats. destruct (Z.ltb_spec 0 (ss_left s)); unfold pot; lia. }
  destruct (y_completes (r_sends c) r_opens r_epat r_chk r_id op_id idn r_kind (rs_act (log_read tr) (m_lanes c)) (@rs_in (T * list rcall) (m_lanes c))
    pot wt_r (swt_r c)) with (sched := sched) (y := y0) as [N HN].
  - intros s k e Ha. destruct s as [t|s t|r s t|t]; cbn in Ha; try discriminate; cbn [rs_in].
    + unfold wt_r. destruct (sl_start (m_lanes c) e) as [s'|] eqn:Es; [|unfold pot; lia]. pose proof (Kb s' t). unfold pot in *.
      unfold sl_start in Es. destruct (_ && _); [|discriminate]. destruct (_ && _); [discriminate|]. injection Es as <-. cbn [ss_left] in *. lia.
    + destruct (sr_beat _ _ _ _) as [[? ?] ?]. discriminate.
  - intros s r s' H. destruct s as [t|s t|r0 s t|t]; cbn in H; try discriminate; [destruct (sr_beat _ _ _ _) as [[? ?] ?]; discriminate|].
    injection H as <- <-. pose proof (Kb s t). unfold pot in *. lia.
  - intros s s' H. destruct s as [t|s t|r0 s t|t]; cbn in H; try discriminate.
    destruct (sr_beat _ _ _ _) as [[t' r] s1] eqn:Eb. injection H as <-. unfold pot.
    unfold sr_beat in Eb. destruct (log_read _ _ _ _) as [t1 r1]. destruct (match r1 with Ok d => _ | Err _ => _ end) as [data resp]. injection Eb as <- <- <-.
    cbn [ss_left]. lia.
  - apply swt_r_ok.
  - intros m. destruct (Hs m) as (H1 & H2). destruct (sched m); cbn in *; try tauto. destruct H2 as (g & ->).
    intros s. destruct s as [t|s t|r s t|t]; cbn; auto. split; auto.
    destruct (sr_beat _ _ s t) as [[? ?] ?], (sr_beat _ _ s _) as [[? ?] ?]. exact I.
  - exact Hf.
  - exists N. intros M HM. specialize (HN M HM).
    assert (Ho : Forall rothers (h ++ first_steps sched M)).
    { apply Forall_app. split; auto. apply first_forall. intros m; apply Hs. }
    pose proof (C54_read_system T tr c idn t0 (h ++ first_steps sched M) Hi Ho) as MM.
    unfold rsys_run in *.
    pose proof (y_submitted (r_sends c) r_opens r_epat r_chk r_id op_id idn r_kind (rs_act (log_read tr) (m_lanes c)) (@rs_in (T * list rcall) (m_lanes c))
       (h ++ first_steps sched M) (sys_init (RIdle (t0, [])))) as P.
    pose proof (axi_idle (r_sends c) r_opens r_epat r_chk r_id op_id idn r_kind (rs_act (log_read tr) (m_lanes c)) (@rs_in (T * list rcall) (m_lanes c))
       (RIdle (t0, [])) (h ++ first_steps sched M)) as D.
    rewrite y_run_app, E0 in *. destruct (y_run _ _ _ _ _ _ _ _ _ _ y0 (first_steps sched M)) as [y l1]. cbn [fst] in HN. cbv zeta in *.
    rewrite ysub_app, (ysub_none (first_steps sched M)), app_nil_r in P by (apply first_forall; intros m; apply Hs).
    cbn [sys_init y_m xeng_init e_pend] in P. rewrite app_nil_r in P.
    destruct MM as (M0 & M1 & ex & M2 & _ & _ & _ & M3).
    + rewrite P in Hv. apply Forall_app in Hv. destruct Hv as [Hv _]. apply Forall_map with (f := fst). rewrite assigned_fst. exact Hv.
    + destruct (M3 HN) as (M4 & M5 & M6). rewrite M5, app_nil_r in P.
      pose proof (all_done (assigned op_id idn 0 (xstarted (l0 ++ l1))) (l0 ++ l1) ex fst (eq_sym (F2_len _ _ _ M2)) M1 M6) as Q. rewrite assigned_fst in Q.
      split; [rewrite Q; now symmetry|]. split; [exact M1|]. split; [eauto|]. split; auto.
      destruct D as (D1 & D2); [apply Permutation_length in Q; rewrite map_length in Q; exact Q|]. split; [unfold x_is_idle; rewrite D1; reflexivity|]. split; [exact D2|exact HN].
Qed.
Print Assumptions C60_read_completes.

(** the hypotheses hold: a fair schedule without further operations *)
Definition ex_fair {C S} : nat -> yop C S := enum y_code.
Example C60_nontrivial_hyp : Forall (write_legal 4) (ysubmitted (map YInit ex_ops : list (yop wop (wslv (sparse * list call))))) /\
  Forall (read_legal 4) (ysubmitted (map YInit ex_rops : list (yop rop (rslv (sparse * list rcall))))) /\
  (forall m, yno_issue (ex_fair m : yop wop (wslv (sparse * list call))) /\ wothers (ex_fair m : yop wop (wslv (sparse * list call)))) /\
  (forall m, yno_issue (ex_fair m : yop rop (rslv (sparse * list rcall))) /\ rothers (ex_fair m : yop rop (rslv (sparse * list rcall)))) /\
  fair internal (ex_fair : nat -> yop wop (wslv (sparse * list call))) /\ fair internal (ex_fair : nat -> yop rop (rslv (sparse * list rcall))).
Proof.
  split; [repeat constructor; cbn; try lia; try (exists 2; lia)|]. split; [repeat constructor; cbn; try lia; try (exists 2; lia)|].
  split; [|split].
  - intros m. unfold ex_fair, enum. destruct (y_code_ok (C := wop) (S := wslv (sparse * list call)) (m - Nat.sqrt m * Nat.sqrt m)) as [K1 K2]. split; [exact K1|].
    destruct (y_code _) as [| | | | | | | | | | | | |f]; cbn; auto. now destruct (K2 f).
  - intros m. unfold ex_fair, enum. destruct (y_code_ok (C := rop) (S := rslv (sparse * list rcall)) (m - Nat.sqrt m * Nat.sqrt m)) as [K1 K2]. split; [exact K1|].
    destruct (y_code _) as [| | | | | | | | | | | | |f]; cbn; auto. now destruct (K2 f).
  - split; apply enum_fair, y_code_all.
Qed.
(** under it the example operations have completed after 600 steps, not after 200 *)
Example C60_nontrivial :
  map (fun N => let '(y, l) := wsys_run ex_cfg 4 (log_write ram_write) 4 true (sm_init 32, []) (map YInit ex_ops ++ first_steps ex_fair N) in
    (map (fun d => (fst (fst (fst (fst d))), snd (fst d), map b_resp (snd d))) (xcompleted l), e_idle (y_m y))) [200; 600]%nat =
  [([], false); ([(1, Some 0, [OKAY; OKAY; OKAY]); (2, Some 7, [OKAY]); (3, Some 1, [OKAY])], true)].
Proof. vm_compute. reflexivity. Qed.
Example C60_nontrivial_read :
  map (fun N => let '(y, l) := rsys_run ex_cfg 4 (log_read ram_read) 4 (fst (ram_write (sm_init 16) 2 [1;2;3;4;5;6;7;8;9;10]), []) (map YInit ex_rops ++ first_steps ex_fair N) in
    (map (fun d => read_returns ex_cfg (fst (fst d)) (match snd (fst d) with Some u => u | None => 0 end) (snd d)) (xcompleted l), e_idle (y_m y))) [200; 600]%nat =
  [([], false); ([Some ([2; 3; 4; 5; 6; 7], OKAY); Some ([0; 1], OKAY)], true)].
Proof. vm_compute. reflexivity. Qed.
