(** Proofs about AxiMaster - AxiSlave on one byte-storing target (M_axisys.v). *)
From Coq Require Import ZArith Lia List Bool.
From Coq Require Import ZifyBool ZifyNat.
From Verif Require Import Py S_flat M_axi S_axi P_axi P_axislave P_axiop P_axicomp P_axiram
  M_liteeng M_axieng S_axieng P_axieng P_axiattr T_axieng M_sys S_sys P_sys P_syswr P_sysrd T_sys T_sysrd M_axisys S_axisys.
Import ListNotations.
Open Scope Z_scope.

Lemma w_outs_app a b : w_outs (a ++ b) = w_outs a ++ w_outs b.
Proof. apply flat_map_app. Qed.
Lemma r_outs_app a b : r_outs (a ++ b) = r_outs a ++ r_outs b.
Proof. apply flat_map_app. Qed.
Lemma w_outs_inl l : w_outs (map inl l) = l.
Proof. induction l as [|a l IH]; [reflexivity|]. unfold w_outs in *. cbn. now rewrite IH. Qed.
Lemma w_outs_inr l : w_outs (map inr l) = [].
Proof. induction l as [|a l IH]; [reflexivity|]. unfold w_outs in *. cbn. now rewrite IH. Qed.
Lemma r_outs_inr l : r_outs (map inr l) = l.
Proof. induction l as [|a l IH]; [reflexivity|]. unfold r_outs in *. cbn. now rewrite IH. Qed.
Lemma r_outs_inl l : r_outs (map inl l) = [].
Proof. induction l as [|a l IH]; [reflexivity|]. unfold r_outs in *. cbn. now rewrite IH. Qed.

Lemma firstn_app_l {X} n (a b : list X) : (n <= length a)%nat -> firstn n (a ++ b) = firstn n a.
Proof. intros H. rewrite firstn_app. replace (n - length a)%nat with 0%nat by lia. cbn. now rewrite app_nil_r. Qed.

Lemma forall2_impl {X Y} (P Q : X -> Y -> Prop) a b : (forall x y, P x y -> Q x y) -> Forall2 P a b -> Forall2 Q a b.
Proof. intros H. induction 1; constructor; auto. Qed.
Lemma forall2_left {X Y} (P : X -> Y -> Prop) (Q : X -> Prop) a b : (forall x y, P x y -> Q x) -> Forall2 P a b -> Forall Q a.
Proof. intros H. induction 1; constructor; eauto. Qed.

(** lia without the quotients *)
Ltac nodiv := repeat match goal with
  | |- context [?a / ?b] => let q := fresh "q" in set (q := a / b) in *; clearbody q
  | H : context [?a / ?b] |- _ => let q := fresh "q" in set (q := a / b) in *; clearbody q
  end.

Section Ram.
Context {T : Type}.
Variables (lo hi : Z) (phi : Z -> Z) (inv : T -> Prop) (view : T -> flat).
Variable tw : T -> Z -> list Z -> T * res unit.
Variable tr : T -> Z -> Z -> T * res (list Z).
Variable c : mcfg.
Local Notation L := (m_lanes c).
Hypothesis Hft : flat_target L lo hi phi inv view tw tr.
Hypothesis HL : 0 < L.
Hypothesis Hlo : lo mod L = 0.
Hypothesis Hhi : hi mod L = 0.
Variables widn ridn : Z.
Hypothesis Hwi : 0 < widn.
Hypothesis Hri : 0 < ridn.
Variable t0 : T.
Hypothesis Ht0 : inv t0.

Local Notation TW := (T * list call)%type.
Local Notation TR := (T * list rcall)%type.
Local Notation step := (ax_step c widn ridn (log_write tw) (log_read tr) cp_w2r cp_r2w).
Local Notation run := (ax_run c widn ridn (log_write tw) (log_read tr) cp_w2r cp_r2w).
Local Notation z0 := (rw_init t0 : axs TW TR).

Lemma ax_run_app z h1 h2 : run z (h1 ++ h2) = let '(z1, o1) := run z h1 in let '(z2, o2) := run z1 h2 in (z2, o1 ++ o2).
Proof.
  revert z. induction h1 as [|o h1 IH]; intros z; cbn [app ax_run].
  - now destruct (run z h2).
  - destruct (step z o) as [z1 o1]. rewrite IH. destruct (run z1 h1) as [z2 o2]. destruct (run z2 h2) as [z3 o3]. now rewrite app_assoc.
Qed.

(** each half is a run of its system in which others change the target *)
Definition pkw (f : wslv TW -> wslv TW) : Prop := exists g, f = ws_poke (fun tl => (g (fst tl), snd tl)).
Definition pkr (f : rslv TR -> rslv TR) : Prop := exists g, f = rs_poke (fun tl => (g (fst tl), snd tl)).
Lemma no_poke_w {C} pk (o : yop C (wslv TW)) : no_poke o -> P_sys.poke_ok pk o.
Proof. now destruct o. Qed.
Lemma no_poke_r {C} pk (o : yop C (rslv TR)) : no_poke o -> P_sys.poke_ok pk o.
Proof. now destruct o. Qed.

Lemma proj h : Forall a_nopoke h -> let '(z, l) := run z0 h in
  (exists hw, Forall (P_sys.poke_ok pkw) hw /\ wsys_run c widn (log_write tw) L true (t0, []) hw = (z_w z, w_outs l)) /\
  (exists hr, Forall (P_sys.poke_ok pkr) hr /\ rsys_run c ridn (log_read tr) L (t0, []) hr = (z_r z, r_outs l)).
Proof.
  induction h as [|o h IH] using rev_ind; intros Hn.
  - cbn. split; exists []; split; constructor.
  - apply Forall_app in Hn as [Hn Ho]. inversion Ho as [|? ? Ho' _]; subst. specialize (IH Hn). rewrite ax_run_app.
    destruct (run z0 h) as [z l]. destruct IH as ((hw & W1 & W2) & (hr & R1 & R2)). cbn [ax_run].
    destruct o as [o|o]; cbn [ax_step a_nopoke] in *.
    + destruct (wsys_step c widn (log_write tw) L true (z_w z) o) as [w os] eqn:E. cbn [z_w z_r]. rewrite app_nil_r, w_outs_app, r_outs_app, w_outs_inl, r_outs_inl, app_nil_r. split.
      * exists (hw ++ [o]). split; [apply Forall_app; split; auto; constructor; auto; now apply no_poke_w|]. unfold wsys_run in *. rewrite y_run_app, W2. cbn [y_run].
        unfold wsys_step in E. rewrite E, app_nil_r. reflexivity.
      * exists (hr ++ [YPoke (rs_poke (cp_w2r (ws_target (y_s w))))]). split.
        { apply Forall_app; split; auto. constructor; auto. cbn. exists (fun _ => fst (ws_target (y_s w))). reflexivity. }
        unfold rsys_run in *. rewrite y_run_app, R2. cbn [y_run y_step app]. now rewrite app_nil_r.
    + destruct (rsys_step c ridn (log_read tr) L (z_r z) o) as [r os] eqn:E. cbn [z_w z_r]. rewrite app_nil_r, w_outs_app, r_outs_app, w_outs_inr, r_outs_inr, app_nil_r. split.
      * exists (hw ++ [YPoke (ws_poke (cp_r2w (rs_target (y_s r))))]). split.
        { apply Forall_app; split; auto. constructor; auto. cbn. exists (fun _ => fst (rs_target (y_s r))). reflexivity. }
        unfold wsys_run in *. rewrite y_run_app, W2. cbn [y_run y_step app]. now rewrite app_nil_r.
      * exists (hr ++ [o]). split; [apply Forall_app; split; auto; constructor; auto; now apply no_poke_r|]. unfold rsys_run in *. rewrite y_run_app, R2. cbn [y_run].
        unfold rsys_step in E. rewrite E, app_nil_r. reflexivity.
Qed.

(** ** one step of a half *)
Lemma wstep_log y o : no_poke o -> let '(y', os) := wsys_step c widn (log_write tw) L true y o in
  exists new, wlog (y_s y') = wlog (y_s y) ++ new /\ Forall (call_ok L) new /\ replays tw (fst (ws_target (y_s y))) new (fst (ws_target (y_s y'))).
Proof.
  intros Hn.
  assert (K : forall (y' : sys wop wev bch (wslv TW)), y_s y' = y_s y -> exists new, wlog (y_s y') = wlog (y_s y) ++ new /\ Forall (call_ok L) new /\ replays tw (fst (ws_target (y_s y))) new (fst (ws_target (y_s y')))).
  { intros y' ->. exists []. rewrite app_nil_r. repeat split; auto. }
  assert (Km : forall (y1 : sys wop wev bch (wslv TW)) xo, y_s y1 = y_s y -> let '(y', os) := m_step (w_sends c) w_opens w_epat w_chk b_id op_id widn y1 xo in
     exists new, wlog (y_s y') = wlog (y_s y) ++ new /\ Forall (call_ok L) new /\ replays tw (fst (ws_target (y_s y))) new (fst (ws_target (y_s y')))).
  { intros y1 xo E. unfold m_step. destruct (x_step _ _ _ _ _ _ _ _ xo) as [m os]. apply K. exact E. }
  unfold wsys_step. destruct o; cbn [y_step]; try (apply Km; reflexivity); try (apply K; reflexivity).
  - destruct (e_wtask (y_m y)); try (apply K; reflexivity). destruct (next_send (y_m y)) as [e|]; [|apply K; reflexivity].
    destruct (q_room _); [|apply K; reflexivity]. apply Km. now destruct (w_opens e).
  - destruct (e_rtask (y_m y)), (ch_snk (y_b y)); try (apply K; reflexivity). apply Km. reflexivity.
  - apply K. now destruct k.
  - apply K. now destruct k.
  - destruct (ws_act (y_s y)) as [k|r s|s|] eqn:Ea; try (apply K; reflexivity).
    + destruct (ch_snk (fwd y k)) as [|e q]; [apply K; reflexivity|]. cbn [y_s set_s].
      apply (in_log tw c (y_s y) e HL). now exists k.
    + destruct (q_room _); [|apply K; reflexivity]. cbn [y_s set_s set_b]. exists []. rewrite app_nil_r.
      destruct (y_s y); try discriminate. injection Ea as _ <-. repeat split; auto.
    + destruct (y_s y); discriminate.
  - destruct Hn.
Qed.
Lemma rstep_log y o : no_poke o -> let '(y', os) := rsys_step c ridn (log_read tr) L y o in
  exists new, rlog (y_s y') = rlog (y_s y) ++ new /\ (length new <= 1)%nat /\ rreplays tr (fst (rs_target (y_s y))) new (fst (rs_target (y_s y'))).
Proof.
  intros Hn.
  assert (K : forall (y' : sys rop axc rch (rslv TR)), rs_target (y_s y') = rs_target (y_s y) -> exists new, rlog (y_s y') = rlog (y_s y) ++ new /\ (length new <= 1)%nat /\ rreplays tr (fst (rs_target (y_s y))) new (fst (rs_target (y_s y')))).
  { intros y' E. exists []. unfold rlog. rewrite E, app_nil_r. repeat split; auto. }
  assert (Km : forall (y1 : sys rop axc rch (rslv TR)) xo, y_s y1 = y_s y -> let '(y', os) := m_step (r_sends c) r_opens r_epat r_chk r_id op_id ridn y1 xo in
     exists new, rlog (y_s y') = rlog (y_s y) ++ new /\ (length new <= 1)%nat /\ rreplays tr (fst (rs_target (y_s y))) new (fst (rs_target (y_s y')))).
  { intros y1 xo E. unfold m_step. destruct (x_step _ _ _ _ _ _ _ _ xo) as [m os]. apply K. cbn. now rewrite E. }
  unfold rsys_step. destruct o; cbn [y_step]; try (apply Km; reflexivity); try (apply K; reflexivity).
  - destruct (e_wtask (y_m y)); try (apply K; reflexivity). destruct (next_send (y_m y)) as [e|]; [|apply K; reflexivity].
    destruct (q_room _); [|apply K; reflexivity]. apply Km. reflexivity.
  - destruct (e_rtask (y_m y)), (ch_snk (y_b y)); try (apply K; reflexivity). apply Km. reflexivity.
  - apply K. now destruct k.
  - apply K. now destruct k.
  - destruct (rs_act (log_read tr) L (y_s y)) as [k|r s|s|] eqn:Ea; try (apply K; reflexivity).
    + destruct (ch_snk (fwd y k)) as [|e q]; [apply K; reflexivity|]. apply K. cbn [y_s set_s].
      destruct (y_s y) as [tl| | |]; cbn [rs_in]; auto. destruct (sl_start L e); auto. unfold r_beats. now destruct (0 <? _).
    + destruct (q_room _); [|apply K; reflexivity]. apply K. cbn [y_s set_s set_b].
      destruct (y_s y) as [tl|b tl|r' b tl|tl]; try discriminate.
      * cbn [rs_act] in Ea. destruct (sr_beat _ L b tl) as [[t' r1] s2]. discriminate.
      * injection Ea as _ <-. unfold r_beats. now destruct (0 <? _).
    + cbn [y_s set_s]. destruct (rlog_tau tr c _ _ Ea) as (e & E1 & E2). exists [e]. auto.
  - destruct Hn.
Qed.

(** ** snapshots: what the read calls saw *)
Definition zwl (z : axs TW TR) : list call := wlog (y_s (z_w z)).
Definition zrl (z : axs TW TR) : list rcall := rlog (y_s (z_r z)).
Local Notation zt := (@rw_target T).
Definition mem_at (wl : list call) (n : nat) : flat := put phi (view t0) (calls_bytes (firstn n wl)).
Definition saw (wl : list call) (n : nat) (e : rcall) : Prop :=
  (n <= length wl)%nat /\ exists d, snd e = Ok d /\ are_bytes d /\ d = map (fun x => mem_at wl n (phi x)) (zrange (fst (fst e)) (fst (fst e) + L)).
Definition Snap (z : axs TW TR) (ns : list nat) : Prop :=
  fst (rs_target (y_s (z_r z))) = zt z /\ inv (zt z) /\ view (zt z) =f put phi (view t0) (calls_bytes (zwl z)) /\
  existsb failed (zwl z) = false /\ Forall2 (saw (zwl z)) ns (zrl z) /\
  (forall i j a b, (i <= j)%nat -> nth_error ns i = Some a -> nth_error ns j = Some b -> (a <= b)%nat).

Definition rc_in (e : rcall) : Prop := lo <= fst (fst e) /\ fst (fst e) + L <= hi /\ fst (fst e) mod L = 0 /\ snd (fst e) = L.

Lemma saw_grow wl new n e : saw wl n e -> saw (wl ++ new) n e.
Proof.
  intros (H1 & d & H2 & H3 & H4). split; [rewrite app_length; lia|]. exists d. split; auto. split; auto. unfold mem_at in *. now rewrite firstn_app_l.
Qed.

Lemma snap_step z ns o : a_nopoke o -> Snap z ns -> let '(z', os) := step z o in
  Forall (call_ok L) (zwl z') -> Forall (fun p => lo <= fst p < hi) (calls_bytes (zwl z')) -> Forall rc_in (zrl z') ->
  (exists new, zwl z' = zwl z ++ new) /\ (exists new, zrl z' = zrl z ++ new) /\
  exists ns', Snap z' (ns ++ ns') /\ Forall (fun n => n = length (zwl z)) ns'.
Proof.
  intros Hn (S1 & S2 & S3 & S4 & S5 & S6). destruct o as [o|o]; cbn [a_nopoke ax_step] in *.
  - pose proof (wstep_log (z_w z) o Hn) as K. destruct (wsys_step c widn (log_write tw) L true (z_w z) o) as [w os].
    destruct K as (new & K1 & K2 & K3). unfold zwl, zrl, rw_target in *. cbn [z_w z_r y_s set_s]. intros _ C2 C3.
    assert (Er : rlog (rs_poke (cp_w2r (ws_target (y_s w))) (y_s (z_r z))) = rlog (y_s (z_r z))) by now destruct (y_s (z_r z)).
    split; [exists new; exact K1|]. split; [exists []; now rewrite Er, app_nil_r|]. exists []. split; [|constructor]. rewrite app_nil_r.
    rewrite K1, calls_bytes_app in C2. apply Forall_app in C2 as [_ C2].
    destruct (replays_flat _ _ _ _ _ _ _ _ Hft _ _ _ S2 K2 C2 K3) as (F & I1 & V1).
    unfold Snap, zwl, zrl, rw_target. cbn [z_w z_r y_s set_s]. rewrite Er, K1.
    split; [now destruct (y_s (z_r z))|]. split; [exact I1|]. split.
    { rewrite calls_bytes_app, put_app. intros x. rewrite V1. apply put_feq. exact S3. }
    split; [rewrite existsb_app, S4, F; reflexivity|]. split; [|exact S6].
    eapply forall2_impl; [|exact S5]. intros n e. apply saw_grow.
  - pose proof (rstep_log (z_r z) o Hn) as K. destruct (rsys_step c ridn (log_read tr) L (z_r z) o) as [r os].
    destruct K as (new & K1 & K2 & K3). unfold zwl, zrl, rw_target in *. cbn [z_w z_r y_s set_s]. intros _ _ C3.
    assert (Ew : wlog (ws_poke (cp_r2w (rs_target (y_s r))) (y_s (z_w z))) = wlog (y_s (z_w z))) by now destruct (y_s (z_w z)).
    assert (Et : fst (ws_target (ws_poke (cp_r2w (rs_target (y_s r))) (y_s (z_w z)))) = fst (rs_target (y_s r))) by now destruct (y_s (z_w z)).
    split; [exists []; now rewrite Ew, app_nil_r|]. split; [exists new; exact K1|].
    exists (map (fun _ => length (wlog (y_s (z_w z)))) new). split; [|rewrite Forall_map; apply Forall_forall; auto].
    unfold Snap, zwl, zrl, rw_target. cbn [z_w z_r y_s set_s]. rewrite Ew, Et, K1. split; auto.
    assert (Hle : Forall (fun n => (n <= length (wlog (y_s (z_w z))))%nat) ns).
    { eapply forall2_left; [|exact S5]. intros n e Hx. apply Hx. }
    assert (Hsort : forall k, (k <= 1)%nat -> forall i j a b, (i <= j)%nat -> nth_error (ns ++ repeat (length (wlog (y_s (z_w z)))) k) i = Some a ->
       nth_error (ns ++ repeat (length (wlog (y_s (z_w z)))) k) j = Some b -> (a <= b)%nat).
    { intros k Hk i j a b Hij Ha Hb. rewrite Forall_forall in Hle.
      destruct (Nat.lt_ge_cases j (length ns)) as [Hj|Hj].
      - rewrite nth_error_app1 in Ha, Hb by lia. exact (S6 i j a b Hij Ha Hb).
      - rewrite nth_error_app2 in Hb by lia. apply nth_error_In, repeat_spec in Hb. subst b.
        destruct (Nat.lt_ge_cases i (length ns)) as [Hi|Hi].
        + rewrite nth_error_app1 in Ha by lia. apply nth_error_In in Ha. now apply Hle.
        + rewrite nth_error_app2 in Ha by lia. apply nth_error_In, repeat_spec in Ha. lia. }
    destruct new as [|[[a n] rr] [|? ?]]; [| |cbn in K2; lia].
    + cbn [rreplays] in K3. rewrite K3, S1. cbn [map]. rewrite !app_nil_r. repeat (split; [assumption|]). assumption.
    + cbn [rreplays] in K3. destruct K3 as [K3 K4]. rewrite S1 in K3, K4.
      rewrite K1 in C3. apply Forall_app in C3 as [_ C3]. inversion C3 as [|? ? (D1 & D2 & D3 & D4) _]; subst. cbn [fst snd] in *. subst n.
      destruct (ft_read _ _ _ _ _ _ _ _ Hft _ a S2 D1 D2 D3) as (t' & E & I' & V'). rewrite E in *. cbn [fst snd] in *. rewrite K4.
      split; [exact I'|]. split; [intros x; rewrite V'; apply S3|]. split; [exact S4|]. split.
      * apply Forall2_app; [exact S5|]. constructor; [|constructor]. split; [lia|]. eexists. split; [reflexivity|]. split.
        { apply Forall_forall. intros b Hb. apply in_map_iff in Hb. destruct Hb as (x & <- & _). apply (ft_bytes _ _ _ _ _ _ _ _ Hft). exact S2. }
        cbn [fst]. apply map_ext. intros x. unfold mem_at. rewrite firstn_all. apply S3.
      * cbn [map]. apply (Hsort 1%nat). lia.
Qed.

Local Notation w_in := (write_in L lo hi).
Local Notation r_in := (read_in L lo hi).
Local Notation zW := (writes_of widn).
Local Notation zR := (reads_of ridn).

(** the two systems' theorems for a run *)
Lemma w_half h : Forall a_nopoke h -> let '(z, l) := run z0 h in Forall w_in (zW l) ->
  Forall (call_ok L) (zwl z) /\ Forall (fun p => lo <= fst p < hi) (calls_bytes (zwl z)).
Proof.
  intros Hn. pose proof (proj h Hn) as P. destruct (run z0 h) as [z l]. destruct P as ((hw & W1 & W2) & _). intros HW.
  pose proof (wsys_main tw c pkw (fun f H => H) widn Hwi t0 hw W1) as M. rewrite W2 in M. cbv zeta in M. fold (zW l : list (wop * Z)) in M.
  destruct M as (_ & _ & ex & es & o & more & rest & sN & _ & _ & _ & _ & M3 & [x M4] & _).
  { eapply Forall_impl; [|exact HW]. intros p (H & _); exact H. }
  pose proof (written_ok _ _ _ M3) as Hok. pose proof (written_range c lo hi _ _ M3) as Hrg.
  specialize (Hrg ltac:(eapply Forall_impl; [|exact HW]; intros p (_ & H); exact H)). rewrite M4 in Hok, Hrg.
  rewrite calls_bytes_app in Hrg. apply Forall_app in Hok as [Hok _]. apply Forall_app in Hrg as [Hrg _]. auto.
Qed.
Lemma fetched_in R ex : Forall r_in R -> Forall2 (fetched c) R ex -> Forall rc_in (concat (map snd ex)).
Proof.
  intros HR HF. induction HF as [|[o u] [rs cs] R ex (_ & H & _) HF IH]; [constructor|]. cbn [map concat snd]. inversion HR as [|? ? (H1 & H2 & H3) HR']; subst.
  apply Forall_app. split; [|auto]. cbn [fst snd] in *. destruct H1 as (HG & _ & HA & Hl).
  pose proof (read_calls_range L (snd o) lo hi HG HA Hl Hlo Hhi H2 H3) as K. rewrite <- H, Forall_map in K.
  eapply Forall_impl; [|exact K]. intros e (E1 & E2 & E3 & E4). unfold rc_in. auto.
Qed.
Lemma r_half h : Forall a_nopoke h -> let '(z, l) := run z0 h in Forall r_in (zR l) -> Forall rc_in (zrl z).
Proof.
  intros Hn. pose proof (proj h Hn) as P. destruct (run z0 h) as [z l]. destruct P as (_ & (hr & R1 & R2)). intros HR.
  pose proof (rsys_main tr c pkr (fun f H => H) ridn Hri t0 hr R1) as M. rewrite R2 in M. cbv zeta in M. fold (zR l : list (rop * Z)) in M.
  destruct M as (_ & _ & ex & es & o & more & rest & sN & _ & _ & _ & _ & M3 & [x M4] & _).
  { eapply Forall_impl; [|exact HR]. intros p (H & _); exact H. }
  pose proof (fetched_in _ _ HR M3) as K. rewrite M4 in K. now apply Forall_app in K.
Qed.
Lemma zW_app l1 l2 : exists w, zW (l1 ++ l2) = zW l1 ++ w.
Proof. unfold writes_of. rewrite w_outs_app, xstarted_app. apply assigned_app. Qed.
Lemma zR_app l1 l2 : exists w, zR (l1 ++ l2) = zR l1 ++ w.
Proof. unfold reads_of. rewrite r_outs_app, xstarted_app. apply assigned_app. Qed.

Lemma snap_run h1 h2 : Forall a_nopoke (h1 ++ h2) -> let '(z1, l1) := run z0 h1 in let '(z2, l2) := run z1 h2 in
  forall ns1, Snap z1 ns1 -> Forall w_in (zW (l1 ++ l2)) -> Forall r_in (zR (l1 ++ l2)) ->
  (exists new, zwl z2 = zwl z1 ++ new) /\ (exists new, zrl z2 = zrl z1 ++ new) /\
  exists ns2, Snap z2 (ns1 ++ ns2) /\ Forall (fun n => (length (zwl z1) <= n)%nat) ns2.
Proof.
  induction h2 as [|o h2 IH] using rev_ind; intros Hn.
  - cbn [ax_run]. destruct (run z0 h1) as [z1 l1]. intros ns1 HS _ _. split; [exists []; now rewrite app_nil_r|]. split; [exists []; now rewrite app_nil_r|].
    exists []. rewrite app_nil_r. auto.
  - rewrite app_assoc in Hn. pose proof (w_half _ Hn) as KW. pose proof (r_half _ Hn) as KR.
    apply Forall_app in Hn as [Hn Ho]. inversion Ho as [|? ? Ho' _]; subst. specialize (IH Hn).
    rewrite !ax_run_app in KW, KR. destruct (run z0 h1) as [z1 l1]. rewrite ax_run_app. destruct (run z1 h2) as [z2 l2]. cbn [ax_run] in *.
    pose proof (fun ns => snap_step z2 ns o Ho') as HS. destruct (step z2 o) as [z3 os]. rewrite app_nil_r in *.
    intros ns1 H1 HW HR. rewrite app_assoc in HW, HR.
    destruct (zW_app (l1 ++ l2) os) as [w Hw]. destruct (zR_app (l1 ++ l2) os) as [r Hr].
    pose proof HW as HW'. rewrite Hw in HW'. apply Forall_app in HW' as [HW' _].
    pose proof HR as HR'. rewrite Hr in HR'. apply Forall_app in HR' as [HR' _].
    destruct (IH ns1 H1 HW' HR') as ((nw & Enw) & (nr & Enr) & ns2 & S2 & F2). specialize (HS _ S2).
    destruct (KW HW) as [C1 C2]. specialize (KR HR).
    destruct (HS C1 C2 KR) as ((nw2 & Enw2) & (nr2 & Enr2) & ns3 & S3 & F3).
    split; [exists (nw ++ nw2); rewrite Enw2, Enw, app_assoc; reflexivity|]. split; [exists (nr ++ nr2); rewrite Enr2, Enr, app_assoc; reflexivity|].
    exists (ns2 ++ ns3). rewrite app_assoc. split; [exact S3|]. apply Forall_app. split; [exact F2|].
    eapply Forall_impl; [|exact F3]. intros n ->. rewrite Enw, app_length. lia.
Qed.

Lemma snap0 : Snap z0 [].
Proof.
  unfold Snap, rw_target, zwl, zrl. cbn. split; auto. split; auto. split; [apply feq_refl|]. split; auto. split; [constructor|]. intros [|i] j a b; discriminate.
Qed.

(** ** reads *)
Lemma nth_concat {X Y} (ex : list (Y * list X)) j rs cs : nth_error ex j = Some (rs, cs) ->
  concat (map snd (firstn (S j) ex)) = concat (map snd (firstn j ex)) ++ cs.
Proof.
  revert j. induction ex as [|x ex IH]; intros [|j] H; try discriminate.
  - injection H as ->. cbn. now rewrite app_nil_r.
  - cbn [nth_error] in H. rewrite !firstn_cons. cbn [map concat].
    rewrite (IH j H), app_assoc. reflexivity.
Qed.
Lemma fetched_len R ex n : Forall2 (fetched c) R ex ->
  length (concat (map snd (firstn n ex))) = length (flat_map (fun p => read_calls L (snd (fst p))) (firstn n R)).
Proof.
  intros HF. revert n. induction HF as [|[o u] [rs cs] R ex (_ & H & _) HF IH]; intros [|n]; try reflexivity.
  cbn [firstn map concat snd flat_map fst]. rewrite !app_length, IH. f_equal. rewrite <- H. now rewrite map_length.
Qed.

Lemma snap_le z ns : Snap z ns -> forall i, (nth i ns (length (zwl z)) <= length (zwl z))%nat.
Proof.
  intros (_ & _ & _ & _ & S5 & _) i. pose proof (forall2_left _ (fun n => (n <= length (zwl z))%nat) _ _ (fun n e (H : saw (zwl z) n e) => proj1 H) S5) as Hle.
  destruct (nth_error ns i) as [n|] eqn:E.
  - rewrite (nth_error_nth _ _ _ E). rewrite Forall_forall in Hle. apply Hle. eapply nth_error_In; eauto.
  - rewrite nth_overflow; [lia|now apply nth_error_None].
Qed.
Lemma snap_mono z ns : Snap z ns -> forall i j, (i <= j)%nat -> (nth i ns (length (zwl z)) <= nth j ns (length (zwl z)))%nat.
Proof.
  intros HS i j Hij. destruct (nth_error ns j) as [m|] eqn:E.
  - assert (Hi : (i < length ns)%nat). { assert (nth_error ns j <> None) by congruence. apply nth_error_Some in H. lia. }
    destruct (nth_error ns i) as [n|] eqn:E'; [|apply nth_error_None in E'; lia].
    rewrite (nth_error_nth _ _ _ E), (nth_error_nth _ _ _ E'). destruct HS as (_ & _ & _ & _ & _ & S6). exact (S6 i j n m Hij E' E).
  - rewrite (nth_overflow ns _ (proj1 (nth_error_None _ _) E)). now apply snap_le.
Qed.
Lemma calls_firstn wl n m : (n <= m)%nat -> is_prefix (calls_bytes (firstn n wl)) (calls_bytes (firstn m wl)).
Proof.
  intros H. replace n with (Nat.min n m) by lia. rewrite <- firstn_firstn. exists (calls_bytes (skipn n (firstn m wl))).
  rewrite <- calls_bytes_app. now rewrite firstn_skipn.
Qed.
Lemma forall2_nth {X Y} (P : X -> Y -> Prop) a b : Forall2 P a b -> forall i y, nth_error b i = Some y -> exists x, nth_error a i = Some x /\ P x y.
Proof. induction 1; intros [|i] y0 E; try discriminate; cbn in *; eauto. injection E as <-; eauto. Qed.
Lemma forall2_nth' {X Y} (P : X -> Y -> Prop) a b : Forall2 P a b -> forall i x, nth_error a i = Some x -> exists y, nth_error b i = Some y /\ P x y.
Proof. induction 1; intros [|i] y0 E; try discriminate; cbn in *; eauto. injection E as <-; eauto. Qed.
Lemma forall2_len {X Y} (P : X -> Y -> Prop) a b : Forall2 P a b -> length a = length b.
Proof. induction 1; cbn; congruence. Qed.
Lemma forall2_firstn {X Y} (P : X -> Y -> Prop) a b : Forall2 P a b -> forall i, Forall2 P (firstn i a) (firstn i b).
Proof. induction 1; intros [|i]; cbn; constructor; auto. Qed.
Lemma firstn_le_len {X Y} (ex : list (Y * list X)) i j : (i <= j)%nat ->
  (length (concat (map snd (firstn i ex))) <= length (concat (map snd (firstn j ex))))%nat.
Proof.
  intros H. replace i with (Nat.min i j) by lia. rewrite <- firstn_firstn. rewrite <- (firstn_skipn i (firstn j ex)) at 2.
  rewrite map_app, concat_app, app_length. lia.
Qed.

Definition off (ex : list (list rch * list rcall)) (j : nat) : nat := length (concat (map snd (firstn j ex))).
Definition pnt (R : list (rop * Z)) ex (ns : list nat) (wl : list call) (j : nat) (x : Z) : list (Z * Z) :=
  match nth_error R j with
  | Some (o, _) => calls_bytes (firstn (nth (off ex j + Z.to_nat (x / 2 ^ rc_size (snd o) - rc_addr (snd o) / 2 ^ rc_size (snd o))) ns (length wl)) wl)
  | None => []
  end.

Lemma off_read R ex j x k : Forall r_in R -> Forall2 (fetched c) R ex -> reads_byte R j x k -> forall o u, nth_error R j = Some (o, u) ->
  (off ex j + Z.to_nat (x / 2 ^ rc_size (snd o) - rc_addr (snd o) / 2 ^ rc_size (snd o)) < off ex (S j))%nat.
Proof.
  intros HR HF (o' & u' & E & Hx & _) o u E'. rewrite E in E'. injection E' as <- <-.
  destruct (forall2_nth' _ _ _ HF _ _ E) as ([rs cs] & Ex & (_ & Hc & _)).
  rewrite Forall_forall in HR. pose proof (HR _ (nth_error_In _ _ E)) as ((HG & _ & HA & Hl) & _). cbn [fst snd] in *.
  destruct (bus_ok_facts _ _ HG) as (q & p & Hnb & _). unfold off. rewrite (nth_concat _ _ _ _ Ex), app_length. apply Nat.add_lt_mono_l.
  rewrite <- (map_length fst cs), Hc. unfold read_calls. rewrite map_length, zrange_length.
  set (nb := 2 ^ rc_size (snd o')) in *. set (A := rc_addr (snd o')) in *. set (len := rc_len (snd o')) in *.
  assert (A / nb <= x / nb) by (apply Z.div_le_mono; lia).
  assert ((x + nb) / nb <= (A + len + nb - 1) / nb) by (apply Z.div_le_mono; lia).
  replace (x + nb) with (x + 1 * nb) in H0 by lia. rewrite Z.div_add in H0 by lia. lia.
Qed.

Theorem ram_main h1 h2 : Forall a_nopoke (h1 ++ h2) ->
  let '(z1, l1) := run z0 h1 in let '(z, l2) := run z1 h2 in
  let l := l1 ++ l2 in let W := zW l in let R := zR l in
  Forall w_in W -> Forall r_in R ->
  exists wrss rrss bytes (pts : nat -> Z -> list (Z * Z)),
    Forall2 (fun p rs => Forall (fun b => b_id b = snd p) rs /\ write_returns c (fst p) (snd p) rs = Some OKAY) W wrss /\
    length rrss = length R /\
    (forall j o u, nth_error R j = Some (o, u) -> exists rs, nth_error rrss j = Some rs /\ Forall (fun r => r_id r = u) rs /\
       read_returns c o u rs = Some (map (fun x => put phi (view t0) (pts j x) (phi x)) (zrange (rc_addr (snd o)) (rc_addr (snd o) + rc_len (snd o))), OKAY)) /\
    is_prefix bytes (op_bytes_of W) /\ view (zt z) =f put phi (view t0) bytes /\
    (forall j x k, reads_byte R j x k -> is_prefix (pts j x) bytes) /\
    (forall j x x' k, reads_byte R j x k -> reads_byte R j x' k -> pts j x = pts j x') /\
    (forall j x k j' x' k', reads_byte R j x k -> reads_byte R j' x' k' -> ((j < j')%nat \/ j = j' /\ x <= x') -> is_prefix (pts j x) (pts j' x')) /\
    (forall i o u j x k, nth_error (zW l1) i = Some (o, u) -> wc_data (snd o) <> [] -> done_at (zW l1) (w_outs l1) i u ->
       reads_byte R j x k -> (length (zR l1) <= j)%nat -> is_prefix (op_bytes_of (firstn (S i) W)) (pts j x)) /\
    (forall j o u x k, nth_error (zR l1) j = Some (o, u) -> done_at (zR l1) (r_outs l1) j u -> reads_byte R j x k ->
       is_prefix (pts j x) (op_bytes_of (zW l1))) /\
    (forall u, exists k, (k <= length (with_tag u W))%nat /\
       completed_on u (w_outs l) = combine (firstn k (with_tag u W)) (firstn k (on_tag u W wrss))) /\
    (forall u, exists k, (k <= length (with_tag u R))%nat /\
       completed_on u (r_outs l) = combine (firstn k (with_tag u R)) (firstn k (on_tag u R rrss))) /\
    (forall i o u, nth_error W i = Some (o, u) -> wc_data (snd o) <> [] -> done_at W (w_outs l) i u -> is_prefix (op_bytes_of (firstn (S i) W)) bytes) /\
    ((forall o, a_internal o -> step z o = (z, [])) -> bytes = op_bytes_of W /\
       (forall u, completed_on u (w_outs l) = combine (with_tag u W) (on_tag u W wrss)) /\
       (forall u, completed_on u (r_outs l) = combine (with_tag u R) (on_tag u R rrss))).
Proof.
  intros Hn. pose proof (proj _ Hn) as P. pose proof (snap_run h1 h2 Hn) as HSR.
  pose proof Hn as Hn1. apply Forall_app in Hn1 as [Hn1 _]. pose proof (snap_run [] h1 Hn1) as HS1. cbn [ax_run] in HS1.
  pose proof (proj _ Hn1) as P1. rewrite ax_run_app in P.
  destruct (run z0 h1) as [z1 l1] eqn:Erun1. destruct (run z1 h2) as [z l2] eqn:Erun2. cbn zeta. set (l := l1 ++ l2) in *.
  intros HW HR. destruct (zW_app l1 l2) as [W' HWa]. destruct (zR_app l1 l2) as [R' HRa]. fold l in HWa, HRa.
  assert (HW1 : Forall w_in (zW l1)) by (rewrite HWa in HW; now apply Forall_app in HW).
  assert (HR1 : Forall r_in (zR l1)) by (rewrite HRa in HR; now apply Forall_app in HR).
  destruct (HS1 [] snap0 HW1 HR1) as (_ & _ & ns1 & S1 & _). cbn [app] in S1.
  destruct (HSR ns1 S1 HW HR) as ((nwl & Ewl) & (nrl & Erl) & ns2 & S2 & F2). clear HSR HS1.
  set (ns := ns1 ++ ns2) in *. set (W := zW l) in *. set (R := zR l) in *.
  destruct P as ((hw & Pw1 & Pw2) & (hr & Pr1 & Pr2)). destruct P1 as ((hw1 & Pw11 & Pw12) & (hr1 & Pr11 & Pr12)).
  pose proof S2 as (T1 & T2 & T3 & T4 & T5 & T6). pose proof S1 as (U1 & U2 & U3 & U4 & U5 & U6).
  (* writes *)
  pose proof (wsys_main tw c pkw (fun f H => H) widn Hwi t0 hw Pw1) as M. rewrite Pw2 in M. cbv zeta in M. fold (zW l : list (wop * Z)) in M. fold W in M.
  destruct M as (_ & _ & ex & es & o1 & more & rest & sN & _ & _ & MT & MN & M3 & [mw M4] & M5 & M6 & M7).
  { eapply Forall_impl; [|exact HW]. intros p (H & _); exact H. }
  fold (zwl z) in M4, M6, M7.
  assert (Fall : existsb failed (concat (map snd ex)) = false).
  { destruct (trace_replays tw c _ _ _ _ HL MT) as (mw' & K1 & K2). fold (zwl z) in K1. rewrite MN, M4 in K1. apply app_inv_head in K1. subst mw'.
    pose proof (written_ok _ _ _ M3) as Hok. pose proof (written_range c lo hi _ _ M3) as Hrg.
    specialize (Hrg ltac:(eapply Forall_impl; [|exact HW]; intros p (_ & H); exact H)). rewrite M4 in Hok, Hrg.
    rewrite calls_bytes_app in Hrg. apply Forall_app in Hok as [_ Hok]. apply Forall_app in Hrg as [_ Hrg].
    destruct (replays_flat _ _ _ _ _ _ _ _ Hft _ _ _ T2 Hok Hrg K2) as (F & _). rewrite M4, existsb_app, T4, F. reflexivity. }
  assert (Fpre : forall A e i, Forall2 (written c) A e -> existsb failed (concat (map snd e)) = false -> calls_bytes (concat (map snd (firstn i e))) = op_bytes_of (firstn i A)).
  { intros A e i H1 H2. apply (written_bytes c); [now apply forall2_firstn|]. rewrite <- (firstn_skipn i e), map_app, concat_app, existsb_app in H2. now apply orb_false_iff in H2. }
  assert (Hlw : length ex = length W) by (symmetry; eapply forall2_len; eauto).
  assert (Honw : forall u, on_tag u W (map fst ex) = map fst (on_tag u W ex)) by (intros u; rewrite <- combine_on_tag by auto; reflexivity).
  (* reads *)
  pose proof (rsys_main tr c pkr (fun f H => H) ridn Hri t0 hr Pr1) as N. rewrite Pr2 in N. cbv zeta in N. fold (zR l : list (rop * Z)) in N. fold R in N.
  destruct N as (_ & _ & er & esr & o2 & morer & restr & sR & _ & _ & NT & NN & N3 & [mr N4] & N5 & N6 & N7).
  { eapply Forall_impl; [|exact HR]. intros p (H & _); exact H. }
  fold (zrl z) in N4, N6, N7.
  assert (Hlr : length er = length R) by (symmetry; eapply forall2_len; eauto).
  assert (Honr : forall u, on_tag u R (map fst er) = map fst (on_tag u R er)) by (intros u; rewrite <- combine_on_tag by auto; reflexivity).
  set (wl := zwl z) in *.
  assert (Hlns : length ns = length (zrl z)) by (eapply forall2_len; eauto).
  assert (Hword : forall g e, nth_error (concat (map snd er)) g = Some e -> word_of L phi (mem_at wl (nth g ns (length wl))) e).
  { intros g e Hg. rewrite N4 in Hg. destruct (Nat.lt_ge_cases g (length (zrl z))) as [Hlt|Hge].
    - rewrite nth_error_app1 in Hg by lia. destruct (forall2_nth _ _ _ T5 _ _ Hg) as (n & En & _ & Hs). rewrite (nth_error_nth _ _ _ En). exact Hs.
    - rewrite nth_error_app2 in Hg by lia. rewrite nth_overflow by lia. unfold mem_at. rewrite firstn_all.
      destruct (rtrace_replays tr c _ _ _ _ NT) as (mr' & K1 & K2). fold (zrl z) in K1. rewrite NN, N4 in K1. apply app_inv_head in K1. subst mr'. rewrite T1 in K2.
      pose proof (fetched_in _ _ HR N3) as Hin. rewrite N4 in Hin. apply Forall_app in Hin as [_ Hin].
      pose proof (rreplays_flat _ _ _ _ _ _ _ _ Hft _ _ _ T2 Hin K2) as Hw. rewrite Forall_forall in Hw. specialize (Hw e (nth_error_In _ _ Hg)).
      destruct Hw as (d & D1 & D2 & D3). exists d. split; auto. split; auto. rewrite D3. apply map_ext. intros x. apply T3. }
  assert (Hpnt : forall j x k, reads_byte R j x k -> exists o u, nth_error R j = Some (o, u) /\
     pnt R er ns wl j x = calls_bytes (firstn (nth (off er j + Z.to_nat (x / 2 ^ rc_size (snd o) - rc_addr (snd o) / 2 ^ rc_size (snd o))) ns (length wl)) wl) /\
     (off er j + Z.to_nat (x / 2 ^ rc_size (snd o) - rc_addr (snd o) / 2 ^ rc_size (snd o)) < off er (S j))%nat /\
     rc_addr (snd o) <= x /\ 0 < 2 ^ rc_size (snd o) /\ k = x / 2 ^ rc_size (snd o)).
  { intros j x k Hrb. pose proof Hrb as (o & u & E & Hx & Hk). exists o, u. split; auto. split; [unfold pnt; now rewrite E|].
    split; [exact (off_read R er j x k HR N3 Hrb o u E)|]. split; [(nodiv; lia)|]. split; auto.
    rewrite Forall_forall in HR. pose proof (HR _ (nth_error_In _ _ E)) as ((HG & _) & _). destruct (bus_ok_facts _ _ HG) as (q & p & Hnb & _). exact Hnb. }
  exists (map fst ex), (map fst er), (calls_bytes wl), (pnt R er ns wl).
  split; [now apply written_okay|]. split; [now rewrite map_length|]. split.
  { intros j o u E. destruct (forall2_nth' _ _ _ N3 _ _ E) as ([rs cs] & Ex & HFx). exists rs. split; [erewrite map_nth_error; eauto; reflexivity|].
    split; [apply HFx|]. rewrite Forall_forall in HR. pose proof (HR _ (nth_error_In _ _ E)) as (Hleg & _). cbn [fst] in Hleg.
    rewrite (fetched_mem c phi o u rs cs (fun k => mem_at wl (nth (off er j + k) ns (length wl))) Hleg HFx).
    - unfold pnt. rewrite E. reflexivity.
    - intros k e Hk. apply Hword.
      assert (Hsp : concat (map snd er) = concat (map snd (firstn j er)) ++ cs ++ concat (map snd (skipn (S j) er))).
      { rewrite <- (firstn_skipn (S j) er) at 1. rewrite map_app, concat_app, (nth_concat _ _ _ _ Ex), <- app_assoc. reflexivity. }
      rewrite Hsp. rewrite nth_error_app2 by (unfold off; lia). replace (off er j + k - length (concat (map snd (firstn j er))))%nat with k by (unfold off; lia).
      rewrite nth_error_app1; auto. apply nth_error_Some. congruence. }
  split; [exists (calls_bytes mw); rewrite <- calls_bytes_app, <- M4; symmetry; now apply (written_bytes c)|].
  split; [exact T3|]. split.
  { intros j x k Hb. destruct (Hpnt j x k Hb) as (o & u & _ & -> & _). pose proof (calls_firstn wl (nth (off er j + Z.to_nat (x / 2 ^ rc_size (snd o) - rc_addr (snd o) / 2 ^ rc_size (snd o))) ns (length wl)) (length wl) (snap_le _ _ S2 _)) as K.
    now rewrite firstn_all in K. }
  split.
  { intros j x x' k Hb Hb'. destruct (Hpnt j x k Hb) as (o & u & E & -> & _ & _ & _ & ->). destruct (Hpnt j x' _ Hb') as (o' & u' & E' & -> & _ & _ & _ & Hk).
    rewrite E in E'. injection E' as <- <-. now rewrite Hk. }
  split.
  { intros j x k j' x' k' Hb Hb' Hord. destruct (Hpnt j x k Hb) as (o & u & E & -> & Hlt & _ & Hnb & ->). destruct (Hpnt j' x' _ Hb') as (o' & u' & E' & -> & Hlt' & _ & _ & Hk).
    apply calls_firstn, (snap_mono _ _ S2). destruct Hord as [Hj|[<- Hx]].
    - assert (Hoff : (off er (S j) <= off er j')%nat) by (apply firstn_le_len; exact Hj). cbv zeta in *. clear - Hlt Hoff. (nodiv; lia).
    - rewrite E in E'. injection E' as <- <-. assert (x / 2 ^ rc_size (snd o) <= x' / 2 ^ rc_size (snd o)) by (apply Z.div_le_mono; lia). (nodiv; lia). }
  split.
  { (* read after write *)
    intros i o u j x k Hi Hd Hdn Hb Hj. destruct (Hpnt j x k Hb) as (o' & u' & E & -> & Hlt & _ & Hnb & ->).
    pose proof (wsys_main tw c pkw (fun f H => H) widn Hwi t0 hw1 Pw11) as M'. rewrite Pw12 in M'. cbv zeta in M'. fold (zW l1 : list (wop * Z)) in M'.
    destruct M' as (_ & _ & ex1 & es1 & o3 & more1 & rest1 & sN1 & _ & _ & MT1 & MN1 & M31 & [mw1 M41] & _ & M61 & _).
    { eapply Forall_impl; [|exact HW1]. intros p (H & _); exact H. }
    fold (zwl z1) in M41, M61. destruct (M61 i o u Hi Hd Hdn) as [tl Htl].
    assert (Hb1 : calls_bytes (concat (map snd (firstn (S i) ex1))) = op_bytes_of (firstn (S i) W)).
    { rewrite (written_bytes c (firstn (S i) (zW l1))).
      - rewrite HWa, firstn_app_l; auto. assert (Hlt1 : nth_error (zW l1) i <> None) by congruence. apply nth_error_Some in Hlt1. (nodiv; lia).
      - now apply forall2_firstn.
      - rewrite Htl, existsb_app in U4. now apply orb_false_iff in U4. }
    assert (Hge : (length (zwl z1) <= nth (off er j + Z.to_nat (x / 2 ^ rc_size (snd o') - rc_addr (snd o') / 2 ^ rc_size (snd o'))) ns (length wl))%nat).
    { pose proof (rsys_main tr c pkr (fun f H => H) ridn Hri t0 hr1 Pr11) as N'. rewrite Pr12 in N'. cbv zeta in N'. fold (zR l1 : list (rop * Z)) in N'.
      destruct N' as (_ & _ & er1 & _ & _ & _ & _ & _ & _ & _ & _ & _ & N31 & [mr1 N41] & _).
      { eapply Forall_impl; [|exact HR1]. intros p (H & _); exact H. }
      fold (zrl z1) in N41.
      assert (Hoff : (length (zrl z1) <= off er j)%nat).
      { pose proof (firstn_le_len er _ _ Hj) as Hm. fold (off er j) in Hm. rewrite (fetched_len R er _ N3), HRa, firstn_app_l, firstn_all in Hm by lia.
        pose proof (fetched_len _ _ (length (zR l1)) N31) as K. rewrite firstn_all in K. rewrite (forall2_len _ _ _ N31), firstn_all, N41, app_length in K. (nodiv; lia). }
      assert (Hl1 : length ns1 = length (zrl z1)) by (eapply forall2_len; eauto).
      unfold ns. rewrite app_nth2 by lia. set (q := (off er j + _ - length ns1)%nat).
      destruct (nth_error ns2 q) as [n|] eqn:En.
      - rewrite (nth_error_nth _ _ _ En). rewrite Forall_forall in F2. apply F2. eapply nth_error_In; eauto.
      - rewrite nth_overflow by now apply nth_error_None. rewrite Ewl, app_length. (nodiv; lia). }
    pose proof (calls_firstn wl _ _ Hge) as [q Hq]. rewrite Hq. 
    assert (Efw : firstn (length (zwl z1)) wl = zwl z1) by (rewrite Ewl, firstn_app_l by lia; apply firstn_all).
    rewrite Efw, Htl, calls_bytes_app, Hb1. exists (calls_bytes tl ++ q). now rewrite <- app_assoc. }
  split.
  { (* read before write *)
    intros j o u x k Hi Hdn Hb. destruct (Hpnt j x k Hb) as (o' & u' & E & -> & Hlt & Hx & Hnb & ->).
    assert (Hjl : (j < length (zR l1))%nat) by (apply nth_error_Some; congruence).
    assert (o' = o /\ u' = u) as [-> ->] by (rewrite HRa, nth_error_app1 in E by lia; rewrite E in Hi; injection Hi as <- <-; auto).
    pose proof (rsys_main tr c pkr (fun f H => H) ridn Hri t0 hr1 Pr11) as N'. rewrite Pr12 in N'. cbv zeta in N'. fold (zR l1 : list (rop * Z)) in N'.
    destruct N' as (_ & _ & er1 & _ & _ & _ & _ & _ & _ & _ & _ & _ & N31 & _ & _ & N61 & _).
    { eapply Forall_impl; [|exact HR1]. intros p (H & _); exact H. }
    fold (zrl z1) in N61. assert (Hln : rc_len (snd o) <> 0). { destruct Hb as (o'' & u'' & E'' & Hx'' & _). rewrite E in E''. injection E'' as <- <-. (nodiv; lia). }
    destruct (N61 j o u Hi Hln Hdn) as [tl Htl].
    assert (Hoff : (off er (S j) <= length (zrl z1))%nat).
    { unfold off. rewrite (fetched_len R er _ N3), HRa, firstn_app_l by lia. rewrite <- (fetched_len _ _ (S j) N31), Htl, app_length. (nodiv; lia). }
    assert (Hl1 : length ns1 = length (zrl z1)) by (eapply forall2_len; eauto).
    unfold ns. rewrite app_nth1 by lia. set (q := (off er j + _)%nat) in *. destruct (nth_error ns1 q) as [n|] eqn:En; [|apply nth_error_None in En; lia].
    rewrite (nth_error_nth _ _ _ En). destruct (forall2_nth' _ _ _ U5 _ _ En) as (e & _ & Hsn & _).
    rewrite Ewl, firstn_app_l by lia.
    pose proof (wsys_main tw c pkw (fun f H => H) widn Hwi t0 hw1 Pw11) as M'. rewrite Pw12 in M'. cbv zeta in M'. fold (zW l1 : list (wop * Z)) in M'.
    destruct M' as (_ & _ & ex1 & es1 & o3 & more1 & rest1 & sN1 & _ & _ & MT1 & MN1 & M31 & [mw1 M41] & _).
    { eapply Forall_impl; [|exact HW1]. intros p (H & _); exact H. }
    fold (zwl z1) in M41.
    assert (F1 : existsb failed (concat (map snd ex1)) = false).
    { destruct (trace_replays tw c _ _ _ _ HL MT1) as (mw' & K1 & K2). fold (zwl z1) in K1. rewrite MN1, M41 in K1. apply app_inv_head in K1. subst mw'.
      pose proof (written_ok _ _ _ M31) as Hok. pose proof (written_range c lo hi _ _ M31) as Hrg.
      specialize (Hrg ltac:(eapply Forall_impl; [|exact HW1]; intros p (_ & H); exact H)). rewrite M41 in Hok, Hrg.
      rewrite calls_bytes_app in Hrg. apply Forall_app in Hok as [_ Hok]. apply Forall_app in Hrg as [_ Hrg].
      destruct (replays_flat _ _ _ _ _ _ _ _ Hft _ _ _ U2 Hok Hrg K2) as (F & _). rewrite M41, existsb_app, U4, F. reflexivity. }
    rewrite <- (written_bytes c _ _ M31 F1), M41, calls_bytes_app. pose proof (calls_firstn (zwl z1) n (length (zwl z1)) Hsn) as [q' Hq']. rewrite firstn_all in Hq'.
    exists (q' ++ calls_bytes mw1). rewrite Hq', <- app_assoc. reflexivity. }
  split; [intros u; rewrite Honw; apply M5|]. split; [intros u; rewrite Honr; apply N5|]. split.
  { intros i o u Hi Hd Hdn. destruct (M6 i o u Hi Hd Hdn) as [tl Htl]. rewrite <- (Fpre W ex (S i) M3 Fall). exists (calls_bytes tl). rewrite Htl. apply calls_bytes_app. }
  intros Hq. assert (Hqw : quiescent (wsys_step c widn (log_write tw) L true) (z_w z)).
  { intros o Ho. pose proof (Hq (BW o) Ho) as K. cbn [ax_step] in K. destruct (wsys_step c widn (log_write tw) L true (z_w z) o) as [w os].
    injection K as K1 K2. apply map_eq_nil in K2. subst os. now rewrite <- K1. }
  assert (Hqr : quiescent (rsys_step c ridn (log_read tr) L) (z_r z)).
  { intros o Ho. pose proof (Hq (BR o) Ho) as K. cbn [ax_step] in K. destruct (rsys_step c ridn (log_read tr) L (z_r z) o) as [r os].
    injection K as K1 K2. apply map_eq_nil in K2. subst os. now rewrite <- K1. }
  destruct (M7 Hqw) as (Q1 & _ & Q2). destruct (N7 Hqr) as (_ & _ & Q4). split; [rewrite Q1; now apply (written_bytes c)|].
  split; intros u; [rewrite Honw; apply Q2|rewrite Honr; apply Q4].
Qed.
End Ram.
