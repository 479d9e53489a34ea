(** Proofs about AxiLiteMaster - AxiLiteSlave on one byte-storing target (M_literw.v). *)
From Coq Require Import ZArith Lia List Bool.
From Coq Require Import ZifyBool ZifyNat.
From Verif Require Import Py S_flat M_axi S_axi P_axi P_axislave P_axiop P_axicomp P_axiram M_axil S_axil P_axil
  M_liteeng S_liteeng P_liteeng M_sys S_sys P_sys P_syswr P_sysrd T_sys T_sysrd S_axisys P_sysram
  M_litesys S_litesys P_litesys P_litewr P_literd T_litesys M_literw S_literw.
Import ListNotations.
Open Scope Z_scope.

Lemma lw_outs_app a b : lw_outs (a ++ b) = lw_outs a ++ lw_outs b.
Proof. apply flat_map_app. Qed.
Lemma lr_outs_app a b : lr_outs (a ++ b) = lr_outs a ++ lr_outs b.
Proof. apply flat_map_app. Qed.
Lemma lw_outs_inl l : lw_outs (map inl l) = l.
Proof. induction l as [|a l IH]; [reflexivity|]. unfold lw_outs in *. cbn. now rewrite IH. Qed.
Lemma lw_outs_inr l : lw_outs (map inr l) = [].
Proof. induction l as [|a l IH]; [reflexivity|]. unfold lw_outs in *. cbn. now rewrite IH. Qed.
Lemma lr_outs_inr l : lr_outs (map inr l) = l.
Proof. induction l as [|a l IH]; [reflexivity|]. unfold lr_outs in *. cbn. now rewrite IH. Qed.
Lemma lr_outs_inl l : lr_outs (map inl l) = [].
Proof. induction l as [|a l IH]; [reflexivity|]. unfold lr_outs in *. cbn. now rewrite IH. Qed.
Lemma map_fst_combine {X Y} (a : list X) : forall b : list Y, length b = length a -> map fst (combine a b) = a.
Proof. induction a as [|x a IH]; intros [|z b] E; try discriminate; cbn; [reflexivity|]. now rewrite IH by (injection E; auto). Qed.
Lemma calls_firstn wl n m : (n <= m)%nat -> is_prefix (calls_bytes (firstn n wl)) (calls_bytes (firstn m wl)).
Proof.
  intros H. replace n with (Nat.min n m) by lia. rewrite <- firstn_firstn. exists (calls_bytes (skipn n (firstn m wl))).
  rewrite <- calls_bytes_app. now rewrite firstn_skipn.
Qed.
Lemma firstn_le_len {X Y} (ex : list (Y * list X)) i j : (i <= j)%nat ->
  (length (concat (map snd (firstn i ex))) <= length (concat (map snd (firstn j ex))))%nat.
Proof.
  intros H. replace i with (Nat.min i j) by lia. rewrite <- firstn_firstn. rewrite <- (firstn_skipn i (firstn j ex)) at 2.
  rewrite map_app, concat_app, app_length. lia.
Qed.

Section Ram.
Context {T : Type}.
Variables (lo hi : Z) (phi : Z -> Z) (inv : T -> Prop) (view : T -> flat).
Variable tw : T -> Z -> list Z -> T * res unit.
Variable tr : T -> Z -> Z -> T * res (list Z).
Variable L : Z.
Hypothesis Hft : flat_target L lo hi phi inv view tw tr.
Hypothesis HL : 0 < L.
Hypothesis Hlo : lo mod L = 0.
Hypothesis Hhi : hi mod L = 0.
Variable t0 : T.
Hypothesis Ht0 : inv t0.

Local Notation TW := (T * list call)%type.
Local Notation TR := (T * list rcall)%type.
Local Notation step := (lx_step L (log_write tw) (log_read tr) cp_w2r cp_r2w).
Local Notation run := (lx_run L (log_write tw) (log_read tr) cp_w2r cp_r2w).
Local Notation z0 := (lrw_init t0 : lxs TW TR).

Lemma lx_run_app z h1 h2 : run z (h1 ++ h2) = let '(z1, o1) := run z h1 in let '(z2, o2) := run z1 h2 in (z2, o1 ++ o2).
Proof.
  revert z. induction h1 as [|o h1 IH]; intros z; cbn [app lx_run].
  - now destruct (run z h2).
  - destruct (step z o) as [z1 o1]. rewrite IH. destruct (run z1 h1) as [z2 o2]. destruct (run z2 h2) as [z3 o3]. now rewrite app_assoc.
Qed.

(** each half is a run of its system in which others change the target *)
Definition lpkw (f : lwslv TW -> lwslv TW) : Prop := exists g, f = lws_poke (fun tl => (g (fst tl), snd tl)).
Definition lpkr (f : lrslv TR -> lrslv TR) : Prop := exists g, f = lrs_poke (fun tl => (g (fst tl), snd tl)).
Lemma no_poke_u {C S} pk (o : uop C S) : uno_poke o -> upoke_ok pk o.
Proof. now destruct o. Qed.

Lemma lproj h : Forall lx_nopoke h -> let '(z, l) := run z0 h in
  (exists hw, Forall (upoke_ok lpkw) hw /\ lwsys_run L (log_write tw) true (t0, []) hw = (v_w z, lw_outs l)) /\
  (exists hr, Forall (upoke_ok lpkr) hr /\ lrsys_run L (log_read tr) (t0, []) hr = (v_r z, lr_outs l)).
Proof.
  induction h as [|o h IH] using rev_ind; intros Hn.
  - cbn. split; exists []; split; constructor.
  - apply Forall_app in Hn as [Hn Ho]. inversion Ho as [|? ? Ho' _]; subst. specialize (IH Hn). rewrite lx_run_app.
    destruct (run z0 h) as [z l]. destruct IH as ((hw & W1 & W2) & (hr & R1 & R2)). cbn [lx_run].
    destruct o as [o|o]; cbn [lx_step lx_nopoke] in *.
    + destruct (lwsys_step L (log_write tw) true (v_w z) o) as [w os] eqn:E. cbn [v_w v_r]. rewrite app_nil_r, lw_outs_app, lr_outs_app, lw_outs_inl, lr_outs_inl, app_nil_r. split.
      * exists (hw ++ [o]). split; [apply Forall_app; split; auto; constructor; auto; now apply no_poke_u|]. unfold lwsys_run in *. rewrite u_run_app, W2. cbn [u_run].
        unfold lwsys_step in E. rewrite E, app_nil_r. reflexivity.
      * exists (hr ++ [UPoke (lrs_poke (cp_w2r (lws_target (u_s w))))]). split.
        { apply Forall_app; split; auto. constructor; auto. cbn. exists (fun _ => fst (lws_target (u_s w))). reflexivity. }
        unfold lrsys_run in *. rewrite u_run_app, R2. cbn [u_run u_step app]. now rewrite app_nil_r.
    + destruct (lrsys_step L (log_read tr) (v_r z) o) as [r os] eqn:E. cbn [v_w v_r]. rewrite app_nil_r, lw_outs_app, lr_outs_app, lw_outs_inr, lr_outs_inr, app_nil_r. split.
      * exists (hw ++ [UPoke (lws_poke (cp_r2w (lrs_target (u_s r))))]). split.
        { apply Forall_app; split; auto. constructor; auto. cbn. exists (fun _ => fst (lrs_target (u_s r))). reflexivity. }
        unfold lwsys_run in *. rewrite u_run_app, W2. cbn [u_run u_step app]. now rewrite app_nil_r.
      * exists (hr ++ [o]). split; [apply Forall_app; split; auto; constructor; auto; now apply no_poke_u|]. unfold lrsys_run in *. rewrite u_run_app, R2. cbn [u_run].
        unfold lrsys_step in E. rewrite E, app_nil_r. reflexivity.
Qed.

(** ** one step of a half *)
Lemma lwstep_log y o : uno_poke o -> let '(y', os) := lwsys_step L (log_write tw) true y o in
  exists new, llog (u_s y') = llog (u_s y) ++ new /\ Forall (call_ok L) new /\ replays tw (fst (lws_target (u_s y))) new (fst (lws_target (u_s y'))).
Proof.
  intros Hn.
  assert (K : forall (y' : usys (Z * lwcmd) lev resp_t (lwslv TW)), u_s y' = u_s y -> exists new, llog (u_s y') = llog (u_s y) ++ new /\ Forall (call_ok L) new /\ replays tw (fst (lws_target (u_s y))) new (fst (lws_target (u_s y')))).
  { intros y' ->. exists []. rewrite app_nil_r. repeat split; auto. }
  assert (Km : forall (y1 : usys (Z * lwcmd) lev resp_t (lwslv TW)) xo, u_s y1 = u_s y -> let '(y', os) := um_step (lite_w_sends L) (lite_w_need L) y1 xo in
     exists new, llog (u_s y') = llog (u_s y) ++ new /\ Forall (call_ok L) new /\ replays tw (fst (lws_target (u_s y))) new (fst (lws_target (u_s y')))).
  { intros y1 xo E. unfold um_step. destruct (eng_step _ _ _ xo) as [m os]. apply K. exact E. }
  unfold lwsys_step. destruct o; cbn [u_step]; try (apply Km; reflexivity); try (apply K; reflexivity).
  - destruct (unext (u_m y)) as [e|]; [|apply K; reflexivity].
    destruct (q_room _); [|apply K; reflexivity]. apply Km. now destruct (lw_kind e).
  - destruct (uwaits (u_m y)), (ch_snk (u_b y)); try (apply K; reflexivity). apply Km. reflexivity.
  - apply K. now destruct k.
  - apply K. now destruct k.
  - destruct (lws_act (u_s y)) as [k|r s|s|] eqn:Ea; try (apply K; reflexivity).
    + destruct (ch_snk (ufwd y k)) as [|e q]; [apply K; reflexivity|]. cbn [u_s uset_s].
      apply (in_log tw L HL (u_s y) e). now exists k.
    + destruct (q_room _); [|apply K; reflexivity]. cbn [u_s uset_s uset_b]. exists []. rewrite app_nil_r.
      destruct (u_s y); try discriminate. injection Ea as _ <-. repeat split; auto.
    + destruct (u_s y); discriminate.
  - destruct Hn.
Qed.
Lemma lrstep_log y o : uno_poke o -> let '(y', os) := lrsys_step L (log_read tr) y o in
  exists new, lrlog (u_s y') = lrlog (u_s y) ++ new /\ (length new <= 1)%nat /\ rreplays tr (fst (lrs_target (u_s y))) new (fst (lrs_target (u_s y'))).
Proof.
  intros Hn.
  assert (K : forall (y' : usys (Z * lrcmd) lax lrd (lrslv TR)), lrs_target (u_s y') = lrs_target (u_s y) -> exists new, lrlog (u_s y') = lrlog (u_s y) ++ new /\ (length new <= 1)%nat /\ rreplays tr (fst (lrs_target (u_s y))) new (fst (lrs_target (u_s y')))).
  { intros y' E. exists []. unfold lrlog. rewrite E, app_nil_r. repeat split; auto. }
  assert (Km : forall (y1 : usys (Z * lrcmd) lax lrd (lrslv TR)) xo, u_s y1 = u_s y -> let '(y', os) := um_step (lite_r_sends L) (lite_r_need L) y1 xo in
     exists new, lrlog (u_s y') = lrlog (u_s y) ++ new /\ (length new <= 1)%nat /\ rreplays tr (fst (lrs_target (u_s y))) new (fst (lrs_target (u_s y')))).
  { intros y1 xo E. unfold um_step. destruct (eng_step _ _ _ xo) as [m os]. apply K. cbn. now rewrite E. }
  unfold lrsys_step. destruct o; cbn [u_step]; try (apply Km; reflexivity); try (apply K; reflexivity).
  - destruct (unext (u_m y)) as [e|]; [|apply K; reflexivity].
    destruct (q_room _); [|apply K; reflexivity]. apply Km. reflexivity.
  - destruct (uwaits (u_m y)), (ch_snk (u_b y)); try (apply K; reflexivity). apply Km. reflexivity.
  - apply K. now destruct k.
  - apply K. now destruct k.
  - destruct (lrs_act (log_read tr) L (u_s y)) as [k|r s|s|] eqn:Ea; try (apply K; reflexivity).
    + destruct (ch_snk (ufwd y k)) as [|e q]; [apply K; reflexivity|]. apply K. cbn [u_s uset_s]. apply lr_target_in.
    + destruct (q_room _); [|apply K; reflexivity]. apply K. cbn [u_s uset_s uset_b]. exact (lr_target_emit tr L HL _ _ _ Ea).
    + cbn [u_s uset_s]. destruct (lr_tau tr L HL _ _ Ea) as (a & t & log & E & ->). rewrite E. unfold lrlog. cbn [lrs_target fst snd]. eexists [_].
      split; [reflexivity|]. split; [auto|]. cbn. auto.
  - destruct Hn.
Qed.

(** ** snapshots: what the read calls saw *)
Definition vwl (z : lxs TW TR) : list call := llog (u_s (v_w z)).
Definition vrl (z : lxs TW TR) : list rcall := lrlog (u_s (v_r z)).
Local Notation vt := (@lrw_target T).
Definition lmem_at (wl : list call) (n : nat) : flat := put phi (view t0) (calls_bytes (firstn n wl)).
Definition lsaw (wl : list call) (n : nat) (e : rcall) : Prop :=
  (n <= length wl)%nat /\ exists d, snd e = Ok d /\ are_bytes d /\ d = map (fun x => lmem_at wl n (phi x)) (zrange (fst (fst e)) (fst (fst e) + L)).
Definition LSnap (z : lxs TW TR) (ns : list nat) : Prop :=
  fst (lrs_target (u_s (v_r z))) = vt z /\ inv (vt z) /\ view (vt z) =f put phi (view t0) (calls_bytes (vwl z)) /\
  existsb failed (vwl z) = false /\ Forall2 (lsaw (vwl z)) ns (vrl z) /\
  (forall i j a b, (i <= j)%nat -> nth_error ns i = Some a -> nth_error ns j = Some b -> (a <= b)%nat).

Definition lrc_in (e : rcall) : Prop := lo <= fst (fst e) /\ fst (fst e) + L <= hi /\ fst (fst e) mod L = 0 /\ snd (fst e) = L.

Lemma lsaw_grow wl new n e : lsaw wl n e -> lsaw (wl ++ new) n e.
Proof.
  intros (H1 & d & H2 & H3 & H4). split; [rewrite app_length; lia|]. exists d. split; auto. split; auto. unfold lmem_at in *. now rewrite firstn_app_l.
Qed.

Lemma lsnap_step z ns o : lx_nopoke o -> LSnap z ns -> let '(z', os) := step z o in
  Forall (call_ok L) (vwl z') -> Forall (fun p => lo <= fst p < hi) (calls_bytes (vwl z')) -> Forall lrc_in (vrl z') ->
  (exists new, vwl z' = vwl z ++ new) /\ (exists new, vrl z' = vrl z ++ new) /\
  exists ns', LSnap z' (ns ++ ns') /\ Forall (fun n => n = length (vwl z)) ns'.
Proof.
  intros Hn (S1 & S2 & S3 & S4 & S5 & S6). destruct o as [o|o]; cbn [lx_nopoke lx_step] in *.
  - pose proof (lwstep_log (v_w z) o Hn) as K. destruct (lwsys_step L (log_write tw) true (v_w z) o) as [w os].
    destruct K as (new & K1 & K2 & K3). unfold vwl, vrl, lrw_target in *. cbn [v_w v_r u_s uset_s]. intros _ C2 C3.
    assert (Er : lrlog (lrs_poke (cp_w2r (lws_target (u_s w))) (u_s (v_r z))) = lrlog (u_s (v_r z))) by now destruct (u_s (v_r z)).
    split; [exists new; exact K1|]. split; [exists []; now rewrite Er, app_nil_r|]. exists []. split; [|constructor]. rewrite app_nil_r.
    rewrite K1, calls_bytes_app in C2. apply Forall_app in C2 as [_ C2].
    destruct (replays_flat _ _ _ _ _ _ _ _ Hft _ _ _ S2 K2 C2 K3) as (F & I1 & V1).
    unfold LSnap, vwl, vrl, lrw_target. cbn [v_w v_r u_s uset_s]. rewrite Er, K1.
    split; [now destruct (u_s (v_r z))|]. split; [exact I1|]. split.
    { rewrite calls_bytes_app, put_app. intros x. rewrite V1. apply put_feq. exact S3. }
    split; [rewrite existsb_app, S4, F; reflexivity|]. split; [|exact S6].
    eapply forall2_impl; [|exact S5]. intros n e. apply lsaw_grow.
  - pose proof (lrstep_log (v_r z) o Hn) as K. destruct (lrsys_step L (log_read tr) (v_r z) o) as [r os].
    destruct K as (new & K1 & K2 & K3). unfold vwl, vrl, lrw_target in *. cbn [v_w v_r u_s uset_s]. intros _ _ C3.
    assert (Ew : llog (lws_poke (cp_r2w (lrs_target (u_s r))) (u_s (v_w z))) = llog (u_s (v_w z))) by now destruct (u_s (v_w z)).
    assert (Et : fst (lws_target (lws_poke (cp_r2w (lrs_target (u_s r))) (u_s (v_w z)))) = fst (lrs_target (u_s r))) by now destruct (u_s (v_w z)).
    split; [exists []; now rewrite Ew, app_nil_r|]. split; [exists new; exact K1|].
    exists (map (fun _ => length (llog (u_s (v_w z)))) new). split; [|rewrite Forall_map; apply Forall_forall; auto].
    unfold LSnap, vwl, vrl, lrw_target. cbn [v_w v_r u_s uset_s]. rewrite Ew, Et, K1. split; auto.
    assert (Hle : Forall (fun n => (n <= length (llog (u_s (v_w z))))%nat) ns).
    { eapply forall2_left; [|exact S5]. intros n e Hx. apply Hx. }
    assert (Hsort : forall k, (k <= 1)%nat -> forall i j a b, (i <= j)%nat -> nth_error (ns ++ repeat (length (llog (u_s (v_w z)))) k) i = Some a ->
       nth_error (ns ++ repeat (length (llog (u_s (v_w z)))) k) j = Some b -> (a <= b)%nat).
    { intros k Hk i j a b Hij Ha Hb. rewrite Forall_forall in Hle.
      destruct (Nat.lt_ge_cases j (length ns)) as [Hj|Hj].
      - rewrite nth_error_app1 in Ha, Hb by lia. exact (S6 i j a b Hij Ha Hb).
      - rewrite nth_error_app2 in Hb by lia. apply nth_error_In, repeat_spec in Hb. subst b.
        destruct (Nat.lt_ge_cases i (length ns)) as [Hi|Hi].
        + rewrite nth_error_app1 in Ha by lia. apply nth_error_In in Ha. now apply Hle.
        + rewrite nth_error_app2 in Ha by lia. apply nth_error_In, repeat_spec in Ha. lia. }
    destruct new as [|[[a n] rr] [|? ?]]; [| |cbn in K2; lia].
    + cbn [rreplays] in K3. rewrite K3, S1. cbn [map]. rewrite !app_nil_r. repeat (split; [assumption|]). assumption.
    + cbn [rreplays] in K3. destruct K3 as [K3 K4]. rewrite S1 in K3, K4.
      rewrite K1 in C3. apply Forall_app in C3 as [_ C3]. inversion C3 as [|? ? (D1 & D2 & D3 & D4) _]; subst. cbn [fst snd] in *. subst n.
      destruct (ft_read _ _ _ _ _ _ _ _ Hft _ a S2 D1 D2 D3) as (t' & E & I' & V'). rewrite E in *. cbn [fst snd] in *. rewrite K4.
      split; [exact I'|]. split; [intros x; rewrite V'; apply S3|]. split; [exact S4|]. split.
      * apply Forall2_app; [exact S5|]. constructor; [|constructor]. split; [lia|]. eexists. split; [reflexivity|]. split.
        { apply Forall_forall. intros b Hb. apply in_map_iff in Hb. destruct Hb as (x & <- & _). apply (ft_bytes _ _ _ _ _ _ _ _ Hft). exact S2. }
        cbn [fst]. apply map_ext. intros x. unfold lmem_at. rewrite firstn_all. apply S3.
      * cbn [map]. apply (Hsort 1%nat). lia.
Qed.

Local Notation w_in := (lwrite_in lo hi).
Local Notation r_in := (lread_in lo hi).
Local Notation vW := lwrites_of.
Local Notation vR := lreads_of.
Local Notation wmain := (fun hw H => lwsys_main tw L HL lpkw (fun f Hf => Hf) t0 hw H).
Local Notation rmain := (fun hr H => lrsys_main tr L HL lpkr (fun f Hf => Hf) t0 hr H).

(** the two systems' theorems for a run *)
Lemma lw_half h : Forall lx_nopoke h -> let '(z, l) := run z0 h in Forall w_in (vW l) ->
  Forall (call_ok L) (vwl z) /\ Forall (fun p => lo <= fst p < hi) (calls_bytes (vwl z)).
Proof.
  intros Hn. pose proof (lproj h Hn) as P. destruct (run z0 h) as [z l]. destruct P as ((hw & W1 & W2) & _). intros HW.
  pose proof (wmain hw W1) as M. cbv beta in M. rewrite W2 in M. cbv zeta in M. fold (vW l) in M.
  destruct M as (_ & ex & es & o & more & rest & sN & _ & _ & _ & M3 & [x M4] & _).
  { eapply Forall_impl; [|exact HW]. intros p (H & _); exact H. }
  pose proof (lwritten_ok _ _ _ M3) as Hok. pose proof (lwritten_range L lo hi _ _ M3) as Hrg.
  specialize (Hrg ltac:(eapply Forall_impl; [|exact HW]; intros p (_ & H); exact H)). rewrite M4 in Hok, Hrg.
  rewrite calls_bytes_app in Hrg. apply Forall_app in Hok as [Hok _]. apply Forall_app in Hrg as [Hrg _]. auto.
Qed.
Lemma lfetched_in R ex : Forall r_in R -> Forall2 (lite_fetched L) R ex -> Forall lrc_in (concat (map snd ex)).
Proof.
  intros HR HF. induction HF as [|o [rs cs] R ex (H & _) HF IH]; [constructor|]. cbn [map concat snd]. inversion HR as [|? ? (H1 & H2 & H3) HR']; subst.
  apply Forall_app. split; [|auto].
  pose proof (lite_read_calls_range L (snd o) lo hi HL H1 Hlo Hhi H2 H3) as K. rewrite <- H, Forall_map in K.
  eapply Forall_impl; [|exact K]. intros e (E1 & E2 & E3 & E4). unfold lrc_in. auto.
Qed.
Lemma lr_half h : Forall lx_nopoke h -> let '(z, l) := run z0 h in Forall r_in (vR l) -> Forall lrc_in (vrl z).
Proof.
  intros Hn. pose proof (lproj h Hn) as P. destruct (run z0 h) as [z l]. destruct P as (_ & (hr & R1 & R2)). intros HR.
  pose proof (rmain hr R1) as M. cbv beta in M. rewrite R2 in M. cbv zeta in M. fold (vR l) in M.
  destruct M as (_ & ex & es & o & more & rest & sN & _ & _ & _ & M3 & [x M4] & _).
  { eapply Forall_impl; [|exact HR]. intros p (H & _); exact H. }
  pose proof (lfetched_in _ _ HR M3) as K. rewrite M4 in K. now apply Forall_app in K.
Qed.
Lemma vW_app l1 l2 : vW (l1 ++ l2) = vW l1 ++ vW l2.
Proof. unfold lwrites_of. now rewrite lw_outs_app, started_app. Qed.
Lemma vR_app l1 l2 : vR (l1 ++ l2) = vR l1 ++ vR l2.
Proof. unfold lreads_of. now rewrite lr_outs_app, started_app. Qed.

Lemma lsnap_run h1 h2 : Forall lx_nopoke (h1 ++ h2) -> let '(z1, l1) := run z0 h1 in let '(z2, l2) := run z1 h2 in
  forall ns1, LSnap z1 ns1 -> Forall w_in (vW (l1 ++ l2)) -> Forall r_in (vR (l1 ++ l2)) ->
  (exists new, vwl z2 = vwl z1 ++ new) /\ (exists new, vrl z2 = vrl z1 ++ new) /\
  exists ns2, LSnap z2 (ns1 ++ ns2) /\ Forall (fun n => (length (vwl z1) <= n)%nat) ns2.
Proof.
  induction h2 as [|o h2 IH] using rev_ind; intros Hn.
  - cbn [lx_run]. destruct (run z0 h1) as [z1 l1]. intros ns1 HS _ _. split; [exists []; now rewrite app_nil_r|]. split; [exists []; now rewrite app_nil_r|].
    exists []. rewrite app_nil_r. auto.
  - rewrite app_assoc in Hn. pose proof (lw_half _ Hn) as KW. pose proof (lr_half _ Hn) as KR.
    apply Forall_app in Hn as [Hn Ho]. inversion Ho as [|? ? Ho' _]; subst. specialize (IH Hn).
    rewrite !lx_run_app in KW, KR. destruct (run z0 h1) as [z1 l1]. rewrite lx_run_app. destruct (run z1 h2) as [z2 l2]. cbn [lx_run] in *.
    pose proof (fun ns => lsnap_step z2 ns o Ho') as HS. destruct (step z2 o) as [z3 os]. rewrite app_nil_r in *.
    intros ns1 H1 HW HR. rewrite app_assoc in HW, HR.
    pose proof HW as HW'. rewrite vW_app in HW'. apply Forall_app in HW' as [HW' _].
    pose proof HR as HR'. rewrite vR_app in HR'. apply Forall_app in HR' as [HR' _].
    destruct (IH ns1 H1 HW' HR') as ((nw & Enw) & (nr & Enr) & ns2 & S2 & F2). specialize (HS _ S2).
    destruct (KW HW) as [C1 C2]. specialize (KR HR).
    destruct (HS C1 C2 KR) as ((nw2 & Enw2) & (nr2 & Enr2) & ns3 & S3 & F3).
    split; [exists (nw ++ nw2); rewrite Enw2, Enw, app_assoc; reflexivity|]. split; [exists (nr ++ nr2); rewrite Enr2, Enr, app_assoc; reflexivity|].
    exists (ns2 ++ ns3). rewrite app_assoc. split; [exact S3|]. apply Forall_app. split; [exact F2|].
    eapply Forall_impl; [|exact F3]. intros n ->. rewrite Enw, app_length. lia.
Qed.

Lemma lsnap0 : LSnap z0 [].
Proof.
  unfold LSnap, lrw_target, vwl, vrl. cbn. split; auto. split; auto. split; [apply feq_refl|]. split; auto. split; [constructor|]. intros [|i] j a b; discriminate.
Qed.

(** ** reads *)
Lemma lfetched_len R ex n : Forall2 (lite_fetched L) R ex ->
  length (concat (map snd (firstn n ex))) = length (flat_map (fun o => lite_read_calls L (snd o)) (firstn n R)).
Proof.
  intros HF. revert n. induction HF as [|o [rs cs] R ex (H & _) HF IH]; intros [|n]; try reflexivity.
  cbn [firstn map concat snd flat_map fst]. rewrite !app_length, IH. f_equal. rewrite <- H. now rewrite map_length.
Qed.
Lemma lsnap_le z ns : LSnap z ns -> forall i, (nth i ns (length (vwl z)) <= length (vwl z))%nat.
Proof.
  intros (_ & _ & _ & _ & S5 & _) i. pose proof (forall2_left _ (fun n => (n <= length (vwl z))%nat) _ _ (fun n e (H : lsaw (vwl z) n e) => proj1 H) S5) as Hle.
  destruct (nth_error ns i) as [n|] eqn:E.
  - rewrite (nth_error_nth _ _ _ E). rewrite Forall_forall in Hle. apply Hle. eapply nth_error_In; eauto.
  - rewrite nth_overflow; [lia|now apply nth_error_None].
Qed.
Lemma lsnap_mono z ns : LSnap z ns -> forall i j, (i <= j)%nat -> (nth i ns (length (vwl z)) <= nth j ns (length (vwl z)))%nat.
Proof.
  intros HS i j Hij. destruct (nth_error ns j) as [m|] eqn:E.
  - assert (Hi : (i < length ns)%nat). { assert (nth_error ns j <> None) by congruence. apply nth_error_Some in H. lia. }
    destruct (nth_error ns i) as [n|] eqn:E'; [|apply nth_error_None in E'; lia].
    rewrite (nth_error_nth _ _ _ E), (nth_error_nth _ _ _ E'). destruct HS as (_ & _ & _ & _ & _ & S6). exact (S6 i j n m Hij E' E).
  - rewrite (nth_overflow ns _ (proj1 (nth_error_None _ _) E)). now apply lsnap_le.
Qed.

Definition loff (ex : list (list lrd * list rcall)) (j : nat) : nat := length (concat (map snd (firstn j ex))).
Definition lpnt (R : list (Z * lrcmd)) ex (ns : list nat) (wl : list call) (j : nat) (x : Z) : list (Z * Z) :=
  match nth_error R j with
  | Some o => calls_bytes (firstn (nth (loff ex j + Z.to_nat (x / L - lr_addr (snd o) / L)) ns (length wl)) wl)
  | None => []
  end.

Lemma loff_read R ex j x : Forall r_in R -> Forall2 (lite_fetched L) R ex -> lreads_byte R j x -> forall o, nth_error R j = Some o ->
  (loff ex j + Z.to_nat (x / L - lr_addr (snd o) / L) < loff ex (S j))%nat.
Proof.
  intros HR HF (o' & E & Hx) o E'. rewrite E in E'. injection E' as <-.
  destruct (forall2_nth' _ _ _ HF _ _ E) as ([rs cs] & Ex & (Hc & _)).
  rewrite Forall_forall in HR. pose proof (HR _ (nth_error_In _ _ E)) as (Hl & _). unfold lite_read_legal in Hl.
  unfold loff. rewrite (nth_concat _ _ _ _ Ex), app_length. apply Nat.add_lt_mono_l.
  rewrite <- (map_length fst cs), Hc. unfold lite_read_calls. rewrite map_length, zrange_length.
  set (A := lr_addr (snd o')) in *. set (len := lr_len (snd o')) in *.
  assert (A / L <= x / L) by (apply Z.div_le_mono; lia).
  assert ((x + L) / L <= (A + len + L - 1) / L) by (apply Z.div_le_mono; lia).
  replace (x + L) with (x + 1 * L) in H0 by lia. rewrite Z.div_add in H0 by lia. lia.
Qed.

Theorem lram_main h1 h2 : Forall lx_nopoke (h1 ++ h2) ->
  let '(z1, l1) := run z0 h1 in let '(z, l2) := run z1 h2 in
  let l := l1 ++ l2 in let W := vW l in let R := vR l in
  Forall w_in W -> Forall r_in R ->
  exists kw kr bytes (pts : nat -> Z -> list (Z * Z)),
    (kw <= length W)%nat /\ map fst (completed (lw_outs l)) = firstn kw W /\
    Forall (fun d => lite_write_resp (snd d) = OKAY) (completed (lw_outs l)) /\
    (kr <= length R)%nat /\ map fst (completed (lr_outs l)) = firstn kr R /\
    (forall j o rs, nth_error (completed (lr_outs l)) j = Some (o, rs) -> lite_read_resp L (snd o) rs =
       (map (fun x => put phi (view t0) (pts j x) (phi x)) (zrange (lr_addr (snd o)) (lr_addr (snd o) + lr_len (snd o))), OKAY)) /\
    is_prefix bytes (lite_op_bytes W) /\ view (vt z) =f put phi (view t0) bytes /\ is_prefix (lite_op_bytes (firstn kw W)) bytes /\
    (forall j x, lreads_byte R j x -> is_prefix (pts j x) bytes) /\
    (forall j x x', lreads_byte R j x -> lreads_byte R j x' -> x / L = x' / L -> pts j x = pts j x') /\
    (forall j x j' x', lreads_byte R j x -> lreads_byte R j' x' -> ((j < j')%nat \/ j = j' /\ x <= x') -> is_prefix (pts j x) (pts j' x')) /\
    (forall j x, lreads_byte R j x -> (length (vR l1) <= j)%nat ->
       is_prefix (lite_op_bytes (map fst (completed (lw_outs l1)))) (pts j x)) /\
    (forall j x, lreads_byte R j x -> (j < length (completed (lr_outs l1)))%nat -> is_prefix (pts j x) (lite_op_bytes (vW l1))) /\
    ((forall o, lx_internal o -> step z o = (z, [])) -> bytes = lite_op_bytes W /\ kw = length W /\ kr = length R).
Proof.
  intros Hn. pose proof (lproj _ Hn) as P. pose proof (lsnap_run h1 h2 Hn) as HSR.
  pose proof Hn as Hn1. apply Forall_app in Hn1 as [Hn1 _]. pose proof (lsnap_run [] h1 Hn1) as HS1. cbn [lx_run] in HS1.
  pose proof (lproj _ Hn1) as P1. rewrite lx_run_app in P.
  destruct (run z0 h1) as [z1 l1] eqn:Erun1. destruct (run z1 h2) as [z l2] eqn:Erun2. cbn zeta. set (l := l1 ++ l2) in *.
  intros HW HR. assert (HWa : vW l = vW l1 ++ vW l2) by apply vW_app. assert (HRa : vR l = vR l1 ++ vR l2) by apply vR_app.
  assert (HW1 : Forall w_in (vW l1)) by (rewrite HWa in HW; now apply Forall_app in HW).
  assert (HR1 : Forall r_in (vR l1)) by (rewrite HRa in HR; now apply Forall_app in HR).
  destruct (HS1 [] lsnap0 HW1 HR1) as (_ & _ & ns1 & S1 & _). cbn [app] in S1.
  destruct (HSR ns1 S1 HW HR) as ((nwl & Ewl) & (nrl & Erl) & ns2 & S2 & F2). clear HSR HS1.
  set (ns := ns1 ++ ns2) in *. set (W := vW l) in *. set (R := vR l) in *.
  destruct P as ((hw & Pw1 & Pw2) & (hr & Pr1 & Pr2)). destruct P1 as ((hw1 & Pw11 & Pw12) & (hr1 & Pr11 & Pr12)).
  pose proof S2 as (T1 & T2 & T3 & T4 & T5 & T6). pose proof S1 as (U1 & U2 & U3 & U4 & U5 & U6).
  (* writes *)
  pose proof (wmain hw Pw1) as M. cbv beta in M. rewrite Pw2 in M. cbv zeta in M. fold (vW l) in M. fold W in M.
  destruct M as (_ & ex & es & o1 & more & rest & sN & _ & MT & MN & M3 & [mw M4] & (kw & Hkw & M5 & M6) & M7).
  { eapply Forall_impl; [|exact HW]. intros p (H & _); exact H. }
  fold (vwl z) in M4, M6, M7.
  assert (Fall : existsb failed (concat (map snd ex)) = false).
  { destruct (trace_replays tw L HL _ _ _ _ MT) as (mw' & K1 & K2). fold (vwl z) in K1. rewrite MN, M4 in K1. apply app_inv_head in K1. subst mw'.
    pose proof (lwritten_ok _ _ _ M3) as Hok. pose proof (lwritten_range L lo hi _ _ M3) as Hrg.
    specialize (Hrg ltac:(eapply Forall_impl; [|exact HW]; intros p (_ & H); exact H)). rewrite M4 in Hok, Hrg.
    rewrite calls_bytes_app in Hrg. apply Forall_app in Hok as [_ Hok]. apply Forall_app in Hrg as [_ Hrg].
    destruct (replays_flat _ _ _ _ _ _ _ _ Hft _ _ _ T2 Hok Hrg K2) as (F & _). rewrite M4, existsb_app, T4, F. reflexivity. }
  assert (Fpre : forall A e i, Forall2 (lite_written L) A e -> existsb failed (concat (map snd e)) = false -> calls_bytes (concat (map snd (firstn i e))) = lite_op_bytes (firstn i A)).
  { intros A e i H1 H2. apply (lwritten_bytes L); [now apply forall2_firstn|]. rewrite <- (firstn_skipn i e), map_app, concat_app, existsb_app in H2. now apply orb_false_iff in H2. }
  assert (Hlw : length ex = length W) by (symmetry; eapply forall2_len; eauto).
  (* reads *)
  pose proof (rmain hr Pr1) as N. cbv beta in N. rewrite Pr2 in N. cbv zeta in N. fold (vR l) in N. fold R in N.
  destruct N as (_ & er & esr & o2 & morer & restr & sR & _ & NT & NN & N3 & [mr N4] & (kr & Hkr & N5 & N6) & N7).
  { eapply Forall_impl; [|exact HR]. intros p (H & _); exact H. }
  fold (vrl z) in N4, N6, N7.
  assert (Hlr : length er = length R) by (symmetry; eapply forall2_len; eauto).
  set (wl := vwl z) in *.
  assert (Hlns : length ns = length (vrl z)) by (eapply forall2_len; eauto).
  assert (Hword : forall g e, nth_error (concat (map snd er)) g = Some e -> word_of L phi (lmem_at wl (nth g ns (length wl))) e).
  { intros g e Hg. rewrite N4 in Hg. destruct (Nat.lt_ge_cases g (length (vrl z))) as [Hlt|Hge].
    - rewrite nth_error_app1 in Hg by lia. destruct (forall2_nth _ _ _ T5 _ _ Hg) as (n & En & _ & Hs). rewrite (nth_error_nth _ _ _ En). exact Hs.
    - rewrite nth_error_app2 in Hg by lia. rewrite nth_overflow by lia. unfold lmem_at. rewrite firstn_all.
      destruct (lrtrace_replays tr L HL _ _ _ _ NT) as (mr' & K1 & K2). fold (vrl z) in K1. rewrite NN, N4 in K1. apply app_inv_head in K1. subst mr'. rewrite T1 in K2.
      pose proof (lfetched_in _ _ HR N3) as Hin. rewrite N4 in Hin. apply Forall_app in Hin as [_ Hin].
      pose proof (rreplays_flat _ _ _ _ _ _ _ _ Hft _ _ _ T2 Hin K2) as Hw. rewrite Forall_forall in Hw. specialize (Hw e (nth_error_In _ _ Hg)).
      destruct Hw as (d & D1 & D2 & D3). exists d. split; auto. split; auto. rewrite D3. apply map_ext. intros x. apply T3. }
  assert (Hpnt : forall j x, lreads_byte R j x -> exists o, nth_error R j = Some o /\
     lpnt R er ns wl j x = calls_bytes (firstn (nth (loff er j + Z.to_nat (x / L - lr_addr (snd o) / L)) ns (length wl)) wl) /\
     (loff er j + Z.to_nat (x / L - lr_addr (snd o) / L) < loff er (S j))%nat /\
     lr_addr (snd o) <= x).
  { intros j x Hrb. pose proof Hrb as (o & E & Hx). exists o. split; auto. split; [unfold lpnt; now rewrite E|].
    split; [exact (loff_read R er j x HR N3 Hrb o E)|]. lia. }
  exists kw, kr, (calls_bytes wl), (lpnt R er ns wl).
  split; [exact Hkw|]. split; [rewrite M5; apply map_fst_combine; rewrite !firstn_length, map_length; lia|]. split.
  { rewrite M5. apply Forall_forall. intros [o rs] Hin. apply in_combine_r in Hin. pose proof (lwritten_okay _ _ _ M3 Fall) as Hokay. rewrite Forall_forall in Hokay. cbn [snd]. apply Hokay.
    rewrite <- (firstn_skipn kw (map fst ex)). apply in_or_app. now left. }
  split; [exact Hkr|]. split; [rewrite N5; apply map_fst_combine; rewrite !firstn_length, map_length; lia|]. split.
  { intros j o rs E. rewrite N5, <- combine_firstn in E.
    assert (Hjk : (j < kr)%nat). { assert (Hne : nth_error (firstn kr (combine R (map fst er))) j <> None) by congruence. apply nth_error_Some in Hne. rewrite firstn_length in Hne. lia. }
    assert (E2 : nth_error (combine R (map fst er)) j = Some (o, rs)).
    { rewrite <- (firstn_skipn kr (combine R (map fst er))), nth_error_app1; auto. apply nth_error_Some. congruence. }
    assert (ER : nth_error R j = Some o /\ nth_error (map fst er) j = Some rs).
    { clear - E2. revert j E2. generalize (map fst er) as b. induction R as [|r0 R0 IH]; intros [|b0 b] [|j] E2; try discriminate; cbn in *; [injection E2 as <- <-; auto|now apply IH]. }
    destruct ER as [ER Ers]. destruct (forall2_nth' _ _ _ N3 _ _ ER) as ([rs' cs] & Ex & HFx).
    rewrite nth_error_map, Ex in Ers. cbn in Ers. injection Ers as ->.
    rewrite Forall_forall in HR. pose proof (HR _ (nth_error_In _ _ ER)) as (Hleg & _).
    rewrite (lfetched_mem L phi o rs cs (fun k => lmem_at wl (nth (loff er j + k) ns (length wl))) HL Hleg HFx).
    - unfold lpnt. rewrite ER. reflexivity.
    - intros k e Hk. apply Hword.
      assert (Hsp : concat (map snd er) = concat (map snd (firstn j er)) ++ cs ++ concat (map snd (skipn (S j) er))).
      { rewrite <- (firstn_skipn (S j) er) at 1. rewrite map_app, concat_app, (nth_concat _ _ _ _ Ex), <- app_assoc. reflexivity. }
      rewrite Hsp. rewrite nth_error_app2 by (unfold loff; lia). replace (loff er j + k - length (concat (map snd (firstn j er))))%nat with k by (unfold loff; lia).
      rewrite nth_error_app1; auto. apply nth_error_Some. congruence. }
  split; [exists (calls_bytes mw); rewrite <- calls_bytes_app, <- M4; symmetry; now apply (lwritten_bytes L)|].
  split; [exact T3|]. split.
  { destruct M6 as [tl Htl]. rewrite <- (Fpre W ex kw M3 Fall). exists (calls_bytes tl). rewrite Htl. apply calls_bytes_app. }
  split.
  { intros j x Hb. destruct (Hpnt j x Hb) as (o & _ & -> & _). pose proof (calls_firstn wl (nth (loff er j + Z.to_nat (x / L - lr_addr (snd o) / L)) ns (length wl)) (length wl) (lsnap_le _ _ S2 _)) as K.
    now rewrite firstn_all in K. }
  split.
  { intros j x x' Hb Hb' Hk. destruct (Hpnt j x Hb) as (o & E & -> & _). destruct (Hpnt j x' Hb') as (o' & E' & -> & _).
    rewrite E in E'. injection E' as <-. now rewrite Hk. }
  split.
  { intros j x j' x' Hb Hb' Hord. destruct (Hpnt j x Hb) as (o & E & -> & Hlt & _). destruct (Hpnt j' x' Hb') as (o' & E' & -> & Hlt' & _).
    apply calls_firstn, (lsnap_mono _ _ S2). destruct Hord as [Hj|[<- Hx]].
    - assert (Hoff : (loff er (S j) <= loff er j')%nat) by (apply firstn_le_len; exact Hj). cbv zeta in *. clear - Hlt Hoff. nodiv. lia.
    - rewrite E in E'. injection E' as <-. assert (x / L <= x' / L) by (apply Z.div_le_mono; lia). nodiv. lia. }
  split.
  { (* read after write *)
    intros j x Hb Hj. destruct (Hpnt j x Hb) as (o' & E & -> & Hlt & _).
    pose proof (wmain hw1 Pw11) as M'. cbv beta in M'. rewrite Pw12 in M'. cbv zeta in M'. fold (vW l1) in M'.
    destruct M' as (_ & ex1 & es1 & o3 & more1 & rest1 & sN1 & _ & MT1 & MN1 & M31 & [mw1 M41] & (k1 & Hk1 & M51 & M61) & _).
    { eapply Forall_impl; [|exact HW1]. intros p (H & _); exact H. }
    fold (vwl z1) in M41, M61. destruct M61 as [tl Htl].
    assert (Hl1 : length ex1 = length (vW l1)) by (symmetry; eapply forall2_len; eauto).
    assert (Hc1 : map fst (completed (lw_outs l1)) = firstn k1 (vW l1)) by (rewrite M51; apply map_fst_combine; rewrite !firstn_length, map_length; lia).
    assert (Hb1 : calls_bytes (concat (map snd (firstn k1 ex1))) = lite_op_bytes (map fst (completed (lw_outs l1)))).
    { rewrite Hc1. apply (lwritten_bytes L); [now apply forall2_firstn|]. rewrite Htl, existsb_app in U4. now apply orb_false_iff in U4. }
    assert (Hge : (length (vwl z1) <= nth (loff er j + Z.to_nat (x / L - lr_addr (snd o') / L)) ns (length wl))%nat).
    { pose proof (rmain hr1 Pr11) as N'. cbv beta in N'. rewrite Pr12 in N'. cbv zeta in N'. fold (vR l1) in N'.
      destruct N' as (_ & er1 & _ & _ & _ & _ & _ & _ & _ & _ & N31 & [mr1 N41] & _).
      { eapply Forall_impl; [|exact HR1]. intros p (H & _); exact H. }
      fold (vrl z1) in N41.
      assert (Hoff : (length (vrl z1) <= loff er j)%nat).
      { pose proof (firstn_le_len er _ _ Hj) as Hm. fold (loff er j) in Hm. rewrite (lfetched_len R er _ N3), HRa, firstn_app_l, firstn_all in Hm by lia.
        pose proof (lfetched_len _ _ (length (vR l1)) N31) as K. rewrite firstn_all in K. rewrite (forall2_len _ _ _ N31), firstn_all, N41, app_length in K. lia. }
      assert (Hln : length ns1 = length (vrl z1)) by (eapply forall2_len; eauto).
      unfold ns. rewrite app_nth2 by lia. set (q := (loff er j + _ - length ns1)%nat).
      destruct (nth_error ns2 q) as [n|] eqn:En.
      - rewrite (nth_error_nth _ _ _ En). rewrite Forall_forall in F2. apply F2. eapply nth_error_In; eauto.
      - rewrite nth_overflow by now apply nth_error_None. rewrite Ewl, app_length. lia. }
    pose proof (calls_firstn wl _ _ Hge) as [q Hq]. rewrite Hq.
    assert (Efw : firstn (length (vwl z1)) wl = vwl z1) by (rewrite Ewl, firstn_app_l by lia; apply firstn_all).
    rewrite Efw, Htl, calls_bytes_app, Hb1. exists (calls_bytes tl ++ q). now rewrite <- app_assoc. }
  split.
  { (* read before write *)
    intros j x Hb Hdn. destruct (Hpnt j x Hb) as (o & E & -> & Hlt & Hx).
    pose proof (rmain hr1 Pr11) as N'. cbv beta in N'. rewrite Pr12 in N'. cbv zeta in N'. fold (vR l1) in N'.
    destruct N' as (_ & er1 & _ & _ & _ & _ & _ & _ & _ & _ & N31 & _ & (k1 & Hk1 & N51 & [tl Htl]) & _).
    { eapply Forall_impl; [|exact HR1]. intros p (H & _); exact H. }
    fold (vrl z1) in Htl. assert (Hjk : (S j <= k1)%nat). { rewrite N51, combine_length, !firstn_length in Hdn. lia. }
    assert (Hoff : (loff er (S j) <= length (vrl z1))%nat).
    { unfold loff. rewrite (lfetched_len R er _ N3), HRa, firstn_app_l by lia. rewrite <- (lfetched_len _ _ (S j) N31), Htl, app_length.
      pose proof (firstn_le_len er1 _ _ Hjk). lia. }
    assert (Hl1 : length ns1 = length (vrl z1)) by (eapply forall2_len; eauto).
    unfold ns. rewrite app_nth1 by lia. set (q := (loff er j + _)%nat) in *. destruct (nth_error ns1 q) as [n|] eqn:En; [|apply nth_error_None in En; lia].
    rewrite (nth_error_nth _ _ _ En). destruct (forall2_nth' _ _ _ U5 _ _ En) as (e & _ & Hsn & _).
    rewrite Ewl, firstn_app_l by lia.
    pose proof (wmain hw1 Pw11) as M'. cbv beta in M'. rewrite Pw12 in M'. cbv zeta in M'. fold (vW l1) in M'.
    destruct M' as (_ & ex1 & es1 & o3 & more1 & rest1 & sN1 & _ & MT1 & MN1 & M31 & [mw1 M41] & _).
    { eapply Forall_impl; [|exact HW1]. intros p (H & _); exact H. }
    fold (vwl z1) in M41.
    assert (F1 : existsb failed (concat (map snd ex1)) = false).
    { destruct (trace_replays tw L HL _ _ _ _ MT1) as (mw' & K1 & K2). fold (vwl z1) in K1. rewrite MN1, M41 in K1. apply app_inv_head in K1. subst mw'.
      pose proof (lwritten_ok _ _ _ M31) as Hok. pose proof (lwritten_range L lo hi _ _ M31) as Hrg.
      specialize (Hrg ltac:(eapply Forall_impl; [|exact HW1]; intros p (_ & H); exact H)). rewrite M41 in Hok, Hrg.
      rewrite calls_bytes_app in Hrg. apply Forall_app in Hok as [_ Hok]. apply Forall_app in Hrg as [_ Hrg].
      destruct (replays_flat _ _ _ _ _ _ _ _ Hft _ _ _ U2 Hok Hrg K2) as (F & _). rewrite M41, existsb_app, U4, F. reflexivity. }
    rewrite <- (lwritten_bytes L _ _ M31 F1), M41, calls_bytes_app. pose proof (calls_firstn (vwl z1) n (length (vwl z1)) Hsn) as [q' Hq']. rewrite firstn_all in Hq'.
    exists (q' ++ calls_bytes mw1). rewrite Hq', <- app_assoc. reflexivity. }
  intros Hq. assert (Hqw : uquiescent (lwsys_step L (log_write tw) true) (v_w z)).
  { intros o Ho. pose proof (Hq (VW o) Ho) as K. cbn [lx_step] in K. destruct (lwsys_step L (log_write tw) true (v_w z) o) as [w os].
    injection K as K1 K2. apply map_eq_nil in K2. subst os. now rewrite <- K1. }
  assert (Hqr : uquiescent (lrsys_step L (log_read tr)) (v_r z)).
  { intros o Ho. pose proof (Hq (VR o) Ho) as K. cbn [lx_step] in K. destruct (lrsys_step L (log_read tr) (v_r z) o) as [r os].
    injection K as K1 K2. apply map_eq_nil in K2. subst os. now rewrite <- K1. }
  destruct (M7 Hqw) as (Q1 & _ & Q2). destruct (N7 Hqr) as (_ & _ & Q4). split; [rewrite Q1; now apply (lwritten_bytes L)|].
  rewrite Q2 in M5. rewrite Q4 in N5. apply (f_equal (@length _)) in M5, N5. rewrite !combine_length, !firstn_length, !map_length in M5, N5. split; lia.
Qed.
End Ram.
