(** An AXI port on a memory that others change: every schedule (P_mport.v has the general part). *)
From Coq Require Import ZArith Lia List Bool.
From Coq Require Import ZifyBool ZifyNat.
From Verif Require Import Py S_flat M_axi S_axi P_axi P_axislave P_axiop P_axicomp P_axiram M_axil S_axil P_axil
  M_liteeng S_liteeng P_liteeng M_axieng S_axieng P_axieng P_axiattr T_axieng M_sys S_sys P_sys P_syswr P_sysrd T_sys T_sysrd M_axisys S_axisys P_sysram
  M_litesys S_litesys P_litesys P_litewr P_literd T_litesys M_literw S_literw P_literw M_mport S_mport P_mport.
Import ListNotations.
Open Scope Z_scope.

Definition a_pokeb {TW TR} (o : aop TW TR) : bool := match o with BW (YPoke _) => true | BR (YPoke _) => true | _ => false end.
Definition a_env {T} (o : aop (T * list call) (T * list rcall)) : Prop :=
  match o with BW (YPoke f) => exists g, f = ws_poke (cp_up g) | BR (YPoke _) => False | _ => True end.
Lemma firstn_snoc {X} (h : list X) k o : nth_error h k = Some o -> firstn (S k) h = firstn k h ++ [o].
Proof. revert k. induction h as [|x h IH]; intros [|k] E; try discriminate; [injection E as ->; reflexivity|]. cbn [nth_error] in E. cbn [firstn app]. f_equal. now apply IH. Qed.

Section Axi.
Context {T : Type}.
Variables (lo hi : Z) (phi : Z -> Z) (inv : T -> Prop) (view : T -> flat).
Variable tw : T -> Z -> list Z -> T * res unit.
Variable tr : T -> Z -> Z -> T * res (list Z).
Variable c : mcfg.
Local Notation L := (m_lanes c).
Hypothesis Hft : flat_target L lo hi phi inv view tw tr.
Hypothesis HL : 0 < L.
Hypothesis Hlo : lo mod L = 0.
Hypothesis Hhi : hi mod L = 0.
Variables widn ridn : Z.
Hypothesis Hwi : 0 < widn.
Hypothesis Hri : 0 < ridn.
Variable t0 : T.
Hypothesis Ht0 : inv t0.

Local Notation TW := (T * list call)%type.
Local Notation TR := (T * list rcall)%type.
Local Notation step := (ax_step c widn ridn (log_write tw) (log_read tr) cp_w2r cp_r2w).
Local Notation run := (ax_run c widn ridn (log_write tw) (log_read tr) cp_w2r cp_r2w).
Local Notation z0 := (rw_init t0 : axs TW TR).
Local Notation zW := (writes_of widn).
Local Notation zR := (reads_of ridn).

Lemma env_w (o : yop wop (wslv TW)) : a_env (BW o : aop TW TR) -> P_sys.poke_ok pkw o.
Proof. destruct o; cbn; auto. Qed.
Lemma env_r (o : yop rop (rslv TR)) : a_env (BR o : aop TW TR) -> P_sys.poke_ok pkr o.
Proof. destruct o; cbn; tauto. Qed.

Lemma eproj h : Forall a_env h -> let '(z, l) := run z0 h in
  (exists hw, Forall (P_sys.poke_ok pkw) hw /\ wsys_run c widn (log_write tw) L true (t0, []) hw = (z_w z, w_outs l)) /\
  (exists hr, Forall (P_sys.poke_ok pkr) hr /\ rsys_run c ridn (log_read tr) L (t0, []) hr = (z_r z, r_outs l)) /\
  fst (rs_target (y_s (z_r z))) = rw_target z.
Proof.
  induction h as [|o h IH] using rev_ind; intros Hn.
  - cbn. split; [exists []; split; constructor|]. split; [exists []; split; constructor|reflexivity].
  - apply Forall_app in Hn as [Hn Ho]. inversion Ho as [|? ? Ho' _]; subst. specialize (IH Hn). rewrite ax_run_app.
    destruct (run z0 h) as [z l]. destruct IH as ((hw & W1 & W2) & (hr & R1 & R2) & HS). cbn [ax_run].
    destruct o as [o|o]; cbn [ax_step] in *.
    + destruct (wsys_step c widn (log_write tw) L true (z_w z) o) as [w os] eqn:E. cbn [z_w z_r]. rewrite app_nil_r, w_outs_app, r_outs_app, w_outs_inl, r_outs_inl, app_nil_r. split; [|split].
      * exists (hw ++ [o]). split; [apply Forall_app; split; auto; constructor; auto; now apply env_w|]. unfold wsys_run in *. rewrite y_run_app, W2. cbn [y_run].
        unfold wsys_step in E. rewrite E, app_nil_r. reflexivity.
      * exists (hr ++ [YPoke (rs_poke (cp_w2r (ws_target (y_s w))))]). split.
        { apply Forall_app; split; auto. constructor; auto. cbn. exists (fun _ => fst (ws_target (y_s w))). reflexivity. }
        unfold rsys_run in *. rewrite y_run_app, R2. cbn [y_run y_step app]. now rewrite app_nil_r.
      * unfold rw_target. cbn [z_w z_r y_s set_s]. now destruct (y_s (z_r z)).
    + destruct (rsys_step c ridn (log_read tr) L (z_r z) o) as [r os] eqn:E. cbn [z_w z_r]. rewrite app_nil_r, w_outs_app, r_outs_app, w_outs_inr, r_outs_inr, app_nil_r. split; [|split].
      * exists (hw ++ [YPoke (ws_poke (cp_r2w (rs_target (y_s r))))]). split.
        { apply Forall_app; split; auto. constructor; auto. cbn. exists (fun _ => fst (rs_target (y_s r))). reflexivity. }
        unfold wsys_run in *. rewrite y_run_app, W2. cbn [y_run y_step app]. now rewrite app_nil_r.
      * exists (hr ++ [o]). split; [apply Forall_app; split; auto; constructor; auto; now apply env_r|]. unfold rsys_run in *. rewrite y_run_app, R2. cbn [y_run].
        unfold rsys_step in E. rewrite E, app_nil_r. reflexivity.
      * unfold rw_target. cbn [z_w z_r y_s set_s]. now destruct (y_s (z_w z)).
Qed.

Variable h : list (aop TW TR).
Hypothesis Hh : Forall a_env h.
Local Notation n := (length h).
Definition Zk (k : nat) : axs TW TR := fst (run z0 (firstn k h)).
Definition lk (k : nat) : list aout := snd (run z0 (firstn k h)).
Definition ownk (k : nat) : bool := match nth_error h k with Some o => negb (a_pokeb o) | None => false end.
Hypothesis Henv : forall k, (k < n)%nat -> ownk k = false -> inv (rw_target (Zk k)) -> inv (rw_target (Zk (S k))).
Hypothesis HW : Forall (write_in L lo hi) (zW (lk n)).
Hypothesis HR : Forall (read_in L lo hi) (zR (lk n)).

Lemma hk k : Forall a_env (firstn k h).
Proof. rewrite <- (firstn_skipn k h) in Hh. now apply Forall_app in Hh. Qed.
Lemma run_S k o : nth_error h k = Some o -> run z0 (firstn (S k) h) = (fst (step (Zk k) o), lk k ++ snd (step (Zk k) o)).
Proof.
  intros E. rewrite (firstn_snoc _ _ _ E), ax_run_app. unfold Zk, lk. destruct (run z0 (firstn k h)) as [z l]. cbn [ax_run fst snd].
  destruct (step z o) as [z' os]. now rewrite app_nil_r.
Qed.
Lemma lk_app k k' : (k <= k')%nat -> exists d, lk k' = lk k ++ d.
Proof.
  intros H. assert (E : firstn k' h = firstn k h ++ skipn k (firstn k' h)).
  { rewrite <- (firstn_skipn k (firstn k' h)) at 1. rewrite firstn_firstn. f_equal. f_equal. lia. }
  unfold lk. rewrite E, ax_run_app. destruct (run z0 (firstn k h)) as [z l]. destruct (run z _) as [z' l']. now exists l'.
Qed.
Lemma W_pre k k' : (k <= k')%nat -> is_prefix (zW (lk k)) (zW (lk k')).
Proof. intros H. destruct (lk_app k k' H) as [d ->]. destruct (zW_app widn (lk k) d) as [w ->]. now exists w. Qed.
Lemma R_pre k k' : (k <= k')%nat -> is_prefix (zR (lk k)) (zR (lk k')).
Proof. intros H. destruct (lk_app k k' H) as [d ->]. destruct (zR_app ridn (lk k) d) as [w ->]. now exists w. Qed.
Lemma HWk k : (k <= n)%nat -> Forall (write_in L lo hi) (zW (lk k)).
Proof. intros H. destruct (W_pre k n H) as [d E]. rewrite E in HW. now apply Forall_app in HW. Qed.
Lemma HRk k : (k <= n)%nat -> Forall (read_in L lo hi) (zR (lk k)).
Proof. intros H. destruct (R_pre k n H) as [d E]. rewrite E in HR. now apply Forall_app in HR. Qed.
Lemma sync k : fst (rs_target (y_s (z_r (Zk k)))) = rw_target (Zk k).
Proof. pose proof (eproj _ (hk k)) as P. unfold Zk. destruct (run z0 (firstn k h)) as [z l]. apply P. Qed.

Local Notation tgt := (fun k => rw_target (Zk k)).
Local Notation wl := (fun k => zwl (Zk k)).
Local Notation rl := (fun k => zrl (Zk k)).


(** ** the steps *)
Lemma steps k : (k < n)%nat -> env_step inv tgt wl rl ownk k \/ w_step L tw tgt wl rl ownk k \/ r_step tr tgt wl rl ownk k.
Proof.
  intros Hk. destruct (nth_error h k) as [o|] eqn:E; [|apply nth_error_None in E; lia].
  assert (Ho : a_env o) by (rewrite Forall_forall in Hh; apply Hh; eapply nth_error_In; eauto).
  pose proof (run_S k o E) as HRS. assert (EZ : Zk (S k) = fst (step (Zk k) o)) by (unfold Zk at 1; now rewrite HRS).
  pose proof (sync k) as HS. pose proof (Henv k Hk) as He. unfold env_step, w_step, r_step. rewrite EZ in He |- *. unfold ownk in He |- *. rewrite E in He |- *. clear HRS EZ. destruct o as [o|o].
  - assert (Er : forall w : sys wop wev bch (wslv TW), rlog (rs_poke (cp_w2r (ws_target (y_s w))) (y_s (z_r (Zk k)))) = rlog (y_s (z_r (Zk k)))) by (intros w; now destruct (y_s (z_r (Zk k)))).
    destruct (a_pokeb (BW o : aop TW TR)) eqn:Ep.
    + left. destruct o; try discriminate. cbn in Ho. destruct Ho as [g ->]. split; [reflexivity|]. split; [|split; [|apply He; reflexivity]].
      * unfold zwl. cbn. now destruct (y_s (z_w (Zk k))).
      * unfold zrl. cbn [ax_step wsys_step y_step fst z_r y_s set_s]. now destruct (y_s (z_r (Zk k))).
    + right. left. assert (Hn : no_poke o) by now destruct o. split; [reflexivity|]. pose proof (wstep_log tw c HL widn (z_w (Zk k)) o Hn) as K. cbn [ax_step].
      destruct (wsys_step c widn (log_write tw) L true (z_w (Zk k)) o) as [w os]. cbn [fst]. unfold zrl, zwl, rw_target. cbn [z_w z_r y_s set_s].
      split; [apply Er|exact K].
  - right. right. assert (Hn : no_poke o) by now destruct o. assert (Ep : a_pokeb (BR o : aop TW TR) = false) by now destruct o. rewrite Ep. split; [reflexivity|].
    pose proof (rstep_log tr c ridn (z_r (Zk k)) o Hn) as K. cbn [ax_step].
    destruct (rsys_step c ridn (log_read tr) L (z_r (Zk k)) o) as [r os]. cbn [fst]. unfold zrl, zwl, rw_target. cbn [z_w z_r y_s set_s].
    assert (Ew : wlog (ws_poke (cp_r2w (rs_target (y_s r))) (y_s (z_w (Zk k)))) = wlog (y_s (z_w (Zk k)))) by now destruct (y_s (z_w (Zk k))).
    assert (Et : fst (ws_target (ws_poke (cp_r2w (rs_target (y_s r))) (y_s (z_w (Zk k))))) = fst (rs_target (y_s r))) by now destruct (y_s (z_w (Zk k))).
    rewrite Ew, Et. split; [reflexivity|]. rewrite HS in K. exact K.
Qed.
Lemma start : inv (tgt 0%nat) /\ wl 0%nat = [] /\ rl 0%nat = [].
Proof. split; [exact Ht0|]. split; reflexivity. Qed.

(** ** the two halves at moment k *)
Definition Wmain (k : nat) ex mw : Prop := let W := zW (lk k) in
    Forall2 (written c) W ex /\ concat (map snd ex) = zwl (Zk k) ++ mw /\
    (exists es rest sN, strace w_opens ws_act (ws_in (log_write tw) L true) nopk (y_s (z_w (Zk k))) es rest sN /\ wlog sN = concat (map snd ex)) /\
    (forall u, exists m, (m <= length (with_tag u W))%nat /\
       completed_on u (w_outs (lk k)) = combine (firstn m (with_tag u W)) (firstn m (map fst (on_tag u W ex)))) /\
    (forall i o u, nth_error W i = Some (o, u) -> wc_data (snd o) <> [] ->
       (length (with_tag u (firstn i W)) < length (completed_on u (w_outs (lk k))))%nat ->
       is_prefix (concat (map snd (firstn (S i) ex))) (zwl (Zk k))) /\
    (quiescent (wsys_step c widn (log_write tw) L true) (z_w (Zk k)) -> forall u, completed_on u (w_outs (lk k)) = combine (with_tag u W) (map fst (on_tag u W ex))).
Lemma w_main k : (k <= n)%nat -> exists ex mw, Wmain k ex mw.
Proof.
  intros Hk. pose proof (eproj _ (hk k)) as P. unfold Wmain. pose proof (HWk k Hk) as HW'. unfold Zk, lk in *. destruct (run z0 (firstn k h)) as [z l]. cbn [fst snd] in *.
  destruct P as ((hw & W1 & W2) & _).
  pose proof (wsys_main tw c pkw (fun f H => H) widn Hwi t0 hw W1) as M. rewrite W2 in M. cbv zeta in M. fold (zW l : list (wop * Z)) in M.
  destruct M as (_ & _ & ex & es & o & more & rest & sN & _ & _ & MT & MN & M3 & [mw M4] & M5 & M6 & M7).
  { eapply Forall_impl; [|exact HW']. intros p (H & _); exact H. }
  exists ex, mw. split; [exact M3|]. split; [exact M4|]. split; [exists more, rest, sN; auto|]. split; [exact M5|]. split; [exact M6|]. intros Hq. apply M7, Hq.
Qed.
Definition Rmain (k : nat) er mr : Prop := let R := zR (lk k) in
    Forall2 (fetched c) R er /\ concat (map snd er) = zrl (Zk k) ++ mr /\
    (exists es rest sN, strace r_kind (rs_act (log_read tr) L) (rs_in L) nopk (y_s (z_r (Zk k))) es rest sN /\ rlog sN = concat (map snd er)) /\
    (forall u, exists m, (m <= length (with_tag u R))%nat /\
       completed_on u (r_outs (lk k)) = combine (firstn m (with_tag u R)) (firstn m (map fst (on_tag u R er)))) /\
    (forall i o u, nth_error R i = Some (o, u) -> rc_len (snd o) <> 0 ->
       (length (with_tag u (firstn i R)) < length (completed_on u (r_outs (lk k))))%nat ->
       is_prefix (concat (map snd (firstn (S i) er))) (zrl (Zk k))) /\
    (quiescent (rsys_step c ridn (log_read tr) L) (z_r (Zk k)) -> forall u, completed_on u (r_outs (lk k)) = combine (with_tag u R) (map fst (on_tag u R er))).
Lemma r_main k : (k <= n)%nat -> exists er mr, Rmain k er mr.
Proof.
  intros Hk. pose proof (eproj _ (hk k)) as P. unfold Rmain. pose proof (HRk k Hk) as HR'. unfold Zk, lk in *. destruct (run z0 (firstn k h)) as [z l]. cbn [fst snd] in *.
  destruct P as (_ & (hr & R1 & R2) & _).
  pose proof (rsys_main tr c pkr (fun f H => H) ridn Hri t0 hr R1) as M. rewrite R2 in M. cbv zeta in M. fold (zR l : list (rop * Z)) in M.
  destruct M as (_ & _ & ex & es & o & more & rest & sN & _ & _ & MT & MN & M3 & [mw M4] & M5 & M6 & M7).
  { eapply Forall_impl; [|exact HR']. intros p (H & _); exact H. }
  exists ex, mw. split; [exact M3|]. split; [exact M4|]. split; [exists more, rest, sN; auto|]. split; [exact M5|]. split; [exact M6|]. intros Hq. apply M7, Hq.
Qed.

Lemma calls_w : Forall (fun p => lo <= fst p < hi) (calls_bytes (zwl (Zk n))).
Proof.
  destruct (w_main n ltac:(lia)) as (ex & mw & M3 & M4 & _). pose proof (written_range c lo hi _ _ M3) as Hrg.
  specialize (Hrg ltac:(eapply Forall_impl; [|exact HW]; intros p (_ & H); exact H)). rewrite M4, calls_bytes_app in Hrg. now apply Forall_app in Hrg.
Qed.
Lemma calls_r : Forall (rcin L lo hi) (zrl (Zk n)).
Proof. destruct (r_main n ltac:(lia)) as (er & mr & M3 & M4 & _). pose proof (fetched_in lo hi c Hlo Hhi _ _ HR M3) as K. rewrite M4 in K. now apply Forall_app in K. Qed.

Lemma inv_k k : (k <= n)%nat -> inv (tgt k).
Proof. exact (inv_at L lo hi phi inv view tw tr Hft n tgt wl rl ownk start steps calls_w calls_r k). Qed.
Lemma fine_k k : (k <= n)%nat -> existsb failed (zwl (Zk k)) = false.
Proof. exact (fine_at L lo hi phi inv view tw tr Hft n tgt wl rl ownk start steps calls_w calls_r k). Qed.

(** no call of the operations issued until k raises *)
Lemma w_fine k ex mw : (k <= n)%nat -> Wmain k ex mw -> existsb failed (concat (map snd ex)) = false.
Proof.
  intros Hk (M3 & M4 & (es & rest & sN & MT & MN) & _).
  destruct (P_syswr.trace_replays tw c _ _ _ _ HL MT) as (mw' & K1 & K2). fold (zwl (Zk k)) in K1. rewrite MN, M4 in K1. apply app_inv_head in K1. subst mw'.
  pose proof (written_ok _ _ _ M3) as Hok. pose proof (written_range c lo hi _ _ M3) as Hrg.
  specialize (Hrg ltac:(eapply Forall_impl; [|exact (HWk k Hk)]; intros p (_ & H); exact H)). rewrite M4 in Hok, Hrg.
  rewrite calls_bytes_app in Hrg. apply Forall_app in Hok as [_ Hok]. apply Forall_app in Hrg as [_ Hrg].
  destruct (replays_flat _ _ _ _ _ _ _ _ Hft _ _ _ (inv_k k Hk) Hok Hrg K2) as (F & _). rewrite M4, existsb_app, F, (fine_k k Hk). reflexivity.
Qed.
Lemma w_pre_bytes k ex mw i : (k <= n)%nat -> Wmain k ex mw -> calls_bytes (concat (map snd (firstn i ex))) = op_bytes_of (firstn i (zW (lk k))).
Proof.
  intros Hk HM. pose proof (w_fine k ex mw Hk HM) as F. destruct HM as (M3 & _). apply (written_bytes c); [now apply forall2_firstn|].
  rewrite <- (firstn_skipn i ex), map_app, concat_app, existsb_app in F. now apply orb_false_iff in F.
Qed.

(** the moment of read call number g, also of the calls not made yet *)
Local Notation mom := (fun g => mom_of rl g n).
Lemma r_word er mr : Rmain n er mr -> forall g e, nth_error (concat (map snd er)) g = Some e -> word_of L phi (view (tgt (mom g))) e.
Proof.
  intros (N3 & N4 & (es & rest & sN & NT & NN) & _) g e Hg. rewrite N4 in Hg. destruct (Nat.lt_ge_cases g (length (zrl (Zk n)))) as [Hlt|Hge].
  - rewrite nth_error_app1 in Hg by lia. exact (mom_word L lo hi phi inv view tw tr Hft n tgt wl rl ownk start steps calls_w calls_r g e Hg).
  - rewrite nth_error_app2 in Hg by lia.
    assert (Em : mom g = n).
    { pose proof (mom_le rl g n). pose proof (mom_ge L inv tw tr n tgt wl rl ownk steps g n n ltac:(lia) Hge). cbv beta. lia. }
    cbv beta in Em. rewrite Em.
    destruct (rtrace_replays tr c _ _ _ _ NT) as (mr' & K1 & K2). fold (zrl (Zk n)) in K1. rewrite NN, N4 in K1. apply app_inv_head in K1. subst mr'. rewrite sync in K2.
    pose proof (fetched_in lo hi c Hlo Hhi _ _ HR N3) as Hin. rewrite N4 in Hin. apply Forall_app in Hin as [_ Hin].
    pose proof (rreplays_flat _ _ _ _ _ _ _ _ Hft _ _ _ (inv_k n ltac:(lia)) Hin K2) as Hw. rewrite Forall_forall in Hw. exact (Hw e (nth_error_In _ _ Hg)).
Qed.

Definition mom_at (er : list (list rch * list rcall)) (j : nat) (x : Z) : nat :=
  match nth_error (zR (lk n)) j with
  | Some (o, _) => mom_of rl (off er j + Z.to_nat (x / 2 ^ rc_size (snd o) - rc_addr (snd o) / 2 ^ rc_size (snd o))) n
  | None => 0%nat
  end.

Theorem axi_served : served phi n (fun k => view (tgt k)) ownk (axi_view c widn ridn n lk).
Proof.
  destruct (r_main n ltac:(lia)) as (er & mr & HRM). destruct (w_main n ltac:(lia)) as (ex & mw & HWM).
  pose proof (r_word er mr HRM) as Hword. pose proof HRM as (N3 & N4 & _ & N5 & _).
  assert (Hlr : length er = length (zR (lk n))) by (symmetry; eapply forall2_len; eauto).
  assert (Hrb : forall j x, in_read (axi_view c widn ridn n lk) n j x -> exists o u, nth_error (zR (lk n)) j = Some (o, u) /\ reads_byte (zR (lk n)) j x (x / 2 ^ rc_size (snd o)) /\
     rc_addr (snd o) <= x < rc_addr (snd o) + rc_len (snd o) /\
     mom_at er j x = mom_of rl (off er j + Z.to_nat (x / 2 ^ rc_size (snd o) - rc_addr (snd o) / 2 ^ rc_size (snd o))) n /\
     (off er j + Z.to_nat (x / 2 ^ rc_size (snd o) - rc_addr (snd o) / 2 ^ rc_size (snd o)) < off er (S j))%nat /\ 0 < 2 ^ rc_size (snd o)).
  { intros j x (a & len & E & Hx). cbn [pv_reads axi_view] in E. rewrite nth_error_map in E. destruct (nth_error (zR (lk n)) j) as [[o u]|] eqn:Ej; cbn [option_map fst snd] in E; [|discriminate E].
    injection E as <- <-. exists o, u. split; [reflexivity|]. assert (Hb : reads_byte (zR (lk n)) j x (x / 2 ^ rc_size (snd o))) by (exists o, u; auto).
    split; [exact Hb|]. split; [exact Hx|]. split; [unfold mom_at; now rewrite Ej|]. split; [exact (off_read lo hi c HL (zR (lk n)) er j x _ HR N3 Hb o u Ej)|].
    pose proof (proj1 (Forall_forall _ _) HR _ (nth_error_In _ _ Ej)) as ((HG & _) & _). destruct (bus_ok_facts _ _ HG) as (q & p & Hnb & _). exact Hnb. }
  assert (Eop : forall A : list (wop * Z), concat (map (fun p : wop * Z => addressed (wc_addr (snd (fst p))) (wc_data (snd (fst p)))) A) = op_bytes_of A)
    by (intros A; symmetry; apply flat_map_concat_map).
  split.
  { intros k k' Hk. split; apply prefix_map; [apply W_pre|apply R_pre]; lia. }
  exists (bs wl), (mom_at er).
  split; [exact (bs_env L inv tw tr n tgt wl rl ownk steps)|].
  split; [exact (bs_own L lo hi phi inv view tw tr Hft n tgt wl rl ownk start steps calls_w calls_r)|].
  split.
  { intros k Hk. rewrite (bs_sum L inv tw tr n tgt wl rl ownk start steps k Hk). destruct (w_main k Hk) as (ex' & mw' & HM). pose proof HM as (M3 & M4 & _).
    cbn [pv_writes axi_view]. rewrite Eop. rewrite <- (written_bytes c _ _ M3 (w_fine _ _ _ Hk HM)), M4, calls_bytes_app.
    now exists (calls_bytes mw'). }
  split.
  { intros k i b Hk E Hb (o & u & Ei & Hd). rewrite (bs_sum L inv tw tr n tgt wl rl ownk start steps k Hk). cbn [pv_writes axi_view] in E |- *. rewrite firstn_map', Eop.
    destruct (w_main k Hk) as (ex' & mw' & HM). rewrite <- (w_pre_bytes k ex' mw' (S i) Hk HM). destruct HM as (_ & _ & _ & _ & M6 & _).
    rewrite nth_error_map, Ei in E. cbn in E. injection E as <-. destruct (M6 i o u Ei) as [tl Htl]; [intros K; apply Hb; rewrite K; unfold addressed; now destruct (zrange _ _)|exact Hd|].
    rewrite Htl, calls_bytes_app. now exists (calls_bytes tl). }
  split.
  { intros i r (o & u & rs & Ei & Ec & Hr). pose proof HWM as (M3 & M4 & _ & M5 & _). destruct (M5 u) as (m & Hm & Em). rewrite Em in Ec. apply nth_combine in Ec as [_ Ec].
    apply nth_firstn in Ec. assert (Hlw : length ex = length (zW (lk n))) by (symmetry; eapply forall2_len; eauto).
    destruct (on_tag_nth u (zW (lk n)) ex i o Hlw Ei) as [_ K]. rewrite nth_error_map, K in Ec.
    destruct (nth_error ex i) as [[rs' cs]|] eqn:Ex; [|discriminate]. cbn in Ec. injection Ec as ->.
    pose proof (written_okay _ _ _ M3 (w_fine n ex mw (le_n _) HWM)) as Hok.
    destruct (forall2_nth' _ _ _ Hok _ _ Ei) as (rs' & Ers & _ & Hok'). rewrite nth_error_map, Ex in Ers. cbn in Ers. injection Ers as <-. cbn [fst snd] in Hok'. congruence. }
  split.
  { intros j a len d E (o & u & rs & Ej & Ec & Hr). cbn [pv_reads axi_view] in E. rewrite nth_error_map, Ej in E. cbn in E. injection E as <- <-.
    destruct (N5 u) as (m & Hm & Em). rewrite Em in Ec. apply nth_combine in Ec as [_ Ec]. apply nth_firstn in Ec.
    destruct (on_tag_nth u (zR (lk n)) er j o Hlr Ej) as [_ K]. rewrite nth_error_map, K in Ec.
    destruct (nth_error er j) as [[rs' cs]|] eqn:Ex; [|discriminate]. cbn in Ec. injection Ec as ->.
    destruct (forall2_nth' _ _ _ N3 _ _ Ej) as (x & Ex' & HFx). rewrite Ex in Ex'. injection Ex' as <-.
    pose proof (proj1 (Forall_forall _ _) HR _ (nth_error_In _ _ Ej)) as (Hleg & _). cbn [fst] in Hleg.
    rewrite (fetched_mem c phi o u rs cs (fun k => view (tgt (mom_of rl (off er j + k) n))) Hleg HFx) in Hr.
    - injection Hr as <-. unfold mom_at. rewrite Ej. reflexivity.
    - intros k e Hk. apply (Hword (off er j + k)%nat).
      assert (Hsp : concat (map snd er) = concat (map snd (firstn j er)) ++ cs ++ concat (map snd (skipn (S j) er))).
      { rewrite <- (firstn_skipn (S j) er) at 1. rewrite map_app, concat_app, (nth_concat _ _ _ _ Ex), <- app_assoc. reflexivity. }
      rewrite Hsp. rewrite nth_error_app2 by (unfold off; lia). replace (off er j + k - length (concat (map snd (firstn j er))))%nat with k by (unfold off; lia).
      rewrite nth_error_app1; auto. apply nth_error_Some. congruence. }
  split.
  { intros j x Hx. destruct (Hrb j x Hx) as (o & u & _ & _ & _ & -> & _). apply mom_le. }
  split.
  { intros k j x Hk Hx Hj. destruct (Hrb j x Hx) as (o & u & Ej & _ & Hx' & -> & Hlt & _). apply (mom_ge L inv tw tr n tgt wl rl ownk steps); [lia|].
    cbn [pv_reads axi_view] in Hj. rewrite map_length in Hj.
    destruct (r_main k Hk) as (er' & mr' & N3' & N4' & _). pose proof (firstn_le_len er _ _ Hj) as Hm. fold (off er j) in Hm.
    rewrite (fetched_len c (zR (lk n)) er _ N3) in Hm. destruct (R_pre k n Hk) as [d Ed]. rewrite Ed, firstn_app_l, firstn_all in Hm by lia.
    pose proof (fetched_len c _ _ (length (zR (lk k))) N3') as K. rewrite firstn_all in K. rewrite (forall2_len _ _ _ N3'), firstn_all, N4', app_length in K. nodiv. lia. }
  split.
  { intros k j x Hk Hx (o' & u' & Ej' & Hd). destruct (Hrb j x Hx) as (o & u & Ej & _ & Hx' & -> & Hlt & _). apply (mom_lt L inv tw tr n tgt wl rl ownk start steps); [lia|].
    pose proof (nth_pre _ _ _ _ (R_pre k n Hk) Ej') as E2. rewrite Ej in E2. injection E2 as <- <-.
    destruct (r_main k Hk) as (er' & mr' & N3' & N4' & _ & _ & N6' & _). assert (Hln : rc_len (snd o) <> 0) by (nodiv; lia).
    destruct (N6' j o u Ej' Hln Hd) as [tl Htl]. destruct (R_pre k n Hk) as [d Ed]. assert (Hjl : (j < length (zR (lk k)))%nat) by (apply nth_error_Some; congruence).
    assert (Hoff : (off er (S j) <= length (zrl (Zk k)))%nat).
    { unfold off. rewrite (fetched_len c (zR (lk n)) er _ N3), Ed, firstn_app_l by lia. rewrite <- (fetched_len c _ _ (S j) N3'), Htl, app_length. nodiv. lia. }
    nodiv. lia. }
  split.
  { intros j x x' Hx Hx' Hwd. destruct (Hrb j x Hx) as (o & u & Ej & _ & _ & -> & _). destruct (Hrb j x' Hx') as (o' & u' & Ej' & _ & _ & -> & _).
    rewrite Ej in Ej'. injection Ej' as <- <-. cbn [pv_word axi_view] in Hwd. rewrite Ej in Hwd. now rewrite Hwd. }
  intros j x j' x' Hx Hx' Hord. destruct (Hrb j x Hx) as (o & u & Ej & _ & _ & -> & Hlt & Hnb). destruct (Hrb j' x' Hx') as (o' & u' & Ej' & _ & _ & -> & Hlt' & _).
  apply (mom_mono L inv tw tr n tgt wl rl ownk steps); [lia|]. destruct Hord as [Hj|[<- Hxx]].
  - assert (Hoff : (off er (S j) <= off er j')%nat) by (apply firstn_le_len; exact Hj). clear - Hlt Hoff. nodiv. lia.
  - rewrite Ej in Ej'. injection Ej' as <- <-. assert (x / 2 ^ rc_size (snd o) <= x' / 2 ^ rc_size (snd o)) by (apply Z.div_le_mono; lia). nodiv. lia.
Qed.

(** if nothing can run, everything has returned *)
Theorem axi_quiet : (forall o, a_internal o -> step (Zk n) o = (Zk n, [])) -> all_returned (axi_view c widn ridn n lk) n.
Proof.
  intros Hq. assert (Hqw : quiescent (wsys_step c widn (log_write tw) L true) (z_w (Zk n))).
  { intros o Ho. pose proof (Hq (BW o) Ho) as K. cbn [ax_step] in K. destruct (wsys_step c widn (log_write tw) L true (z_w (Zk n)) o) as [w os].
    injection K as K1 K2. apply map_eq_nil in K2. subst os. now rewrite <- K1. }
  assert (Hqr : quiescent (rsys_step c ridn (log_read tr) L) (z_r (Zk n))).
  { intros o Ho. pose proof (Hq (BR o) Ho) as K. cbn [ax_step] in K. destruct (rsys_step c ridn (log_read tr) L (z_r (Zk n)) o) as [r os].
    injection K as K1 K2. apply map_eq_nil in K2. subst os. now rewrite <- K1. }
  destruct (r_main n ltac:(lia)) as (er & mr & HRM). destruct (w_main n ltac:(lia)) as (ex & mw & HWM). split.
  - intros i Hi. cbn [pv_writes axi_view] in Hi. rewrite map_length in Hi. destruct (nth_error (zW (lk n)) i) as [[o u]|] eqn:Ei; [|apply nth_error_None in Ei; lia].
    pose proof HWM as (M3 & _ & _ & _ & _ & M7). assert (Hlw : length ex = length (zW (lk n))) by (symmetry; eapply forall2_len; eauto).
    destruct (on_tag_nth u (zW (lk n)) ex i o Hlw Ei) as [K0 K]. destruct (nth_error ex i) as [[rs cs]|] eqn:Ex; [|apply nth_error_None in Ex; lia].
    pose proof (written_okay _ _ _ M3 (w_fine n ex mw (le_n _) HWM)) as Hok.
    destruct (forall2_nth' _ _ _ Hok _ _ Ei) as (rs' & Ers & _ & Hok'). rewrite nth_error_map, Ex in Ers. cbn in Ers. injection Ers as <-. cbn [fst snd] in Hok'.
    exists OKAY. exists o, u, rs. split; [exact Ei|]. split; [|exact Hok']. rewrite (M7 Hqw). apply nth_combine'; [exact K0|]. rewrite nth_error_map, K. reflexivity.
  - intros j Hj. cbn [pv_reads axi_view] in Hj. rewrite map_length in Hj. destruct (nth_error (zR (lk n)) j) as [[o u]|] eqn:Ej; [|apply nth_error_None in Ej; lia].
    pose proof HRM as (N3 & _ & _ & _ & _ & N7). assert (Hlr : length er = length (zR (lk n))) by (symmetry; eapply forall2_len; eauto).
    destruct (on_tag_nth u (zR (lk n)) er j o Hlr Ej) as [K0 K]. destruct (nth_error er j) as [[rs cs]|] eqn:Ex; [|apply nth_error_None in Ex; lia].
    destruct (forall2_nth' _ _ _ N3 _ _ Ej) as (x & Ex' & HFx). rewrite Ex in Ex'. injection Ex' as <-.
    pose proof (proj1 (Forall_forall _ _) HR _ (nth_error_In _ _ Ej)) as (Hleg & _). cbn [fst] in Hleg.
    eexists. exists o, u, rs. split; [exact Ej|]. split; [rewrite (N7 Hqr); apply nth_combine'; [exact K0|]; rewrite nth_error_map, K; reflexivity|].
    apply (fetched_mem c phi o u rs cs (fun k => view (tgt (mom_of rl (off er j + k) n))) Hleg HFx).
    intros k e Hk. apply (r_word er mr HRM (off er j + k)%nat).
    assert (Hsp : concat (map snd er) = concat (map snd (firstn j er)) ++ cs ++ concat (map snd (skipn (S j) er))).
    { rewrite <- (firstn_skipn (S j) er) at 1. rewrite map_app, concat_app, (nth_concat _ _ _ _ Ex), <- app_assoc. reflexivity. }
    rewrite Hsp. rewrite nth_error_app2 by (unfold off; lia). replace (off er j + k - length (concat (map snd (firstn j er))))%nat with k by (unfold off; lia).
    rewrite nth_error_app1; auto. apply nth_error_Some. congruence.
Qed.
End Axi.
