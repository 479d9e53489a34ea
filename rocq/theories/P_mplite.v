(** An AXI-Lite port on a memory that others change: every schedule (P_mport.v has the general part). *)
From Coq Require Import ZArith Lia List Bool.
From Coq Require Import ZifyBool ZifyNat.
From Verif Require Import Py S_flat M_axi S_axi P_axi P_axislave P_axiop P_axicomp P_axiram M_axil S_axil P_axil
  M_liteeng S_liteeng P_liteeng M_axieng S_axieng P_axieng P_axiattr T_axieng M_sys S_sys P_sys P_syswr P_sysrd T_sys T_sysrd M_axisys S_axisys P_sysram
  M_litesys S_litesys P_litesys P_litewr P_literd T_litesys M_literw S_literw P_literw M_mport S_mport P_mport P_mpaxi.
Import ListNotations.
Open Scope Z_scope.

Definition v_pokeb {TW TR} (o : lxop TW TR) : bool := match o with VW (UPoke _) => true | VR (UPoke _) => true | _ => false end.
Definition v_env {T} (o : lxop (T * list call) (T * list rcall)) : Prop :=
  match o with VW (UPoke f) => exists g, f = lws_poke (cp_up g) | VR (UPoke _) => False | _ => True end.

Section Lite.
Context {T : Type}.
Variables (lo hi : Z) (phi : Z -> Z) (inv : T -> Prop) (view : T -> flat).
Variable tw : T -> Z -> list Z -> T * res unit.
Variable tr : T -> Z -> Z -> T * res (list Z).
Variable L : Z.
Hypothesis Hft : flat_target L lo hi phi inv view tw tr.
Hypothesis HL : 0 < L.
Hypothesis Hlo : lo mod L = 0.
Hypothesis Hhi : hi mod L = 0.
Variable t0 : T.
Hypothesis Ht0 : inv t0.

Local Notation TW := (T * list call)%type.
Local Notation TR := (T * list rcall)%type.
Local Notation step := (lx_step L (log_write tw) (log_read tr) cp_w2r cp_r2w).
Local Notation run := (lx_run L (log_write tw) (log_read tr) cp_w2r cp_r2w).
Local Notation z0 := (lrw_init t0 : lxs TW TR).
Local Notation vW := lwrites_of.
Local Notation vR := lreads_of.

Lemma lenv_w (o : uop (Z * lwcmd) (lwslv TW)) : v_env (VW o : lxop TW TR) -> upoke_ok lpkw o.
Proof. destruct o; cbn; auto. Qed.
Lemma lenv_r (o : uop (Z * lrcmd) (lrslv TR)) : v_env (VR o : lxop TW TR) -> upoke_ok lpkr o.
Proof. destruct o; cbn; tauto. Qed.

Lemma leproj h : Forall v_env h -> let '(z, l) := run z0 h in
  (exists hw, Forall (upoke_ok lpkw) hw /\ lwsys_run L (log_write tw) true (t0, []) hw = (v_w z, lw_outs l)) /\
  (exists hr, Forall (upoke_ok lpkr) hr /\ lrsys_run L (log_read tr) (t0, []) hr = (v_r z, lr_outs l)) /\
  fst (lrs_target (u_s (v_r z))) = lrw_target z.
Proof.
  induction h as [|o h IH] using rev_ind; intros Hn.
  - cbn. split; [exists []; split; constructor|]. split; [exists []; split; constructor|reflexivity].
  - apply Forall_app in Hn as [Hn Ho]. inversion Ho as [|? ? Ho' _]; subst. specialize (IH Hn). rewrite lx_run_app.
    destruct (run z0 h) as [z l]. destruct IH as ((hw & W1 & W2) & (hr & R1 & R2) & HS). cbn [lx_run].
    destruct o as [o|o]; cbn [lx_step] in *.
    + destruct (lwsys_step L (log_write tw) true (v_w z) o) as [w os] eqn:E. cbn [v_w v_r]. rewrite app_nil_r, lw_outs_app, lr_outs_app, lw_outs_inl, lr_outs_inl, app_nil_r. split; [|split].
      * exists (hw ++ [o]). split; [apply Forall_app; split; auto; constructor; auto; now apply lenv_w|]. unfold lwsys_run in *. rewrite u_run_app, W2. cbn [u_run].
        unfold lwsys_step in E. rewrite E, app_nil_r. reflexivity.
      * exists (hr ++ [UPoke (lrs_poke (cp_w2r (lws_target (u_s w))))]). split.
        { apply Forall_app; split; auto. constructor; auto. cbn. exists (fun _ => fst (lws_target (u_s w))). reflexivity. }
        unfold lrsys_run in *. rewrite u_run_app, R2. cbn [u_run u_step app]. now rewrite app_nil_r.
      * unfold lrw_target. cbn [v_w v_r u_s uset_s]. now destruct (u_s (v_r z)).
    + destruct (lrsys_step L (log_read tr) (v_r z) o) as [r os] eqn:E. cbn [v_w v_r]. rewrite app_nil_r, lw_outs_app, lr_outs_app, lw_outs_inr, lr_outs_inr, app_nil_r. split; [|split].
      * exists (hw ++ [UPoke (lws_poke (cp_r2w (lrs_target (u_s r))))]). split.
        { apply Forall_app; split; auto. constructor; auto. cbn. exists (fun _ => fst (lrs_target (u_s r))). reflexivity. }
        unfold lwsys_run in *. rewrite u_run_app, W2. cbn [u_run u_step app]. now rewrite app_nil_r.
      * exists (hr ++ [o]). split; [apply Forall_app; split; auto; constructor; auto; now apply lenv_r|]. unfold lrsys_run in *. rewrite u_run_app, R2. cbn [u_run].
        unfold lrsys_step in E. rewrite E, app_nil_r. reflexivity.
      * unfold lrw_target. cbn [v_w v_r u_s uset_s]. now destruct (u_s (v_w z)).
Qed.

Variable h : list (lxop TW TR).
Hypothesis Hh : Forall v_env h.
Local Notation n := (length h).
Definition Vk (k : nat) : lxs TW TR := fst (run z0 (firstn k h)).
Definition vlk (k : nat) : list lxout := snd (run z0 (firstn k h)).
Definition vownk (k : nat) : bool := match nth_error h k with Some o => negb (v_pokeb o) | None => false end.
Hypothesis Henv : forall k, (k < n)%nat -> vownk k = false -> inv (lrw_target (Vk k)) -> inv (lrw_target (Vk (S k))).
Hypothesis HW : Forall (lwrite_in lo hi) (vW (vlk n)).
Hypothesis HR : Forall (lread_in lo hi) (vR (vlk n)).

Lemma lhk k : Forall v_env (firstn k h).
Proof. rewrite <- (firstn_skipn k h) in Hh. now apply Forall_app in Hh. Qed.
Lemma lrun_S k o : nth_error h k = Some o -> run z0 (firstn (S k) h) = (fst (step (Vk k) o), vlk k ++ snd (step (Vk k) o)).
Proof.
  intros E. rewrite (firstn_snoc _ _ _ E), lx_run_app. unfold Vk, vlk. destruct (run z0 (firstn k h)) as [z l]. cbn [lx_run fst snd].
  destruct (step z o) as [z' os]. now rewrite app_nil_r.
Qed.
Lemma vlk_app k k' : (k <= k')%nat -> exists d, vlk k' = vlk k ++ d.
Proof.
  intros H. assert (E : firstn k' h = firstn k h ++ skipn k (firstn k' h)).
  { rewrite <- (firstn_skipn k (firstn k' h)) at 1. rewrite firstn_firstn. f_equal. f_equal. lia. }
  unfold vlk. rewrite E, lx_run_app. destruct (run z0 (firstn k h)) as [z l]. destruct (run z _) as [z' l']. now exists l'.
Qed.
Lemma lW_pre k k' : (k <= k')%nat -> is_prefix (vW (vlk k)) (vW (vlk k')).
Proof. intros H. destruct (vlk_app k k' H) as [d ->]. rewrite vW_app. now eexists. Qed.
Lemma lR_pre k k' : (k <= k')%nat -> is_prefix (vR (vlk k)) (vR (vlk k')).
Proof. intros H. destruct (vlk_app k k' H) as [d ->]. rewrite vR_app. now eexists. Qed.
Lemma lHWk k : (k <= n)%nat -> Forall (lwrite_in lo hi) (vW (vlk k)).
Proof. intros H. destruct (lW_pre k n H) as [d E]. rewrite E in HW. now apply Forall_app in HW. Qed.
Lemma lHRk k : (k <= n)%nat -> Forall (lread_in lo hi) (vR (vlk k)).
Proof. intros H. destruct (lR_pre k n H) as [d E]. rewrite E in HR. now apply Forall_app in HR. Qed.
Lemma lsync k : fst (lrs_target (u_s (v_r (Vk k)))) = lrw_target (Vk k).
Proof. pose proof (leproj _ (lhk k)) as P. unfold Vk. destruct (run z0 (firstn k h)) as [z l]. apply P. Qed.

Local Notation tgt := (fun k => lrw_target (Vk k)).
Local Notation wl := (fun k => vwl (Vk k)).
Local Notation rl := (fun k => vrl (Vk k)).

(** ** the steps *)
Lemma lsteps k : (k < n)%nat -> env_step inv tgt wl rl vownk k \/ w_step L tw tgt wl rl vownk k \/ r_step tr tgt wl rl vownk k.
Proof.
  intros Hk. destruct (nth_error h k) as [o|] eqn:E; [|apply nth_error_None in E; lia].
  assert (Ho : v_env o) by (rewrite Forall_forall in Hh; apply Hh; eapply nth_error_In; eauto).
  pose proof (lrun_S k o E) as HRS. assert (EZ : Vk (S k) = fst (step (Vk k) o)) by (unfold Vk at 1; now rewrite HRS).
  pose proof (lsync k) as HS. pose proof (Henv k Hk) as He. unfold env_step, w_step, r_step. rewrite EZ in He |- *. unfold vownk in He |- *. rewrite E in He |- *. clear HRS EZ. destruct o as [o|o].
  - assert (Er : forall w : usys (Z * lwcmd) lev resp_t (lwslv TW), lrlog (lrs_poke (cp_w2r (lws_target (u_s w))) (u_s (v_r (Vk k)))) = lrlog (u_s (v_r (Vk k)))) by (intros w; now destruct (u_s (v_r (Vk k)))).
    destruct (v_pokeb (VW o : lxop TW TR)) eqn:Ep.
    + left. destruct o; try discriminate. cbn in Ho. destruct Ho as [g ->]. split; [reflexivity|]. split; [|split; [|apply He; reflexivity]].
      * unfold vwl. cbn. now destruct (u_s (v_w (Vk k))).
      * unfold vrl. cbn [lx_step lwsys_step u_step fst v_r u_s uset_s]. now destruct (u_s (v_r (Vk k))).
    + right. left. assert (Hn : uno_poke o) by now destruct o. split; [reflexivity|]. pose proof (lwstep_log tw L HL (v_w (Vk k)) o Hn) as K. cbn [lx_step].
      destruct (lwsys_step L (log_write tw) true (v_w (Vk k)) o) as [w os]. cbn [fst]. unfold vrl, vwl, lrw_target. cbn [v_w v_r u_s uset_s].
      split; [apply Er|exact K].
  - right. right. assert (Hn : uno_poke o) by now destruct o. assert (Ep : v_pokeb (VR o : lxop TW TR) = false) by now destruct o. rewrite Ep. split; [reflexivity|].
    pose proof (lrstep_log tr L HL (v_r (Vk k)) o Hn) as K. cbn [lx_step].
    destruct (lrsys_step L (log_read tr) (v_r (Vk k)) o) as [r os]. cbn [fst]. unfold vrl, vwl, lrw_target. cbn [v_w v_r u_s uset_s].
    assert (Ew : llog (lws_poke (cp_r2w (lrs_target (u_s r))) (u_s (v_w (Vk k)))) = llog (u_s (v_w (Vk k)))) by now destruct (u_s (v_w (Vk k))).
    assert (Et : fst (lws_target (lws_poke (cp_r2w (lrs_target (u_s r))) (u_s (v_w (Vk k))))) = fst (lrs_target (u_s r))) by now destruct (u_s (v_w (Vk k))).
    rewrite Ew, Et. split; [reflexivity|]. rewrite HS in K. exact K.
Qed.
Lemma lstart : inv (tgt 0%nat) /\ wl 0%nat = [] /\ rl 0%nat = [].
Proof. split; [exact Ht0|]. split; reflexivity. Qed.

(** ** the two halves at moment k *)
Definition LWmain (k : nat) ex mw : Prop := let W := vW (vlk k) in
    Forall2 (lite_written L) W ex /\ concat (map snd ex) = vwl (Vk k) ++ mw /\
    (exists es rest sN, strace lw_kind lws_act (lws_in (log_write tw) L true) nopk (u_s (v_w (Vk k))) es rest sN /\ llog sN = concat (map snd ex)) /\
    (exists m, (m <= length W)%nat /\ completed (lw_outs (vlk k)) = combine (firstn m W) (firstn m (map fst ex)) /\ is_prefix (concat (map snd (firstn m ex))) (vwl (Vk k))) /\
    (uquiescent (lwsys_step L (log_write tw) true) (v_w (Vk k)) -> completed (lw_outs (vlk k)) = combine W (map fst ex)).
Lemma lw_main k : (k <= n)%nat -> exists ex mw, LWmain k ex mw.
Proof.
  intros Hk. pose proof (leproj _ (lhk k)) as P. unfold LWmain. pose proof (lHWk k Hk) as HW'. unfold Vk, vlk in *. destruct (run z0 (firstn k h)) as [z l]. cbn [fst snd] in *.
  destruct P as ((hw & W1 & W2) & _).
  pose proof (lwsys_main tw L HL lpkw (fun f H => H) t0 hw W1) as M. rewrite W2 in M. cbv zeta in M. fold (vW l) in M.
  destruct M as (_ & ex & es & o & more & rest & sN & _ & MT & MN & M3 & [mw M4] & M5 & M7).
  { eapply Forall_impl; [|exact HW']. intros p (H & _); exact H. }
  exists ex, mw. split; [exact M3|]. split; [exact M4|]. split; [exists more, rest, sN; auto|]. split; [exact M5|]. intros Hq. apply M7, Hq.
Qed.
Definition LRmain (k : nat) er mr : Prop := let R := vR (vlk k) in
    Forall2 (lite_fetched L) R er /\ concat (map snd er) = vrl (Vk k) ++ mr /\
    (exists es rest sN, strace lr_kind (lrs_act (log_read tr) L) lrs_in nopk (u_s (v_r (Vk k))) es rest sN /\ lrlog sN = concat (map snd er)) /\
    (exists m, (m <= length R)%nat /\ completed (lr_outs (vlk k)) = combine (firstn m R) (firstn m (map fst er)) /\ is_prefix (concat (map snd (firstn m er))) (vrl (Vk k))) /\
    (uquiescent (lrsys_step L (log_read tr)) (v_r (Vk k)) -> completed (lr_outs (vlk k)) = combine R (map fst er)).
Lemma lr_main k : (k <= n)%nat -> exists er mr, LRmain k er mr.
Proof.
  intros Hk. pose proof (leproj _ (lhk k)) as P. unfold LRmain. pose proof (lHRk k Hk) as HR'. unfold Vk, vlk in *. destruct (run z0 (firstn k h)) as [z l]. cbn [fst snd] in *.
  destruct P as (_ & (hr & R1 & R2) & _).
  pose proof (lrsys_main tr L HL lpkr (fun f H => H) t0 hr R1) as M. rewrite R2 in M. cbv zeta in M. fold (vR l) in M.
  destruct M as (_ & ex & es & o & more & rest & sN & _ & MT & MN & M3 & [mw M4] & M5 & M7).
  { eapply Forall_impl; [|exact HR']. intros p (H & _); exact H. }
  exists ex, mw. split; [exact M3|]. split; [exact M4|]. split; [exists more, rest, sN; auto|]. split; [exact M5|]. intros Hq. apply M7, Hq.
Qed.

Lemma lcalls_w : Forall (fun p => lo <= fst p < hi) (calls_bytes (vwl (Vk n))).
Proof.
  destruct (lw_main n ltac:(lia)) as (ex & mw & M3 & M4 & _). pose proof (lwritten_range L lo hi _ _ M3) as Hrg.
  specialize (Hrg ltac:(eapply Forall_impl; [|exact HW]; intros p (_ & H); exact H)). rewrite M4, calls_bytes_app in Hrg. now apply Forall_app in Hrg.
Qed.
Lemma lcalls_r : Forall (rcin L lo hi) (vrl (Vk n)).
Proof. destruct (lr_main n ltac:(lia)) as (er & mr & M3 & M4 & _). pose proof (lfetched_in lo hi L HL Hlo Hhi _ _ HR M3) as K. rewrite M4 in K. now apply Forall_app in K. Qed.

Lemma linv_k k : (k <= n)%nat -> inv (tgt k).
Proof. exact (inv_at L lo hi phi inv view tw tr Hft n tgt wl rl vownk lstart lsteps lcalls_w lcalls_r k). Qed.
Lemma lfine_k k : (k <= n)%nat -> existsb failed (vwl (Vk k)) = false.
Proof. exact (fine_at L lo hi phi inv view tw tr Hft n tgt wl rl vownk lstart lsteps lcalls_w lcalls_r k). Qed.

(** no call of the operations issued until k raises *)
Lemma lw_fine k ex mw : (k <= n)%nat -> LWmain k ex mw -> existsb failed (concat (map snd ex)) = false.
Proof.
  intros Hk (M3 & M4 & (es & rest & sN & MT & MN) & _).
  destruct (P_litewr.trace_replays tw L HL _ _ _ _ MT) as (mw' & K1 & K2). fold (vwl (Vk k)) in K1. rewrite MN, M4 in K1. apply app_inv_head in K1. subst mw'.
  pose proof (lwritten_ok _ _ _ M3) as Hok. pose proof (lwritten_range L lo hi _ _ M3) as Hrg.
  specialize (Hrg ltac:(eapply Forall_impl; [|exact (lHWk k Hk)]; intros p (_ & H); exact H)). rewrite M4 in Hok, Hrg.
  rewrite calls_bytes_app in Hrg. apply Forall_app in Hok as [_ Hok]. apply Forall_app in Hrg as [_ Hrg].
  destruct (replays_flat _ _ _ _ _ _ _ _ Hft _ _ _ (linv_k k Hk) Hok Hrg K2) as (F & _). rewrite M4, existsb_app, F, (lfine_k k Hk). reflexivity.
Qed.
Lemma lw_pre_bytes k ex mw i : (k <= n)%nat -> LWmain k ex mw -> calls_bytes (concat (map snd (firstn i ex))) = lite_op_bytes (firstn i (vW (vlk k))).
Proof.
  intros Hk HM. pose proof (lw_fine k ex mw Hk HM) as F. destruct HM as (M3 & _). apply (lwritten_bytes L); [now apply forall2_firstn|].
  rewrite <- (firstn_skipn i ex), map_app, concat_app, existsb_app in F. now apply orb_false_iff in F.
Qed.

(** the moment of read call number g, also of the calls not made yet *)
Local Notation mom := (fun g => mom_of rl g n).
Lemma lr_word er mr : LRmain n er mr -> forall g e, nth_error (concat (map snd er)) g = Some e -> word_of L phi (view (tgt (mom g))) e.
Proof.
  intros (N3 & N4 & (es & rest & sN & NT & NN) & _) g e Hg. rewrite N4 in Hg. destruct (Nat.lt_ge_cases g (length (vrl (Vk n)))) as [Hlt|Hge].
  - rewrite nth_error_app1 in Hg by lia. exact (mom_word L lo hi phi inv view tw tr Hft n tgt wl rl vownk lstart lsteps lcalls_w lcalls_r g e Hg).
  - rewrite nth_error_app2 in Hg by lia.
    assert (Em : mom g = n).
    { pose proof (mom_le rl g n). pose proof (mom_ge L inv tw tr n tgt wl rl vownk lsteps g n n ltac:(lia) Hge). cbv beta. lia. }
    cbv beta in Em. rewrite Em.
    destruct (lrtrace_replays tr L HL _ _ _ _ NT) as (mr' & K1 & K2). fold (vrl (Vk n)) in K1. rewrite NN, N4 in K1. apply app_inv_head in K1. subst mr'. rewrite lsync in K2.
    pose proof (lfetched_in lo hi L HL Hlo Hhi _ _ HR N3) as Hin. rewrite N4 in Hin. apply Forall_app in Hin as [_ Hin].
    pose proof (rreplays_flat _ _ _ _ _ _ _ _ Hft _ _ _ (linv_k n ltac:(lia)) Hin K2) as Hw. rewrite Forall_forall in Hw. exact (Hw e (nth_error_In _ _ Hg)).
Qed.

Definition lmom_at (er : list (list lrd * list rcall)) (j : nat) (x : Z) : nat :=
  match nth_error (vR (vlk n)) j with
  | Some o => mom_of rl (loff er j + Z.to_nat (x / L - lr_addr (snd o) / L)) n
  | None => 0%nat
  end.
Lemma lret er mr j o rs cs : LRmain n er mr -> nth_error (vR (vlk n)) j = Some o -> nth_error er j = Some (rs, cs) ->
  lite_read_resp L (snd o) rs = (map (fun x => view (tgt (lmom_at er j x)) (phi x)) (zrange (lr_addr (snd o)) (lr_addr (snd o) + lr_len (snd o))), OKAY).
Proof.
  intros HRM Ej Ex. pose proof (lr_word er mr HRM) as Hword. pose proof HRM as (N3 & _).
  destruct (forall2_nth' _ _ _ N3 _ _ Ej) as (x & Ex' & HFx). rewrite Ex in Ex'. injection Ex' as <-.
  pose proof (proj1 (Forall_forall _ _) HR _ (nth_error_In _ _ Ej)) as (Hleg & _).
  rewrite (lfetched_mem L phi o rs cs (fun k => view (tgt (mom_of rl (loff er j + k) n))) HL Hleg HFx).
  - unfold lmom_at. rewrite Ej. reflexivity.
  - intros k e Hk. apply (Hword (loff er j + k)%nat).
    assert (Hsp : concat (map snd er) = concat (map snd (firstn j er)) ++ cs ++ concat (map snd (skipn (S j) er))).
    { rewrite <- (firstn_skipn (S j) er) at 1. rewrite map_app, concat_app, (nth_concat _ _ _ _ Ex), <- app_assoc. reflexivity. }
    rewrite Hsp. rewrite nth_error_app2 by (unfold loff; lia). replace (loff er j + k - length (concat (map snd (firstn j er))))%nat with k by (unfold loff; lia).
    rewrite nth_error_app1; auto. apply nth_error_Some. congruence.
Qed.

Theorem lite_served : served phi n (fun k => view (tgt k)) vownk (lite_view L n vlk).
Proof.
  destruct (lr_main n ltac:(lia)) as (er & mr & HRM). destruct (lw_main n ltac:(lia)) as (ex & mw & HWM).
  pose proof (fun j o rs cs => lret er mr j o rs cs HRM) as Hret. pose proof HRM as (N3 & N4 & _ & (mk & Hmk & N5 & _) & _).
  assert (Hlr : length er = length (vR (vlk n))) by (symmetry; eapply forall2_len; eauto).
  assert (Hrb : forall j x, in_read (lite_view L n vlk) n j x -> exists o, nth_error (vR (vlk n)) j = Some o /\
     lr_addr (snd o) <= x < lr_addr (snd o) + lr_len (snd o) /\
     lmom_at er j x = mom_of rl (loff er j + Z.to_nat (x / L - lr_addr (snd o) / L)) n /\
     (loff er j + Z.to_nat (x / L - lr_addr (snd o) / L) < loff er (S j))%nat).
  { intros j x (a & len & E & Hx). cbn [pv_reads lite_view] in E. rewrite nth_error_map in E. destruct (nth_error (vR (vlk n)) j) as [o|] eqn:Ej; cbn [option_map fst snd] in E; [|discriminate E].
    injection E as <- <-. exists o. split; [reflexivity|]. assert (Hb : lreads_byte (vR (vlk n)) j x) by (exists o; auto).
    split; [exact Hx|]. split; [unfold lmom_at; now rewrite Ej|]. exact (loff_read lo hi L HL (vR (vlk n)) er j x HR N3 Hb o Ej). }
  assert (Eop : forall A : list (Z * lwcmd), concat (map (fun o : Z * lwcmd => addressed (lc_addr (snd o)) (lc_data (snd o))) A) = lite_op_bytes A)
    by (intros A; symmetry; apply flat_map_concat_map).
  split.
  { intros k k' Hk. split; apply prefix_map; [apply lW_pre|apply lR_pre]; lia. }
  exists (bs wl), (lmom_at er).
  split; [exact (bs_env L inv tw tr n tgt wl rl vownk lsteps)|].
  split; [exact (bs_own L lo hi phi inv view tw tr Hft n tgt wl rl vownk lstart lsteps lcalls_w lcalls_r)|].
  split.
  { intros k Hk. rewrite (bs_sum L inv tw tr n tgt wl rl vownk lstart lsteps k Hk). destruct (lw_main k Hk) as (ex' & mw' & HM). pose proof HM as (M3 & M4 & _).
    cbn [pv_writes lite_view]. rewrite Eop. rewrite <- (lwritten_bytes L _ _ M3 (lw_fine _ _ _ Hk HM)), M4, calls_bytes_app.
    now exists (calls_bytes mw'). }
  split.
  { intros k i b Hk E Hb Hd. rewrite (bs_sum L inv tw tr n tgt wl rl vownk lstart lsteps k Hk). cbn [pv_writes pv_wdone lite_view] in E, Hd |- *. rewrite firstn_map', Eop.
    destruct (lw_main k Hk) as (ex' & mw' & HM). rewrite <- (lw_pre_bytes k ex' mw' (S i) Hk HM). destruct HM as (_ & _ & _ & (m & Hm & M5 & [tl Htl]) & _).
    assert (Him : (S i <= m)%nat) by (rewrite M5, combine_length, !firstn_length in Hd; lia).
    rewrite Htl, calls_bytes_app. replace (S i) with (Nat.min (S i) m) by lia. rewrite <- firstn_firstn.
    rewrite <- (firstn_skipn (S i) (firstn m ex')) at 2. rewrite map_app, concat_app, calls_bytes_app, <- app_assoc. now eexists. }
  split.
  { intros i r (o & rs & Ei & Ec & <-). pose proof HWM as (M3 & M4 & _ & (m & Hm & M5 & _) & _). rewrite M5 in Ec. apply nth_combine in Ec as [_ Ec]. apply nth_firstn in Ec.
    pose proof (lwritten_okay _ _ _ M3 (lw_fine n ex mw (le_n _) HWM)) as Hok. rewrite Forall_forall in Hok. apply Hok. eapply nth_error_In; eauto. }
  split.
  { intros j a len d E (o & rs & Ej & Ec & <-). cbn [pv_reads lite_view] in E. rewrite nth_error_map, Ej in E. cbn in E. injection E as <- <-.
    rewrite N5 in Ec. apply nth_combine in Ec as [_ Ec]. apply nth_firstn in Ec. rewrite nth_error_map in Ec.
    destruct (nth_error er j) as [[rs' cs]|] eqn:Ex; [|discriminate]. cbn in Ec. injection Ec as ->. exact (Hret j o rs cs Ej Ex). }
  split.
  { intros j x Hx. destruct (Hrb j x Hx) as (o & _ & _ & -> & _). apply mom_le. }
  split.
  { intros k j x Hk Hx Hj. destruct (Hrb j x Hx) as (o & Ej & Hx' & -> & Hlt). apply (mom_ge L inv tw tr n tgt wl rl vownk lsteps); [lia|].
    cbn [pv_reads lite_view] in Hj. rewrite map_length in Hj.
    destruct (lr_main k Hk) as (er' & mr' & N3' & N4' & _). pose proof (P_literw.firstn_le_len er _ _ Hj) as Hm. fold (loff er j) in Hm.
    rewrite (lfetched_len L (vR (vlk n)) er _ N3) in Hm. destruct (lR_pre k n Hk) as [d Ed]. rewrite Ed, firstn_app_l, firstn_all in Hm by lia.
    pose proof (lfetched_len L _ _ (length (vR (vlk k))) N3') as K. rewrite firstn_all in K. rewrite (forall2_len _ _ _ N3'), firstn_all, N4', app_length in K. nodiv. lia. }
  split.
  { intros k j x Hk Hx Hd. cbn [pv_rdone lite_view] in Hd. destruct (Hrb j x Hx) as (o & Ej & Hx' & -> & Hlt). apply (mom_lt L inv tw tr n tgt wl rl vownk lstart lsteps); [lia|].
    destruct (lr_main k Hk) as (er' & mr' & N3' & N4' & _ & (m & Hm & M5 & [tl Htl]) & _). destruct (lR_pre k n Hk) as [d Ed].
    assert (Hjm : (S j <= m)%nat) by (rewrite M5, combine_length, !firstn_length in Hd; lia).
    assert (Hoff : (loff er (S j) <= length (vrl (Vk k)))%nat).
    { unfold loff. rewrite (lfetched_len L (vR (vlk n)) er _ N3), Ed, firstn_app_l by lia. rewrite <- (lfetched_len L _ _ (S j) N3'), Htl, app_length.
      pose proof (P_literw.firstn_le_len er' _ _ Hjm). lia. }
    nodiv. lia. }
  split.
  { intros j x x' Hx Hx' Hwd. destruct (Hrb j x Hx) as (o & Ej & _ & -> & _). destruct (Hrb j x' Hx') as (o' & Ej' & _ & -> & _).
    rewrite Ej in Ej'. injection Ej' as <-. cbn [pv_word lite_view] in Hwd. now rewrite Hwd. }
  intros j x j' x' Hx Hx' Hord. destruct (Hrb j x Hx) as (o & Ej & _ & -> & Hlt). destruct (Hrb j' x' Hx') as (o' & Ej' & _ & -> & Hlt').
  apply (mom_mono L inv tw tr n tgt wl rl vownk lsteps); [lia|]. destruct Hord as [Hj|[<- Hxx]].
  - assert (Hoff : (loff er (S j) <= loff er j')%nat) by (apply P_literw.firstn_le_len; exact Hj). clear - Hlt Hoff. nodiv. lia.
  - rewrite Ej in Ej'. injection Ej' as <-. assert (x / L <= x' / L) by (apply Z.div_le_mono; lia). nodiv. lia.
Qed.

(** if nothing can run, everything has returned *)
Theorem lite_quiet : (forall o, lx_internal o -> step (Vk n) o = (Vk n, [])) -> all_returned (lite_view L n vlk) n.
Proof.
  intros Hq. assert (Hqw : uquiescent (lwsys_step L (log_write tw) true) (v_w (Vk n))).
  { intros o Ho. pose proof (Hq (VW o) Ho) as K. cbn [lx_step] in K. destruct (lwsys_step L (log_write tw) true (v_w (Vk n)) o) as [w os].
    injection K as K1 K2. apply map_eq_nil in K2. subst os. now rewrite <- K1. }
  assert (Hqr : uquiescent (lrsys_step L (log_read tr)) (v_r (Vk n))).
  { intros o Ho. pose proof (Hq (VR o) Ho) as K. cbn [lx_step] in K. destruct (lrsys_step L (log_read tr) (v_r (Vk n)) o) as [r os].
    injection K as K1 K2. apply map_eq_nil in K2. subst os. now rewrite <- K1. }
  destruct (lr_main n ltac:(lia)) as (er & mr & HRM). destruct (lw_main n ltac:(lia)) as (ex & mw & HWM). split.
  - intros i Hi. cbn [pv_writes lite_view] in Hi. rewrite map_length in Hi. destruct (nth_error (vW (vlk n)) i) as [o|] eqn:Ei; [|apply nth_error_None in Ei; lia].
    destruct HWM as (M3 & _ & _ & _ & M7). destruct (forall2_nth' _ _ _ M3 _ _ Ei) as ([rs cs] & Ex & _).
    eexists. exists o, rs. split; [exact Ei|]. split; [|reflexivity]. rewrite (M7 Hqw). apply nth_combine'; [exact Ei|]. rewrite nth_error_map, Ex. reflexivity.
  - intros j Hj. cbn [pv_reads lite_view] in Hj. rewrite map_length in Hj. destruct (nth_error (vR (vlk n)) j) as [o|] eqn:Ej; [|apply nth_error_None in Ej; lia].
    destruct HRM as (N3 & _ & _ & _ & N7). destruct (forall2_nth' _ _ _ N3 _ _ Ej) as ([rs cs] & Ex & _).
    eexists. exists o, rs. split; [exact Ej|]. split; [|reflexivity]. rewrite (N7 Hqr). apply nth_combine'; [exact Ej|]. rewrite nth_error_map, Ex. reflexivity.
Qed.
End Lite.
