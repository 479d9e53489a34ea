(** Property theorems for wait() of the masters: C70. *)
From Coq Require Import ZArith Lia List Bool Permutation.
From Coq Require Import ZifyBool ZifyNat.
From Verif Require Import Py S_flat M_axi S_axi P_axi M_axil S_axil P_axil M_liteeng S_liteeng P_liteeng T_liteeng
  M_axieng S_axieng P_axitag P_axieng P_axiattr T_axieng M_apb S_apb P_apb P_apblife T_apb M_mwait S_mwait P_mwait.
Import ListNotations.
Open Scope Z_scope.

(** every operation of this half that was queued has its result, or was flushed by a reset *)
Definition axi_done {C E R} (l : list (xout C E R)) : Prop :=
  Permutation (xstarted l) (map (fun d => fst (fst d)) (xcompleted l) ++ xflushed l).
Definition lite_done {C E R} (l : list (gout C E R)) : Prop :=
  forall o, In o (started l) -> In o (map fst (completed l)) \/ In o (flushed l).
Definition apb_done (l : list aout) : Prop := forall o, In o (starts l) -> In o (map fst (sets l)).

(** ** The halves of the model are the engines of C30-C34 *)
Lemma logged_fold {S O L} (f : S -> O -> S * list L) (run : S -> list O -> S * list L) :
  (forall s, run s [] = (s, [])) ->
  (forall s o h, run s (o :: h) = let '(s1, o1) := f s o in let '(s2, o2) := run s1 h in (s2, o1 ++ o2)) ->
  forall h s l, fold_left (logged f) h (s, l) = let '(s', l') := run s h in (s', l ++ l').
Proof.
  intros H0 H1. induction h as [|o h IH]; intros s l; cbn [fold_left].
  - now rewrite H0, app_nil_r.
  - rewrite H1. unfold logged at 2. cbn [fst snd]. destruct (f s o) as [s1 o1]. rewrite IH. destruct (run s1 h). now rewrite app_assoc.
Qed.

(** ** AxiMaster *)
Lemma axm_halves c idw idr h : mw_s (fst (axm_run c idw idr h)) = (w_run c idw (lefts (other_ops h)), r_run c idr (rights (other_ops h))).
Proof.
  unfold axm_run. rewrite state_run. unfold axm_init. rewrite either_fold. f_equal.
  - rewrite (logged_fold (w_step c idw) (x_run (w_sends c) w_opens w_epat w_chk b_id op_id idw)) by reflexivity.
    unfold w_run. now destruct (x_run _ _ _ _ _ _ _ _ _).
  - rewrite (logged_fold (r_step c idr) (x_run (r_sends c) r_opens r_epat r_chk r_id op_id idr)) by reflexivity.
    unfold r_run. now destruct (x_run _ _ _ _ _ _ _ _ _).
Qed.

Lemma accounted_done {C E R} h (s : xeng C E R) l : accounted h s l -> e_idle s = x_is_idle s /\ (x_is_idle s = true <-> axi_done l).
Proof.
  intros (open & H1 & H2 & H3 & _). split; [exact H3|]. rewrite H2. unfold axi_done. split.
  - intros ->. now rewrite app_nil_r in H1.
  - intros H. apply Permutation_length in H1. apply Permutation_length in H. rewrite !app_length in *. destruct open; [reflexivity|cbn in *; lia].
Qed.

(** C70 for AxiMaster.  Whatever operations are issued, whatever the slave does, and whenever resets happen, with any number of calls
    of wait(), wait_read(), wait_write() at a time: [wait_ok] (S_mwait.v). *)
Theorem C70_axi : forall c idw idr h, let '(x, rs) := axm_run c idw idr h in
  let '(sw, lw) := w_run c idw (lefts (other_ops h)) in let '(sr, lr) := r_run c idr (rights (other_ops h)) in
  mw_s x = ((sw, lw), (sr, lr)) /\
  wait_ok (axm_step c idw idr) (axi_done lw) (axi_done lr) (wait_calls h) rs x.
Proof.
  intros c idw idr h. pose proof (axm_halves c idw idr h) as Hs.
  pose proof (C31_axi_write_idle_partial c idw (lefts (other_ops h))) as Hw. pose proof (C31_axi_read_idle_partial c idr (rights (other_ops h))) as Hr.
  destruct (w_run _ _ _) as [sw lw]. destruct (r_run _ _ _) as [sr lr].
  apply accounted_done in Hw as [W1 W2]. apply accounted_done in Hr as [R1 R2].
  unfold axm_run in *. match type of Hs with context [mw_run ?stp ?wi ?ri ?we ?re ?x0 h] => pose proof (inv_run stp wi ri we re axm_init h) as Hi end.
  destruct (mw_run _ _ _ _ _ _ h) as [x rs]. cbn [fst] in Hs. split; [exact Hs|].
  refine (wait_ok_iff _ _ _ _ _ _ _ _ _ _ (wait_ok_of _ _ _ _ _ x _ _ h rs Hi)); rewrite Hs; cbn [fst snd]; auto.
Qed.
Print Assumptions C70_axi.

(** ... and when everything is done, every pending call returns once it has run, in the order of the calls. *)
Theorem C70_axi_release : forall c idw idr h, let '(x, rs) := axm_run c idw idr h in
  axi_done (snd (w_run c idw (lefts (other_ops h)))) -> axi_done (snd (r_run c idr (rights (other_ops h)))) ->
  axm_run c idw idr (h ++ repeat (XRun 0%nat) (length (mw_calls x))) =
  ({| mw_s := mw_s x; mw_calls := [] |}, rs ++ map (fun w => (wc_id w, wc_kind w)) (mw_calls x)).
Proof.
  intros c idw idr h. pose proof (axm_halves c idw idr h) as Hs.
  pose proof (C31_axi_write_idle_partial c idw (lefts (other_ops h))) as Hw. pose proof (C31_axi_read_idle_partial c idr (rights (other_ops h))) as Hr.
  destruct (w_run _ _ _) as [sw lw]. destruct (r_run _ _ _) as [sr lr].
  apply accounted_done in Hw as [W1 W2]. apply accounted_done in Hr as [R1 R2]. cbn [snd].
  unfold axm_run in *. match type of Hs with context [mw_run ?stp ?wi ?ri ?we ?re ?x0 h] =>
    pose proof (inv_run stp wi ri we re axm_init h) as Hi; pose proof (fun x => release_of stp wi ri we re h x) as Hrel; pose proof (run_app stp wi ri we re h) as Happ end.
  destruct (mw_run _ _ _ _ _ _ h) as [x rs] eqn:E. cbn [fst] in Hs. intros Dw Dr. rewrite Happ, E.
  rewrite (Hrel x rs Hi); rewrite Hs; cbn [fst snd]; auto; apply W2 || apply R2; auto.
Qed.
Print Assumptions C70_axi_release.

(** ** AxiLiteMaster *)
Lemma alm_halves L h : mw_s (fst (alm_run L h)) = (lite_w_run L (lefts (other_ops h)), lite_r_run L (rights (other_ops h))).
Proof.
  unfold alm_run. rewrite state_run. unfold alm_init. rewrite either_fold. f_equal.
  - rewrite (logged_fold _ (eng_run (lite_w_sends L) (lite_w_need L))) by reflexivity.
    unfold lite_w_run. now destruct (eng_run _ _ _ _).
  - rewrite (logged_fold _ (eng_run (lite_r_sends L) (lite_r_need L))) by reflexivity.
    unfold lite_r_run. now destruct (eng_run _ _ _ _).
Qed.

(** the slave answers only what it was asked, and the operations are legal calls and distinct *)
Definition lite_env (L : Z) (hw : list (gop (Z * lwcmd) resp_t)) (hr : list (gop (Z * lrcmd) lrd)) : Prop :=
  answers_follow w_answered (snd (lite_w_run L hw)) /\ answers_follow r_answered (snd (lite_r_run L hr)) /\
  Forall (fun o => are_bytes (lc_data (snd o))) (initiated hw) /\ Forall (fun o => 0 <= lr_len (snd o)) (initiated hr) /\
  NoDup (initiated hw) /\ NoDup (initiated hr).

Theorem C70_lite : forall L h, 0 < L -> let '(x, rs) := alm_run L h in
  let '(sw, lw) := lite_w_run L (lefts (other_ops h)) in let '(sr, lr) := lite_r_run L (rights (other_ops h)) in
  lite_env L (lefts (other_ops h)) (rights (other_ops h)) ->
  mw_s x = ((sw, lw), (sr, lr)) /\
  wait_ok (alm_step L) (lite_done lw) (lite_done lr) (wait_calls h) rs x.
Proof.
  intros L h HL. pose proof (alm_halves L h) as Hs. unfold lite_env.
  pose proof (C31_lite_write_idle_partial L (lefts (other_ops h)) HL) as Hw. pose proof (C31_lite_read_idle_partial L (rights (other_ops h)) HL) as Hr.
  destruct (lite_w_run _ _) as [sw lw]. destruct (lite_r_run _ _) as [sr lr]. cbn [snd].
  unfold alm_run in *. match type of Hs with context [mw_run ?stp ?wi ?ri ?we ?re ?x0 h] => pose proof (inv_run stp wi ri we re alm_init h) as Hi end.
  destruct (mw_run _ _ _ _ _ _ h) as [x rs]. cbn [fst] in Hs. intros (E1 & E2 & E3 & E4 & E5 & E6). split; [exact Hs|].
  specialize (Hw E1 E3 E5) as (W2 & W1 & _). specialize (Hr E2 E4 E6) as (R2 & R1 & _).
  refine (wait_ok_iff _ _ _ _ _ _ _ _ _ _ (wait_ok_of _ _ _ _ _ x _ _ h rs Hi)); rewrite Hs; cbn [fst snd]; auto.
Qed.
Print Assumptions C70_lite.

Theorem C70_lite_release : forall L h, 0 < L -> let '(x, rs) := alm_run L h in
  lite_env L (lefts (other_ops h)) (rights (other_ops h)) ->
  lite_done (snd (lite_w_run L (lefts (other_ops h)))) -> lite_done (snd (lite_r_run L (rights (other_ops h)))) ->
  alm_run L (h ++ repeat (XRun 0%nat) (length (mw_calls x))) =
  ({| mw_s := mw_s x; mw_calls := [] |}, rs ++ map (fun w => (wc_id w, wc_kind w)) (mw_calls x)).
Proof.
  intros L h HL. pose proof (alm_halves L h) as Hs. unfold lite_env.
  pose proof (C31_lite_write_idle_partial L (lefts (other_ops h)) HL) as Hw. pose proof (C31_lite_read_idle_partial L (rights (other_ops h)) HL) as Hr.
  destruct (lite_w_run _ _) as [sw lw]. destruct (lite_r_run _ _) as [sr lr]. cbn [snd].
  unfold alm_run in *. match type of Hs with context [mw_run ?stp ?wi ?ri ?we ?re ?x0 h] =>
    pose proof (inv_run stp wi ri we re alm_init h) as Hi; pose proof (fun x => release_of stp wi ri we re h x) as Hrel; pose proof (run_app stp wi ri we re h) as Happ end.
  destruct (mw_run _ _ _ _ _ _ h) as [x rs] eqn:E. cbn [fst] in Hs. intros (E1 & E2 & E3 & E4 & E5 & E6) Dw Dr. rewrite Happ, E.
  specialize (Hw E1 E3 E5) as (W2 & W1 & _). specialize (Hr E2 E4 E6) as (R2 & R1 & _).
  rewrite (Hrel x rs Hi); rewrite Hs; cbn [fst snd]; auto; apply W2 || apply R2; auto.
Qed.
Print Assumptions C70_lite_release.

(** ** ApbMaster *)
Lemma apm_half L ep h : mw_s (fst (apm_run L ep h)) = b_run L ep apb_init (other_ops h).
Proof.
  unfold apm_run. rewrite state_run. rewrite (logged_fold _ (b_run L ep)) by reflexivity. now destruct (b_run _ _ _ _).
Qed.

(** missing, as in C31_apb_idle_partial: histories that assert reset between lines 341 and 345 of apb.py *)
Theorem C70_apb_partial : forall L ep h, 0 < L -> Forall bop_ok (other_ops h) -> no_reset_in_window L ep apb_init (other_ops h) ->
  let '(x, rs) := apm_run L ep h in let '(s, l) := b_run L ep apb_init (other_ops h) in
  mw_s x = (s, l) /\ wait_ok (apm_step L ep) (apb_done l) True (wait_calls h) rs x.
Proof.
  intros L ep h HL Ho Hw. pose proof (apm_half L ep h) as Hs.
  pose proof (C31_apb_idle_partial L ep _ HL Ho Hw) as Hi0. destruct (b_run L ep apb_init (other_ops h)) as [s l]. destruct Hi0 as [W2 W1].
  unfold apm_run in *. match type of Hs with context [mw_run ?stp ?wi ?ri ?we ?re ?x0 h] => pose proof (inv_run stp wi ri we re (apb_init, []) h) as Hi end.
  destruct (mw_run _ _ _ _ _ _ h) as [x rs]. cbn [fst] in Hs. split; [exact Hs|].
  refine (wait_ok_iff _ _ _ _ _ _ _ _ _ _ (wait_ok_of _ _ _ _ _ x _ _ h rs Hi)); rewrite ?Hs; cbn [fst snd]; auto; tauto.
Qed.
Print Assumptions C70_apb_partial.

Theorem C70_apb_release_partial : forall L ep h, 0 < L -> Forall bop_ok (other_ops h) -> no_reset_in_window L ep apb_init (other_ops h) ->
  let '(x, rs) := apm_run L ep h in apb_done (snd (b_run L ep apb_init (other_ops h))) ->
  apm_run L ep (h ++ repeat (XRun 0%nat) (length (mw_calls x))) =
  ({| mw_s := mw_s x; mw_calls := [] |}, rs ++ map (fun w => (wc_id w, wc_kind w)) (mw_calls x)).
Proof.
  intros L ep h HL Ho Hw. pose proof (apm_half L ep h) as Hs.
  pose proof (C31_apb_idle_partial L ep _ HL Ho Hw) as Hi0. destruct (b_run L ep apb_init (other_ops h)) as [s l]. destruct Hi0 as [W2 W1]. cbn [snd].
  unfold apm_run in *. match type of Hs with context [mw_run ?stp ?wi ?ri ?we ?re ?x0 h] =>
    pose proof (inv_run stp wi ri we re (apb_init, []) h) as Hi; pose proof (fun x => release_of stp wi ri we re h x) as Hrel; pose proof (run_app stp wi ri we re h) as Happ end.
  destruct (mw_run _ _ _ _ _ _ h) as [x rs] eqn:E. cbn [fst] in Hs. intros D. rewrite Happ, E.
  rewrite (Hrel x rs Hi); rewrite ?Hs; cbn [fst snd]; auto. now apply W2.
Qed.
Print Assumptions C70_apb_release_partial.

(** README: "wait(): blocking wait until all outstanding operations complete".  Not so for operations that were begun with
    init_write() / init_read() in the same instant: the call of wait() returns at once, nothing has been sent, nothing has completed. *)
Theorem C70_wait_after_init_refuted :
  (forall c idw idr o t, let '(x, rs) := axm_run c idw idr [XOp (inl (PInit o)); XCall t KAll] in
     rs = [(t, KAll)] /\ e_pend (fst (fst (mw_s x))) = [o] /\ xsent (snd (fst (mw_s x))) = [] /\ xcompleted (snd (fst (mw_s x))) = []) /\
  (forall L o t, let '(x, rs) := alm_run L [XOp (inl (GInit o)); XCall t KAll] in
     rs = [(t, KAll)] /\ g_pend (fst (fst (mw_s x))) = [o] /\ sent (snd (fst (mw_s x))) = [] /\ completed (snd (fst (mw_s x))) = []) /\
  (forall L ep o t, let '(x, rs) := apm_run L ep [XOp (BInit o); XCall t KW] in
     rs = [(t, KW)] /\ b_pend (fst (mw_s x)) = [o] /\ b_psel (fst (mw_s x)) = false /\ sets (snd (mw_s x)) = []).
Proof. repeat split. Qed.
Print Assumptions C70_wait_after_init_refuted.

(** three calls while a read and a write are in flight: wait_write() (2) returns after the write, wait_read() (3) and wait() (1) not before
    the read; a call that was woken by the end of the write sleeps again. *)
Example C70_nontrivial :
  let c := {| m_lanes := 4; m_mbl := 256 |} in
  let rd : rop := (9, None, {| rc_addr := 0; rc_len := 4; rc_burst := INCR; rc_size := 2; rc_side := T_axieng.ex_side |}) in
  let w o := XOp (inl o) : mwop (xop wop bch + xop rop rch) in let r o := XOp (inr o) : mwop (xop wop bch + xop rop rch) in
  let h1 := [XCall 0 KAll; w (PIssue (T_axieng.ex_w 1 None 0)); r (PIssue rd); XCall 1 KAll; XCall 2 KW; XCall 3 KR; w PGet; w PSend; w PSend; w (PResp (T_axieng.ex_b 0 OKAY));
             w (PCGet 0); w (PCResp 0)] in
  let h2 := [XRun 0; XRun 0; r PGet; r PSend; r (PResp {| r_id := 0; r_data := 7; r_resp := OKAY; r_last := true; r_user := 0 |}); r (PCGet 0)] in
  let h3 := [r (PCResp 0); XRun 1; XRun 0] in
  let show h := let '(x, rs) := axm_run c 4 4 h in (map (fun w => (wc_id w, wc_pos w, wc_run w)) (mw_calls x), map fst rs) in
  show h1 = ([(1, AtW, true); (2, AtW, true); (3, AtR, false)], [0]) /\ show (h1 ++ h2) = ([(3, AtR, false); (1, AtR, false)], [0; 2]) /\ show (h1 ++ h2 ++ h3) = ([], [0; 2; 1; 3]).
Proof. vm_compute. auto. Qed.

(** AxiLiteMaster: the write completes; APB: an operation is in flight, wait() sleeps; a reset wakes it *)
Example C70_lite_nontrivial :
  let o := (1, {| lc_addr := 2; lc_data := [1; 2]; lc_prot := 2 |}) in
  let w o := XOp (inl o) : mwop (gop (Z * lwcmd) resp_t + gop (Z * lrcmd) lrd) in
  let h := [w (GIssue o); XCall 1 KAll; w GGet; w GSend; w GSend; w GRGet; XRun 0] in
  let show h := let '(x, rs) := alm_run 4 h in (map (fun w => (wc_id w, wc_pos w, wc_run w)) (mw_calls x), map fst rs) in
  show h = ([(1, AtW, false)], []) /\ show (h ++ [w (GResp OKAY)]) = ([(1, AtW, true)], []) /\
  show (h ++ [w (GResp OKAY); XRun 0]) = ([], [1]) /\ show (h ++ [w (GReset true); w (GIssue o); XRun 0]) = ([(1, AtW, false)], []).
Proof. vm_compute. auto. Qed.
Example C70_apb_nontrivial :
  let show h := let '(x, rs) := apm_run 4 true h in (map (fun w => (wc_id w, wc_run w)) (mw_calls x), map fst rs) in
  let h := [XOp (BIssue (ACR {| lr_addr := 0; lr_len := 4; lr_prot := 2 |})); XCall 1 KW; XOp BWake; XRun 0] in
  show h = ([(1, false)], []) /\ show (h ++ [XOp (BEdge false false 0 false); XOp (BReset true)]) = ([(1, true)], []) /\
  show (h ++ [XOp (BReset true); XRun 0]) = ([], [1]).
Proof. vm_compute. auto. Qed.
