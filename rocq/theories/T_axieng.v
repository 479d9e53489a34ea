(** Property theorems for the AXI master's tasks, IDs and reset: C30, and C31, C32 for AXI. *)
From Coq Require Import ZArith Lia List Bool Permutation.
From Coq Require Import ZifyBool ZifyNat.
From Verif Require Import Py M_axi M_liteeng M_axieng S_axieng P_liteeng P_axitag P_axieng P_axiattr.
Import ListNotations.
Open Scope Z_scope.

(* ------------------------------------------------------------------ *)
(** C30.  Whatever the order in which the tasks run and the other side answers, as long as it answers the bursts of
    each ID in order and not before they were requested: no task raises; since the last reset the transfers
    made are the first transfers of the operations in issue order, with the requested ID or the
    automatic IDs in turn; for each ID t the completed operations are the first ones issued on t, in order, each with its
    own consecutive responses of ID t, as many as its bursts call for.  If no task can run, all transfers were made and only missing
    responses keep an operation from completing; if nothing is missing, all have completed. *)
Definition matched {C E R} (sends : C -> Z -> list E) (ask : C -> option Z) (idn : Z) (etag : E -> Z) (owes : E -> list bool)
  (rtag : R -> Z) (l : list (xout C E R)) (stuck : Prop) : Prop :=
  let ep := xepoch l in
  let ids := assigned ask idn 0 (xstarted ep) in
  let all := flat_map (fun p => sends (fst p) (snd p)) ids in
  xcrashed l = false /\
  (forall d, In d (xcompleted ep) -> exists t, snd (fst d) = Some t) /\
  (exists more, all = xsent ep ++ more) /\
  (stuck -> xsent ep = all) /\
  forall t, let cs := with_tag t ids in exists segs rest,
    (length segs <= length cs)%nat /\
    completed_on t ep = combine (firstn (length segs) cs) segs /\
    answers rtag t ep = concat segs ++ rest /\
    Forall2 (fun c seg => length seg = length (flat_map owes (sends c t))) (firstn (length segs) cs) segs /\
    (stuck ->
       (length segs = length cs \/
        exists c, nth_error cs (length segs) = Some c /\ (length rest < length (flat_map owes (sends c t)))%nat) /\
       (length (answers rtag t ep) = length (owed etag owes t ep) -> length segs = length cs)).

Definition task_op {C R} (o : xop C R) : Prop :=
  match o with PGet | PSend | PCGet _ | PCResp _ => True | _ => False end.

(** nothing is missing, so everything completed *)
Lemma nothing_missing {A B} (f : A -> nat) (cs : list A) (segs : list (list B)) (rest : list B) :
  (length segs <= length cs)%nat ->
  Forall2 (fun c seg => length seg = f c) (firstn (length segs) cs) segs ->
  (length segs = length cs \/ exists c, nth_error cs (length segs) = Some c /\ (length rest < f c)%nat) ->
  length (concat segs ++ rest) = list_sum (map f cs) -> length segs = length cs.
Proof.
  intros Hl HF Hs He. destruct Hs as [Hs|(c & Hc & Hr)]; auto. exfalso.
  assert (H1 : length (concat segs) = list_sum (map f (firstn (length segs) cs))).
  { clear - HF. induction HF as [|c seg cs' segs' Hc _ IH]; auto. cbn [concat map list_sum fold_right]. rewrite app_length.
    unfold list_sum in *. cbn. lia. }
  apply nth_error_split in Hc. destruct Hc as (l1 & l2 & -> & Hl1).
  rewrite <- Hl1, firstn_app, Nat.sub_diag, firstn_all in H1. cbn [firstn] in H1. rewrite app_nil_r in H1.
  rewrite app_length, H1, map_app, list_sum_app in He. cbn [map] in He.
  change (list_sum (f c :: map f l2)) with (f c + list_sum (map f l2))%nat in He. lia.
Qed.

Section Inst.
Context {C E R : Type}.
Variable sends : C -> Z -> list E.
Variable opens : E -> bool.
Variable epat : E -> list bool.
Variable chk : bool -> R -> bool.
Variable rtag : R -> Z.
Variable ask : C -> option Z.
Variable idn : Z.
Variable etag : E -> Z.
Hypothesis Htag : forall c u e, In e (sends c u) -> opens e = true -> etag e = u.
Hypothesis Hpat0 : forall e, opens e = false -> epat e = [].
Hypothesis Hpat1 : forall e, opens e = true -> exists k, epat e = repeat false k ++ [true].
Hypothesis Hidn : 0 < idn.
Local Notation step := (@x_step C E R sends opens epat chk rtag ask idn).
Local Notation run := (@x_run C E R sends opens epat chk rtag ask idn).

Lemma matched_of h : let '(s, l) := run xeng_init h in
  conforms etag epat chk rtag l ->
  matched sends ask idn etag epat rtag l (e_wtask s = TRun /\ forall o, task_op o -> step s o = (s, [])).
Proof.
  pose proof (xeng_attribution sends opens epat chk rtag ask idn etag Htag Hpat0 Hpat1 Hidn h) as H.
  destruct (run xeng_init h) as [s l]. intros Hcf. specialize (H Hcf). cbv zeta in H. unfold matched. cbv zeta.
  destruct H as (H1 & H2 & H3 & H4 & H5).
  assert (Hst : (e_wtask s = TRun /\ forall o, task_op o -> step s o = (s, [])) ->
     xstuck sends opens epat chk rtag ask idn s).
  { intros (S1 & S2). repeat split; auto; apply S2; exact I. }
  split; [exact H1|]. split; [exact H2|]. split; [exact H3|]. split; [exact (fun Hs => H4 (Hst Hs))|].
  intros t. destruct (H5 t) as (segs & rest & K1 & K2 & K3 & K4 & K5). exists segs, rest.
  do 4 (split; [assumption|]). intros Hs. split; [exact (K5 (Hst Hs))|]. intros Hlen.
  refine (nothing_missing (fun c => length (flat_map epat (sends c t))) _ segs rest K1 K4 (K5 (Hst Hs)) _).
  rewrite <- K3, Hlen. unfold owed. rewrite (H4 (Hst Hs)).
  change (length (owedE epat etag t (sendsA sends (assigned ask idn 0 (xstarted (xepoch l))))) =
    list_sum (map (fun c => length (flat_map epat (sends c t))) (with_tag t (assigned ask idn 0 (xstarted (xepoch l)))))).
  rewrite (owedE_pfull sends opens epat ask idn etag Htag Hpat0). unfold pfull.
  clear. generalize (with_tag t (assigned ask idn 0 (xstarted (xepoch l)))) as cs.
  induction cs as [|c cs IH]; [reflexivity|]. cbn [flat_map map]. rewrite app_length, IH. reflexivity.
Qed.

End Inst.

(** C31, C32 *)
Section Acc.
Context {C E R : Type}.
Variable sends : C -> Z -> list E.
Variable opens : E -> bool.
Variable epat : E -> list bool.
Variable chk : bool -> R -> bool.
Variable rtag : R -> Z.
Variable ask : C -> option Z.
Variable idn : Z.
Local Notation run := (@x_run C E R sends opens epat chk rtag ask idn).

Definition accounted (h : list (xop C R)) (s : xeng C E R) (l : list (xout C E R)) : Prop :=
  exists open : list C,
    Permutation (xstarted l) (map (fun d => fst (fst d)) (xcompleted l) ++ xflushed l ++ open) /\
    (x_is_idle s = true <-> open = []) /\ e_idle s = x_is_idle s /\
    Permutation (xinitiated h) (xstarted l ++ e_pend s).

Lemma accounted_of h : let '(s, l) := run xeng_init h in accounted h s l.
Proof.
  pose proof (pinv_run sends opens epat chk rtag ask idn h) as H.
  pose proof (xinitiated_run sends opens epat chk rtag ask idn h) as Hi.
  destruct (run xeng_init h) as [s l]. destruct H as (_ & H1 & H2 & H3). exists (xpending s).
  split; [exact H1|]. split; [|split; [exact H3|exact Hi]]. unfold x_is_idle. rewrite H2.
  destruct (xpending s); [split; auto|]. split; [|discriminate]. unfold zlen. cbn [length]. lia.
Qed.

Lemma reset_of h : let '(s, l) := run xeng_init (h ++ [PReset true]) in
  Permutation (xstarted l) (map (fun d => fst (fst d)) (xcompleted l) ++ xflushed l) /\
  x_is_idle s = true /\ e_idle s = true.
Proof.
  pose proof (pinv_run sends opens epat chk rtag ask idn (h ++ [PReset true])) as H.
  pose proof (xreset_state sends opens epat chk rtag ask idn h) as Hr.
  destruct (run xeng_init (h ++ [PReset true])) as [s l]. destruct H as (_ & H1 & H2 & H3). destruct Hr as (R1 & R2 & R3).
  rewrite R1, app_nil_r in H1. split; [exact H1|]. unfold x_is_idle. rewrite R2. auto.
Qed.
End Acc.

(** *** Write: a B response answers an AW *)
Definition aw_tag (e : wev) : Z := match e with EvAW a => ax_id a | EvW _ => 0 end.
Definition aw_owes (e : wev) : list bool := match e with EvAW _ => [true] | EvW _ => [] end.
Definition any_resp (b : bool) (r : bch) : bool := true.

Lemma mw_loop_tag c u cmd cycles todo : forall k st e, In e (fst (mw_loop c u cmd cycles todo k st)) -> w_opens e = true -> aw_tag e = u.
Proof.
  induction todo as [|n IH]; intros k st e; cbn [mw_loop]; [intros []|].
  destruct (mw_iter c u cmd cycles k st) as [ev r] eqn:E1.
  assert (Hev : forall e, In e ev -> w_opens e = true -> aw_tag e = u).
  { unfold mw_iter in E1. destruct (mw_strb _ _ _) as [sb|]; [|injection E1 as <- <-; intros ? []].
    destruct (mw_val _ _ _ _) as [[v off]|]; [|injection E1 as <- <-; intros ? []]. injection E1 as <- <-.
    intros e0. rewrite in_app_iff. intros [H|[<-|[]]]; [|discriminate]. destruct (_ <=? _); [|destruct H].
    destruct H as [<-|[]]. reflexivity. }
  destruct r as [st'|er]; cbn [fst]; [|apply Hev]. specialize (IH (k + 1) st').
  destruct (mw_loop c u cmd cycles n (k + 1) st') as [ev' r']. cbn [fst] in *. rewrite in_app_iff. intros [H|H]; auto.
Qed.

Theorem C30_write_attribution : forall c idn h, 0 < idn ->
  let '(s, l) := w_run c idn h in
  conforms aw_tag aw_owes any_resp b_id l ->
  matched (w_sends c) op_id idn aw_tag aw_owes b_id l
    (e_wtask s = TRun /\ forall o, task_op o -> w_step c idn s o = (s, [])).
Proof.
  intros c idn h Hid. apply matched_of; auto.
  - intros o u e. apply mw_loop_tag.
  - intros []; auto; discriminate.
  - intros [a|w]; [|discriminate]. intros _. exists 0%nat. reflexivity.
Qed.
Print Assumptions C30_write_attribution.

(** *** Read: ax_len + 1 responses answer an AR, the last one with rlast *)
Definition ar_owes (a : axc) : list bool := repeat false (Z.to_nat (ax_len a)) ++ [true].
Definition rlast_is (b : bool) (r : rch) : bool := Bool.eqb (r_last r) b.

Lemma mr_loop_tag c u cmd cycles todo : forall k n bl cur e, In e (mr_loop c u cmd cycles todo k n bl cur) -> ax_id e = u.
Proof.
  induction todo as [|m IH]; intros k n bl cur e; cbn [mr_loop]; [intros []|].
  rewrite in_app_iff. intros [H|H]; [|eapply IH; exact H]. destruct (_ <=? _); [|destruct H]. destruct H as [<-|[]]. reflexivity.
Qed.

Theorem C30_read_attribution : forall c idn h, 0 < idn ->
  let '(s, l) := r_run c idn h in
  conforms ax_id ar_owes rlast_is r_id l ->
  matched (r_sends c) op_id idn ax_id ar_owes r_id l
    (e_wtask s = TRun /\ forall o, task_op o -> r_step c idn s o = (s, [])).
Proof.
  intros c idn h Hid. apply matched_of; auto.
  - intros o u e He _. eapply mr_loop_tag. exact He.
  - discriminate.
  - intros a _. exists (Z.to_nat (ax_len a)). reflexivity.
Qed.
Print Assumptions C30_read_attribution.

(** three writes with two automatic IDs and a requested one; the answers to the later ones come first *)
Definition ex_side : side := {| s_lock := 0; s_cache := 3; s_prot := 2; s_qos := 0; s_region := 0; s_user := 0 |}.
Definition ex_w (n : Z) (id : option Z) (a : Z) : wop :=
  (n, id, {| wc_addr := a; wc_data := [1; 2]; wc_burst := INCR; wc_size := 2; wc_side := ex_side; wc_wuser := WInt 0 |}).
Definition ex_b (t : Z) (r : resp_t) : bch := {| b_id := t; b_resp := r; b_user := 0 |}.
Definition ex_h : list (xop wop bch) :=
  [PIssue (ex_w 1 None 0); PInit (ex_w 2 (Some 7) 8); PIssue (ex_w 3 None 16); PStart 0; PGet; PSend; PSend; PGet; PSend;
   PSend; PGet; PSend; PSend; PResp (ex_b 1 SLVERR); PResp (ex_b 7 OKAY); PCGet 2; PCGet 1; PCResp 1; PResp (ex_b 0 DECERR); PCResp 2;
   PCGet 0; PCResp 0].
Example C30_nontrivial :
  let '(s, l) := w_run {| m_lanes := 4; m_mbl := 256 |} 4 ex_h in
  map (fun d => (fst (fst (fst (fst d))), snd (fst d), map b_resp (snd d))) (xcompleted l) =
    [(3, Some 1, [SLVERR]); (2, Some 7, [OKAY]); (1, Some 0, [DECERR])] /\
  x_is_idle s = true /\ m_map (e_mgr s) = [] /\ m_idle (e_mgr s) = [0%nat; 2%nat; 1%nat].
Proof. vm_compute. auto. Qed.

(** The assumption is needed: a response nobody asked for ends the response task, later responses are not
    taken and the operation does not complete. *)
Theorem C30_unexpected_response_refuted : exists c idn h,
  let '(s, l) := w_run c idn h in
  0 < idn /\ xcrashed l = true /\ (forall r, w_step c idn s (PResp r) = (s, [])) /\
  x_is_idle s = false /\ xcompleted l = [].
Proof.
  exists {| m_lanes := 4; m_mbl := 256 |}, 4, [PIssue (ex_w 1 None 0); PResp (ex_b 0 OKAY); PGet; PSend; PSend; PCGet 0].
  vm_compute. repeat split; auto.
Qed.
Print Assumptions C30_unexpected_response_refuted.

(* ------------------------------------------------------------------ *)
(** C31, for every history, whatever the other side answers.  The queued operations are, as a multiset, the completed ones,
    those completed with None at a reset and those still open; idle() is true exactly if none is open, the event wait() sleeps on is set
    exactly then, and the initiated operations are the queued ones and those whose init_ task did not run yet. *)
Theorem C31_axi_write_idle_partial : forall c idn h, let '(s, l) := w_run c idn h in accounted h s l.
Proof. intros c idn h. apply accounted_of. Qed.
Print Assumptions C31_axi_write_idle_partial.
Theorem C31_axi_read_idle_partial : forall c idn h, let '(s, l) := r_run c idn h in accounted h s l.
Proof. intros c idn h. apply accounted_of. Qed.
Print Assumptions C31_axi_read_idle_partial.

(** C31 is false for init_write / init_read: until the task runs, idle() does not see the operation *)
Theorem C31_axi_init_not_counted_refuted : forall c idn o,
  let '(s, l) := w_run c idn [PInit o] in
  In o (xinitiated [PInit o : xop wop bch]) /\ x_is_idle s = true /\ e_idle s = true /\ xcompleted l = [] /\ xflushed l = [].
Proof. intros c idn o. cbn. auto 8. Qed.
Print Assumptions C31_axi_init_not_counted_refuted.

Example C31_axi_nontrivial :
  let c := {| m_lanes := 4; m_mbl := 256 |} in
  let idle n := x_is_idle (fst (w_run c 4 (firstn n ex_h))) in
  (idle 0%nat, idle 1%nat, idle 20%nat, idle 21%nat, idle 22%nat) = (true, false, false, false, true).
Proof. vm_compute. reflexivity. Qed.

(** C32.  For every history that ends with the assertion of reset every queued operation completed exactly once, with
    a result or with None, and the master is idle.  (That no operation completes twice before the reset is C31_axi_*.) *)
Theorem C32_axi_write_reset : forall c idn h, let '(s, l) := w_run c idn (h ++ [PReset true]) in
  Permutation (xstarted l) (map (fun d => fst (fst d)) (xcompleted l) ++ xflushed l) /\ x_is_idle s = true /\ e_idle s = true.
Proof. intros c idn h. apply reset_of. Qed.
Print Assumptions C32_axi_write_reset.
Theorem C32_axi_read_reset : forall c idn h, let '(s, l) := r_run c idn (h ++ [PReset true]) in
  Permutation (xstarted l) (map (fun d => fst (fst d)) (xcompleted l) ++ xflushed l) /\ x_is_idle s = true /\ e_idle s = true.
Proof. intros c idn h. apply reset_of. Qed.
Print Assumptions C32_axi_read_reset.

(** reset with one operation completed, one waiting for its response, one being sent, one queued *)
Example C32_axi_nontrivial :
  let c := {| m_lanes := 4; m_mbl := 256 |} in
  let l := snd (w_run c 4 (firstn 18 ex_h ++ [PIssue (ex_w 4 None 4); PIssue (ex_w 5 None 4); PGet; PSend; PReset true])) in
  (map (fun d => fst (fst (fst (fst d)))) (xcompleted l), map (fun o => fst (fst o)) (xflushed l)) = ([3], [5; 4; 1; 2]).
Proof. vm_compute. reflexivity. Qed.
