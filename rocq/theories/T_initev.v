(** C81: calls of the masters and the events of init_write and init_read. *)
From Coq Require Import ZArith List Bool Permutation Lia.
From Verif Require Import Py M_axi M_axil M_liteeng S_liteeng T_liteeng M_axieng S_axieng T_axieng M_apb S_apb T_apb M_axiargs P_axiargs M_initev S_initev P_initev P_initev2.
Import ListNotations.
Open Scope Z_scope.

Section Gen.
Context {S O U C X R : Type}.
Variable stp : S -> O -> S * list U.
Variable issue : C -> O.
Variable env : O -> bool.
Variable beg : U -> option X.
Variable fin : U -> option (X * R).
Variable key : X -> Z.
Variable cmd : X -> C.
Variable s0 : S.
Hypothesis Hissue : forall s c, exists x, ibegs beg (snd (stp s (issue c))) = [x] /\ cmd x = c /\ Forall (fun u => fin u = None) (snd (stp s (issue c))).

Definition news (ts : list (task C X R)) : list C := flat_map (fun t => match t_st t with TNew c => [c] | _ => [] end) ts.
Lemma asked_split : forall (h : list (iop O C)) (y : ist S C X R) (l : list (iout U X R)),
  Permutation (asked h) (map (fun p => (cmd (snd (fst p)), fst (fst p))) (ended l) ++ map (asked_of cmd) (i_ts y)) ->
  Permutation (queued beg l) (map (fun p => snd (fst p)) (ended l) ++ flat_map op_of (i_ts y)) ->
  Permutation (map fst (asked h)) (map cmd (queued beg l) ++ news (i_ts y)).
Proof.
  intros h y l Ha Hq. etransitivity; [apply Permutation_map; exact Ha|]. rewrite map_app, !map_map. cbn [fst].
  etransitivity; [|apply Permutation_app_tail; apply Permutation_map; symmetry; exact Hq]. rewrite map_app, !map_map, <- app_assoc. apply Permutation_app_head.
  clear Ha Hq. induction (i_ts y) as [|[e [c|x|x r]] ts IH]; [constructor| | |].
  - change (Permutation (c :: map (fun t => fst (asked_of cmd t)) ts) (map cmd (flat_map op_of ts) ++ c :: news ts)).
    etransitivity; [apply perm_skip; exact IH|]. apply Permutation_middle.
  - change (Permutation (cmd x :: map (fun t => fst (asked_of cmd t)) ts) (cmd x :: map cmd (flat_map op_of ts) ++ news ts)). now apply perm_skip.
  - change (Permutation (cmd x :: map (fun t => fst (asked_of cmd t)) ts) (cmd x :: map cmd (flat_map op_of ts) ++ news ts)). now apply perm_skip.
Qed.

Lemma fold_some : forall (us : list U) k (r0 : R),
  fold_left (fun o u => match fin u with Some (y, r1) => if key y =? k then Some r1 else o | None => o end) us (Some r0) <> None.
Proof.
  induction us as [|u us IH]; intros k r0; cbn [fold_left]; [discriminate|]. destruct (fin u) as [[y r1]|]; [destruct (key y =? k)|]; apply IH.
Qed.
Lemma fin_some : forall (us : list U) x r (o : option R), In (x, r) (flat_map (fun u => match fin u with Some p => [p] | None => [] end) us) ->
  fold_left (fun o u => match fin u with Some (y, r1) => if key y =? key x then Some r1 else o | None => o end) us o <> None.
Proof.
  induction us as [|u us IH]; cbn [flat_map fold_left]; [intros x r o []|]. intros x r o Hr. apply in_app_or in Hr as [Hr|Hr]; [|now apply (IH x r)].
  destruct (fin u) as [[y' r']|]; [|destruct Hr]. destruct Hr as [Hr|[]]. inversion Hr; subst. rewrite Z.eqb_refl. apply fold_some.
Qed.

(** when all that was queued is completed and no task can go on, every call has come to its end *)
Lemma all_ended : forall (h : list (iop O C)) (y : ist S C X R) (l : list (iout U X R)), kept beg fin key cmd h y l ->
  (forall x, In x (queued beg l) -> exists r, In (x, r) (finished fin l)) ->
  (forall n, istep stp issue env beg fin key y (IRun n) = (y, [])) ->
  i_ts y = [] /\ Permutation (asked h) (map (fun p => (cmd (snd (fst p)), fst (fst p))) (ended l)).
Proof.
  intros h y l (Ha & Hq & _ & Ht) Hall Hrun. assert (E : i_ts y = []); [|split; auto; rewrite E in Ha; cbn in Ha; now rewrite app_nil_r in Ha].
  destruct (i_ts y) as [|[e st] ts] eqn:E; auto. exfalso. specialize (Hrun 0%nat). cbn [istep] in Hrun. rewrite E in Hrun. cbn [nth_error t_st] in Hrun.
  specialize (Ht {| t_ev := e; t_st := st |} (or_introl eq_refl)). cbn [t_st] in Ht. destruct st as [c|x|x r].
  - unfold i_issue in Hrun. destruct (Hissue (i_s y) c) as (x & Ex & _). destruct (stp (i_s y) (issue c)) as [s' us]. cbn [snd] in Ex. inversion Hrun as [[H1 H2]].
    destruct us; [discriminate|discriminate].
  - destruct (Hall x) as (r & Hr). { eapply Permutation_in; [symmetry; exact Hq|]. apply in_or_app. right. cbn. now left. }
    exact (fin_some (did l) x r None Hr Ht).
  - discriminate.
Qed.
End Gen.

Definition wkey (o : wop) : Z := fst (fst o).
Definition rkey (o : rop) : Z := fst (fst o).

Lemma nodup_queued {O C Y} (key : C -> Z) (h : list (iop O C)) (q : list C) (n : list C) (e : list Y) :
  NoDup (map key (map fst (asked h))) -> Permutation (map fst (asked h)) (map (fun x => x) q ++ n) -> NoDup (map key q).
Proof.
  intros Hn Hp. rewrite map_id in Hp. apply (nodup_app_l (map key q) (map key n)). rewrite <- map_app. eapply Permutation_NoDup; [|exact Hn]. now apply Permutation_map.
Qed.

(** ** AXI.  Operations are told apart by the number in front; the calls of a history have distinct numbers. *)
Theorem C81_axi_write : forall c idn h, NoDup (map wkey (map fst (asked h))) ->
  let '(y, l) := xw_calls c idn h in
  kept axi_queues axi_gives wkey (fun o => o) h y l /\
  (x_is_idle (i_s y) = true -> (forall n, istep (w_step c idn) PIssue x_env x_beg x_fin wkey y (IRun n) = (y, [])) ->
   i_ts y = [] /\ Permutation (asked h) (map (fun p => (snd (fst p), fst (fst p))) (ended l))).
Proof.
  intros c idn h Hn. unfold xw_calls.
  pose proof (x_issue_ok (R:=bch) (w_sends c) w_opens w_epat w_chk b_id op_id idn) as Hi.
  pose proof (x_env_ok (R:=bch) (w_sends c) w_opens w_epat w_chk b_id op_id idn) as He.
  pose proof (x_fin_known (R:=bch) (w_sends c) w_opens w_epat w_chk b_id op_id idn wkey) as Hf.
  pose proof (calls_inv (w_step c idn) PIssue x_env x_beg x_fin wkey (fun o => o) xeng_init Hi He Hf h) as HI.
  change (fun o : wop => fst (fst o)) with wkey. destruct (irun (w_step c idn) PIssue x_env x_beg x_fin wkey (i_init xeng_init) h) as [y l].
  destruct HI as ((g & Eg & _) & Ha & Hq & Hr). specialize (Hr (nodup_queued wkey h _ _ [tt] Hn (asked_split x_beg (fun o => o) h y l Ha Hq))). destruct Hr as [Hr1 Hr2].
  assert (HK : kept x_beg x_fin wkey (fun o => o) h y l). { repeat split; auto. intros t Ht. rewrite Forall_forall in Hr2. exact (Hr2 t Ht). }
  split; auto. intros Hidle Hrun. refine (all_ended (w_step c idn) PIssue x_env x_beg x_fin wkey (fun o => o) Hi h y l HK _ Hrun).
  intros x Hx. unfold w_step in Eg. rewrite erun_x in Eg. pose proof (C31_axi_write_idle_partial c idn g) as HA. unfold w_run in HA. rewrite Eg in HA. destruct HA as (op & Hp & Hop & _).
  rewrite (proj1 Hop Hidle), app_nil_r in Hp. rewrite queued_did, x_begs in Hx. apply (Permutation_in _ Hp) in Hx. apply in_app_or in Hx. apply fin_in in Hx as (r & Hr).
  exists r. unfold finished. apply in_flat_map. apply in_map_iff in Hr as (u & Eu & Hu). exists u. rewrite Eu. split; auto. now left.
  Unshelve. all: first [exact (w_sends c)|exact w_opens|exact w_epat|exact w_chk|exact b_id|exact op_id|exact idn].
Qed.
Print Assumptions C81_axi_write.

Theorem C81_axi_read : forall c idn h, NoDup (map rkey (map fst (asked h))) ->
  let '(y, l) := xr_calls c idn h in
  kept axi_queues axi_gives rkey (fun o => o) h y l /\
  (x_is_idle (i_s y) = true -> (forall n, istep (r_step c idn) PIssue x_env x_beg x_fin rkey y (IRun n) = (y, [])) ->
   i_ts y = [] /\ Permutation (asked h) (map (fun p => (snd (fst p), fst (fst p))) (ended l))).
Proof.
  intros c idn h Hn. unfold xr_calls.
  pose proof (x_issue_ok (R:=rch) (r_sends c) r_opens r_epat r_chk r_id op_id idn) as Hi.
  pose proof (x_env_ok (R:=rch) (r_sends c) r_opens r_epat r_chk r_id op_id idn) as He.
  pose proof (x_fin_known (R:=rch) (r_sends c) r_opens r_epat r_chk r_id op_id idn rkey) as Hf.
  pose proof (calls_inv (r_step c idn) PIssue x_env x_beg x_fin rkey (fun o => o) xeng_init Hi He Hf h) as HI.
  change (fun o : rop => fst (fst o)) with rkey. destruct (irun (r_step c idn) PIssue x_env x_beg x_fin rkey (i_init xeng_init) h) as [y l].
  destruct HI as ((g & Eg & _) & Ha & Hq & Hr). specialize (Hr (nodup_queued rkey h _ _ [tt] Hn (asked_split x_beg (fun o => o) h y l Ha Hq))). destruct Hr as [Hr1 Hr2].
  assert (HK : kept x_beg x_fin rkey (fun o => o) h y l). { repeat split; auto. intros t Ht. rewrite Forall_forall in Hr2. exact (Hr2 t Ht). }
  split; auto. intros Hidle Hrun. refine (all_ended (r_step c idn) PIssue x_env x_beg x_fin rkey (fun o => o) Hi h y l HK _ Hrun).
  intros x Hx. unfold r_step in Eg. rewrite erun_x in Eg. pose proof (C31_axi_read_idle_partial c idn g) as HA. unfold r_run in HA. rewrite Eg in HA. destruct HA as (op & Hp & Hop & _).
  rewrite (proj1 Hop Hidle), app_nil_r in Hp. rewrite queued_did, x_begs in Hx. apply (Permutation_in _ Hp) in Hx. apply in_app_or in Hx. apply fin_in in Hx as (r & Hr).
  exists r. unfold finished. apply in_flat_map. apply in_map_iff in Hr as (u & Eu & Hu). exists u. rewrite Eu. split; auto. now left.
  Unshelve. all: first [exact (r_sends c)|exact r_opens|exact r_epat|exact r_chk|exact r_id|exact op_id|exact idn].
Qed.
Print Assumptions C81_axi_read.

(** ** AXI-Lite; idle() tells that everything is done as long as the slave does not answer more than it was asked (C31) *)
Section LiteIdle.
Context {C E R : Type}.
Variable sends : C -> list E.
Variable need : C -> nat.
Notation step := (eng_step (R:=R) sends need).
Lemma l_started (l : list (gout C E R)) : ibegs l_beg l = started l.
Proof. induction l as [|[] l IH]; cbn; auto. now f_equal. Qed.
Lemma l_fin_in (l : list (gout C E R)) y : In y (map fst (completed l)) \/ In y (flushed l) ->
  exists r, In (y, r) (flat_map (fun u => match l_fin u with Some p => [p] | None => [] end) l).
Proof.
  induction l as [|u l IH]; [intros [[]|[]]|]. assert (HT : In y (map fst (completed l)) \/ In y (flushed l) ->
    exists r, In (y, r) (flat_map (fun u => match l_fin u with Some p => [p] | None => [] end) (u :: l))).
  { intros H. destruct (IH H) as (r & Hr). exists r. cbn [flat_map]. apply in_or_app. now right. }
  destruct u; cbn [completed flushed]; auto. destruct r as [rs|]; cbn [map In fst]; intros [H|H]; auto.
  - destruct H as [H|H]; auto. subst. exists (Some rs). now left.
  - destruct H as [H|H]; auto. subst. exists None. now left.
Qed.
Lemma l_initiated (g : list (gop C R)) : forall s, Forall (eop GIssue l_env) g -> initiated g = ibegs l_beg (snd (erun step s g)).
Proof.
  induction g as [|o g IH]; intros s H; [reflexivity|]. inversion H as [|? ? Ho Hg]; subst. cbn [erun].
  specialize (IH (fst (step s o)) Hg). destruct (step s o) as [s1 u1] eqn:E1. cbn [fst] in IH. destruct (erun step s1 g) as [s2 u2] eqn:E2. cbn [snd] in *.
  rewrite begs_app. rewrite <- IH. destruct Ho as [(c & ->)|Ho]; cycle 1.
  - pose proof (l_env_ok sends need s o Ho) as H0. rewrite E1 in H0. cbn [snd] in H0. rewrite H0. destruct o; try discriminate; reflexivity.
  - destruct (l_issue sends need s c) as (x & Hx & -> & _). rewrite E1 in Hx. cbn [snd] in Hx. rewrite Hx. reflexivity.
Qed.
End LiteIdle.
Lemma erun_lite {C E R} (sends : C -> list E) (need : C -> nat) (g : list (gop C R)) : forall s, erun (eng_step sends need) s g = eng_run sends need s g.
Proof.
  reflexivity.
Qed.
Definition lkey {C} (o : Z * C) : Z := fst o.
Lemma queued_from {O C} (h : list (iop O C)) (q n : list C) (P : C -> Prop) :
  Forall P (map fst (asked h)) -> Permutation (map fst (asked h)) (map (fun x => x) q ++ n) -> Forall P q.
Proof.
  intros Hf Hp. rewrite map_id in Hp. apply Forall_forall. intros x Hx. rewrite Forall_forall in Hf. apply Hf. eapply Permutation_in; [symmetry; exact Hp|]. apply in_or_app. now left.
Qed.

Theorem C81_lite_write : forall L h, 0 < L -> NoDup (map lkey (map fst (asked h))) ->
  let '(y, l) := lw_calls L h in
  kept lite_queues lite_gives lkey (fun o => o) h y l /\
  (answers_follow w_answered (did l) -> Forall (fun o => are_bytes (lc_data (snd o))) (map fst (asked h)) -> eng_is_idle (i_s y) = true ->
   (forall n, istep (eng_step (lite_w_sends L) (lite_w_need L)) GIssue l_env l_beg l_fin lkey y (IRun n) = (y, [])) ->
   i_ts y = [] /\ Permutation (asked h) (map (fun p => (snd (fst p), fst (fst p))) (ended l))).
Proof.
  intros L h HL Hn. unfold lw_calls.
  pose proof (l_issue (R:=resp_t) (lite_w_sends L) (lite_w_need L)) as Hi.
  pose proof (l_env_ok (R:=resp_t) (lite_w_sends L) (lite_w_need L)) as He.
  pose proof (l_fin_known (R:=resp_t) (lite_w_sends L) (lite_w_need L) lkey) as Hf.
  pose proof (calls_inv (eng_step (lite_w_sends L) (lite_w_need L)) GIssue l_env l_beg l_fin lkey (fun o => o) eng_init Hi He Hf h) as HI.
  change (@fst Z lwcmd) with (@lkey lwcmd). destruct (irun (eng_step (lite_w_sends L) (lite_w_need L)) GIssue l_env l_beg l_fin lkey (i_init eng_init) h) as [y l].
  destruct HI as ((g & Eg & Hge) & Ha & Hq & Hr). pose proof (asked_split l_beg (fun o => o) h y l Ha Hq) as Hs.
  pose proof (nodup_queued lkey h _ _ [tt] Hn Hs) as Hnq. destruct (Hr Hnq) as [Hr1 Hr2].
  assert (HK : kept l_beg l_fin lkey (fun o => o) h y l). { repeat split; auto. intros t Ht. rewrite Forall_forall in Hr2. exact (Hr2 t Ht). }
  split; auto. intros Hans Hb Hidle Hrun. refine (all_ended (eng_step (lite_w_sends L) (lite_w_need L)) GIssue l_env l_beg l_fin lkey (fun o => o) Hi h y l HK _ Hrun).
  pose proof (l_initiated (lite_w_sends L) (lite_w_need L) g eng_init Hge) as Eq. rewrite Eg in Eq. cbn [snd] in Eq. rewrite <- queued_did in Eq.
  intros x Hx. pose proof (C31_lite_write_idle_partial L g HL) as HA. unfold lite_w_run in HA. rewrite <- erun_lite, Eg, Eq in HA.
  destruct (HA Hans (queued_from h _ _ _ Hb Hs) (NoDup_map_inv lkey _ Hnq)) as (HA1 & _). apply l_fin_in. apply (proj1 HA1 Hidle). now rewrite queued_did, l_started in Hx.
Qed.
Print Assumptions C81_lite_write.

Theorem C81_lite_read : forall L h, 0 < L -> NoDup (map lkey (map fst (asked h))) ->
  let '(y, l) := lr_calls L h in
  kept lite_queues lite_gives lkey (fun o => o) h y l /\
  (answers_follow r_answered (did l) -> Forall (fun o => 0 <= lr_len (snd o)) (map fst (asked h)) -> eng_is_idle (i_s y) = true ->
   (forall n, istep (eng_step (lite_r_sends L) (lite_r_need L)) GIssue l_env l_beg l_fin lkey y (IRun n) = (y, [])) ->
   i_ts y = [] /\ Permutation (asked h) (map (fun p => (snd (fst p), fst (fst p))) (ended l))).
Proof.
  intros L h HL Hn. unfold lr_calls.
  pose proof (l_issue (R:=lrd) (lite_r_sends L) (lite_r_need L)) as Hi.
  pose proof (l_env_ok (R:=lrd) (lite_r_sends L) (lite_r_need L)) as He.
  pose proof (l_fin_known (R:=lrd) (lite_r_sends L) (lite_r_need L) lkey) as Hf.
  pose proof (calls_inv (eng_step (lite_r_sends L) (lite_r_need L)) GIssue l_env l_beg l_fin lkey (fun o => o) eng_init Hi He Hf h) as HI.
  change (@fst Z lrcmd) with (@lkey lrcmd). destruct (irun (eng_step (lite_r_sends L) (lite_r_need L)) GIssue l_env l_beg l_fin lkey (i_init eng_init) h) as [y l].
  destruct HI as ((g & Eg & Hge) & Ha & Hq & Hr). pose proof (asked_split l_beg (fun o => o) h y l Ha Hq) as Hs.
  pose proof (nodup_queued lkey h _ _ [tt] Hn Hs) as Hnq. destruct (Hr Hnq) as [Hr1 Hr2].
  assert (HK : kept l_beg l_fin lkey (fun o => o) h y l). { repeat split; auto. intros t Ht. rewrite Forall_forall in Hr2. exact (Hr2 t Ht). }
  split; auto. intros Hans Hb Hidle Hrun. refine (all_ended (eng_step (lite_r_sends L) (lite_r_need L)) GIssue l_env l_beg l_fin lkey (fun o => o) Hi h y l HK _ Hrun).
  pose proof (l_initiated (lite_r_sends L) (lite_r_need L) g eng_init Hge) as Eq. rewrite Eg in Eq. cbn [snd] in Eq. rewrite <- queued_did in Eq.
  intros x Hx. pose proof (C31_lite_read_idle_partial L g HL) as HA. unfold lite_r_run in HA. rewrite <- erun_lite, Eg, Eq in HA.
  destruct (HA Hans (queued_from h _ _ _ Hb Hs) (NoDup_map_inv lkey _ Hnq)) as (HA1 & _). apply l_fin_in. apply (proj1 HA1 Hidle). now rewrite queued_did, l_started in Hx.
Qed.
Print Assumptions C81_lite_read.

(** ** APB; the master numbers its commands itself *)
Theorem C81_apb : forall L ep h, let '(y, l) := a_calls L ep h in
  kept apb_queues apb_gives fst snd h y l /\ NoDup (map fst (queued apb_queues l)) /\
  ((forall x, In x (queued apb_queues l) -> exists r, In (x, r) (finished apb_gives l)) ->
   (forall n, istep (b_step L ep) BIssue a_env a_beg a_fin fst y (IRun n) = (y, [])) ->
   i_ts y = [] /\ Permutation (asked h) (map (fun p => (snd (snd (fst p)), fst (fst p))) (ended l))).
Proof.
  intros L ep h. unfold a_calls.
  pose proof (calls_kept (b_step L ep) BIssue a_env a_beg a_fin fst snd apb_init (a_issue_ok L ep) (a_env_ok L ep) (a_fin_known L ep) h) as HI.
  destruct (irun (b_step L ep) BIssue a_env a_beg a_fin fst (i_init apb_init) h) as [y l]. destruct HI as ((g & Eg & _) & HK).
  assert (Hn : NoDup (map fst (queued a_beg l))). { pose proof (b_known L ep g) as HB. rewrite Eg in HB. cbn [fst snd] in HB. rewrite queued_did. apply HB. }
  specialize (HK Hn). split; [exact HK|]. split; [exact Hn|]. intros Hall Hrun.
  exact (all_ended (b_step L ep) BIssue a_env a_beg a_fin fst snd (a_issue_ok L ep) h y l HK Hall Hrun).
Qed.
Print Assumptions C81_apb.

Lemma irun_env {S O U C X R} (stp : S -> O -> S * list U) issue (env env' : O -> bool) beg fin key (h : list (iop O C)) :
  (forall o, In (IOp o) h -> env o = env' o) ->
  forall y : ist S C X R, irun stp issue env beg fin key y h = irun stp issue env' beg fin key y h.
Proof.
  induction h as [|o h IH]; intros He y; [reflexivity|]. cbn [irun].
  assert (E : istep stp issue env beg fin key y o = istep stp issue env' beg fin key y o). { destruct o; cbn [istep]; auto. now rewrite (He o (or_introl eq_refl)). }
  rewrite E. destruct (istep stp issue env' beg fin key y o) as [y1 l1]. rewrite IH; auto. intros o' Ho. apply He. now right.
Qed.
Lemma erun_b L ep g : forall s, erun (b_step L ep) s g = b_run L ep s g.
Proof. reflexivity. Qed.
Lemma a_starts l : ibegs a_beg l = starts l.
Proof. induction l as [|[] l IH]; cbn; auto. now f_equal. Qed.
Lemma a_sets l x : In x (map fst (sets l)) -> exists r, In (x, r) (flat_map (fun u => match a_fin u with Some p => [p] | None => [] end) l).
Proof.
  induction l as [|u l IH]; [intros []|]. assert (HT : In x (map fst (sets l)) -> exists r, In (x, r) (flat_map (fun u => match a_fin u with Some p => [p] | None => [] end) (u :: l))).
  { intros H. destruct (IH H) as (r & Hr). exists r. cbn [flat_map]. apply in_or_app. now right. }
  destruct u; auto. cbn [sets map In fst]. intros [<-|H]; auto. eexists. now left.
Qed.
Lemma a_issued L ep c g : forall s, In (BIssue c) g -> exists n, In (n, c) (ibegs a_beg (snd (erun (b_step L ep) s g))).
Proof.
  induction g as [|o g IH]; [intros s []|]. intros s Hin. cbn [erun]. destruct (b_step L ep s o) as [s1 u1] eqn:E1. specialize (IH s1). destruct (erun (b_step L ep) s1 g) as [s2 u2]. cbn [snd] in *.
  rewrite begs_app. destruct Hin as [->|Hin].
  - destruct (a_issue_ok L ep s c) as ([n c'] & Ex & Ec & _). rewrite E1 in Ex. cbn [snd] in Ex, Ec. subst c'. exists n. rewrite Ex. now left.
  - destruct (IH Hin) as (n & Hn). exists n. apply in_or_app. now right.
Qed.

(** if reset is never asserted, idle() tells that all is done -- missing: histories with resets, see C81_apb_lost_refuted *)
Theorem C81_apb_idle_partial : forall L ep h, 0 < L -> Forall op_ok (map fst (asked h)) -> ~ In (IOp (BReset true)) h ->
  let '(y, l) := a_calls L ep h in
  b_is_idle (i_s y) = true -> (forall n, istep (b_step L ep) BIssue a_env a_beg a_fin fst y (IRun n) = (y, [])) ->
  i_ts y = [] /\ Permutation (asked h) (map (fun p => (snd (snd (fst p)), fst (fst p))) (ended l)).
Proof.
  intros L ep h HL Hok Hnr. pose proof (C81_apb L ep h) as HC. unfold a_calls in *.
  set (env' := fun o => a_env o && match o with BReset true => false | _ => true end).
  assert (He : forall o, In (IOp o) h -> a_env o = env' o). { intros o Ho. unfold env'. destruct o; try reflexivity. destruct b; [contradiction|reflexivity]. }
  rewrite (irun_env _ _ a_env env' _ _ _ h He) in *.
  assert (Henv' : forall s o, env' o = true -> ibegs a_beg (snd (b_step L ep s o)) = []). { intros s o Ho. apply a_env_ok. now apply andb_prop in Ho. }
  pose proof (calls_inv (b_step L ep) BIssue env' a_beg a_fin fst snd apb_init (a_issue_ok L ep) Henv' (a_fin_known L ep) h) as HI.
  destruct (irun (b_step L ep) BIssue env' a_beg a_fin fst (i_init apb_init) h) as [y l]. destruct HI as ((g & Eg & Hg) & Ha & Hq & _). destruct HC as (_ & _ & HC).
  intros Hidle Hrun. apply HC; auto. intros x Hx. apply a_sets.
  assert (Hgok : Forall bop_ok g).
  { apply Forall_forall. intros o Ho. rewrite Forall_forall in Hg. specialize (Hg o Ho). destruct Hg as [(c & ->)|Hg]; [|destruct o; try exact I; discriminate]. cbn.
    destruct (a_issued L ep c g apb_init Ho) as (n & Hn). rewrite Eg in Hn. cbn [snd] in Hn. rewrite <- queued_did in Hn.
    rewrite Forall_forall in Hok. apply Hok. eapply Permutation_in; [symmetry; exact (asked_split a_beg snd h y l Ha Hq)|]. apply in_or_app. left. apply (in_map snd) in Hn. exact Hn. }
  assert (Hw : forall s, no_reset_in_window L ep s g).
  { clear - Hg. induction g as [|o g IH]; [exact (fun _ => I)|]. intros s. inversion Hg as [|? ? H1 H2]; subst. cbn [no_reset_in_window]. split; [|now apply IH].
    intros ->. destruct H1 as [(c & Hc)|Hc]; discriminate. }
  pose proof (C31_apb_idle_partial L ep g HL Hgok (Hw apb_init)) as HA. rewrite <- erun_b, Eg in HA. destruct HA as [HA _]. apply (proj1 HA Hidle).
  now rewrite queued_did, a_starts in Hx.
Qed.
Print Assumptions C81_apb_idle_partial.

(** ** Arguments: init_write and init_read raise what write and read raise, and the task queues the command that write or read would queue *)
Lemma id_arg_again c i i' : id_arg c i = Ok i' -> id_arg c i' = Ok i'.
Proof.
  unfold id_arg. destruct i as [i|]; [|intros E; inversion E; reflexivity]. destruct (i <? 0) eqn:E1; [intros E; inversion E; reflexivity|].
  destruct (id_count c <? i) eqn:E2; [discriminate|]. intros E; inversion E; subst. now rewrite E1, E2.
Qed.
Lemma burst_again z b : burst_of z = Ok b -> match b with FIXED => 0 | INCR => 1 | WRAP => 2 end = z.
Proof.
  unfold burst_of. destruct (z =? 0) eqn:E0; [apply Z.eqb_eq in E0; intros E; inversion E; auto|]. destruct (z =? 1) eqn:E1; [apply Z.eqb_eq in E1; intros E; inversion E; auto|].
  destruct (z =? 2) eqn:E2; [apply Z.eqb_eq in E2; intros E; inversion E; auto|discriminate].
Qed.
Lemma size_again c s z : size_arg c s = Ok z -> size_arg c (Some z) = Ok z.
Proof.
  assert (Hm : 0 <= max_burst_size (ac_lanes c)). { unfold max_burst_size, bit_length. destruct (_ =? 0); [lia|]. pose proof (Z.log2_nonneg (Z.abs (ac_lanes c - 1))). lia. }
  unfold size_arg. assert (HM : forall z, max_burst_size (ac_lanes c) = z -> (if z <? 0 then Ok (max_burst_size (ac_lanes c)) else if max_burst_size (ac_lanes c) <? z then Err ValueError else Ok z) = Ok z).
  { intros z' <-. destruct (Z.ltb_spec (max_burst_size (ac_lanes c)) 0); [lia|]. now rewrite Z.ltb_irrefl. }
  destruct s as [s|]; [|intros E; inversion E; now apply HM]. destruct (s <? 0) eqn:E1; [intros E; inversion E; now apply HM|].
  destruct (max_burst_size (ac_lanes c) <? s) eqn:E2; [discriminate|]. intros E; inversion E; subst. now rewrite E1, E2.
Qed.
Lemma com_again c g i b z : com_check c g = Ok (i, b, z) ->
  com_check c {| g_addr := g_addr g; g_id := i; g_burst := match b with FIXED => 0 | INCR => 1 | WRAP => 2 end; g_size := Some z; g_side := g_side g |} = Ok (i, b, z).
Proof.
  unfold com_check. cbn [g_id g_burst g_size g_side]. destruct (id_arg c (g_id g)) as [i'|] eqn:Ei; [|discriminate]. destruct (burst_of (g_burst g)) as [b'|] eqn:Eb; [|discriminate].
  destruct (size_arg c (g_size g)) as [z'|] eqn:Es; [|discriminate]. cbn [bind]. intros H. assert (HE : i' = i /\ b' = b /\ z' = z).
  { repeat match type of H with context [check ?x] => destruct (check x); [cbn [bind] in H|discriminate] end. inversion H. auto. }
  destruct HE as (-> & -> & ->). rewrite (burst_again _ _ Eb), (id_arg_again _ _ _ Ei), Eb, (size_again _ _ _ Es). exact H.
Qed.

Theorem C81_write_args : forall c a, init_write_args c a = match write_args c a with Ok x => (Ok tt, Ok x) | Err e => (Err e, Err e) end.
Proof.
  intros c a. unfold init_write_args, rewrapped. destruct (write_args c a) as [[i cmd]|e] eqn:E; [|reflexivity]. f_equal.
  unfold write_args in E. destruct (check (negb _)) eqn:E1 in E; [cbn [bind] in E|discriminate]. destruct (wa_data a) as [|d] eqn:Ed; [discriminate|].
  destruct (check (_ || (g_addr _ + _ <=? _))) eqn:E2 in E; [cbn [bind] in E|discriminate]. destruct (com_check c (wa_com a)) as [[[i' b] sz]|] eqn:E3; [cbn [bind] in E|discriminate].
  destruct (check (p_wuser _ || _)) eqn:E4 in E; [cbn [bind] in E|discriminate]. destruct (check (forallb _ _)) eqn:E5 in E; [cbn [bind] in E|discriminate].
  inversion E; subst i cmd. clear E. unfold write_args. cbn [wa_com wa_data wa_wuser wc_addr wc_data wc_burst wc_size wc_side wc_wuser g_addr g_burst].
  assert (Hb : match b with FIXED => 0 | INCR => 1 | WRAP => 2 end = g_burst (wa_com a)).
  { unfold com_check in E3. destruct (id_arg c _); [|discriminate]. destruct (burst_of (g_burst (wa_com a))) as [b'|] eqn:Eb; [|discriminate]. destruct (size_arg c _); [|discriminate]. cbn [bind] in E3.
    repeat match type of E3 with context [check ?x] => destruct (check x); [cbn [bind] in E3|discriminate] end. inversion E3; subst. now apply burst_again. }
  rewrite (com_again _ _ _ _ _ E3), Hb, E1. cbn [bind]. rewrite E2. cbn [bind]. rewrite E5.
  destruct (wa_wuser a); cbn [bind]; rewrite ?E4; cbn [bind]; try reflexivity. rewrite orb_false_r in E4. unfold check in *. destruct (p_wuser (ac_pres c)); [reflexivity|discriminate].
Qed.
Print Assumptions C81_write_args.

Theorem C81_read_args : forall c a, init_read_args c a = match read_args c a with Ok x => (Ok tt, Ok x) | Err e => (Err e, Err e) end.
Proof.
  intros c a. unfold init_read_args, rrewrapped. destruct (read_args c a) as [[i cmd]|e] eqn:E; [|reflexivity]. f_equal.
  unfold read_args in E. destruct (check (negb (_ || _))) eqn:E1 in E; [cbn [bind] in E|discriminate]. destruct (check (negb (ra_len a <? 0))) eqn:E0 in E; [cbn [bind] in E|discriminate].
  destruct (check (_ || (g_addr _ + _ <=? _))) eqn:E2 in E; [cbn [bind] in E|discriminate]. destruct (com_check c (ra_com a)) as [[[i' b] sz]|] eqn:E3; [cbn [bind] in E|discriminate].
  inversion E; subst i cmd. clear E. unfold read_args. cbn [ra_com ra_len rc_addr rc_len rc_burst rc_size rc_side g_addr g_burst].
  assert (Hb : match b with FIXED => 0 | INCR => 1 | WRAP => 2 end = g_burst (ra_com a)).
  { unfold com_check in E3. destruct (id_arg c _); [|discriminate]. destruct (burst_of (g_burst (ra_com a))) as [b'|] eqn:Eb; [|discriminate]. destruct (size_arg c _); [|discriminate]. cbn [bind] in E3.
    repeat match type of E3 with context [check ?x] => destruct (check x); [cbn [bind] in E3|discriminate] end. inversion E3; subst. now apply burst_again. }
  rewrite (com_again _ _ _ _ _ E3), Hb, E1. cbn [bind]. rewrite E0. cbn [bind]. rewrite E2. reflexivity.
Qed.
Print Assumptions C81_read_args.

(** AXI-Lite and APB *)
Theorem C81_lite_args : forall aw pp addr prot,
  (forall data, init_lite_write_args aw pp addr data prot = match lite_write_args aw pp addr data prot with Ok x => (Ok tt, Ok x) | Err e => (Err e, Err e) end) /\
  (forall len, init_lite_read_args aw pp addr len prot = match lite_read_args aw pp addr len prot with Ok x => (Ok tt, Ok x) | Err e => (Err e, Err e) end).
Proof.
  intros aw pp addr prot. split.
  - intros data. unfold init_lite_write_args. destruct (lite_write_args aw pp addr data prot) as [cmd|e] eqn:E; [|reflexivity]. f_equal. rewrite <- E. unfold lite_write_args in E |- *.
    destruct data as [d|z]; repeat match type of E with context [if ?b then _ else _] => destruct b eqn:?; try discriminate E end; inversion E; subst; cbn [lc_addr lc_data lc_prot] in *;
    repeat match goal with H : _ = _ |- _ => rewrite H; clear H end; reflexivity.
  - intros len. unfold init_lite_read_args. destruct (lite_read_args aw pp addr len prot) as [cmd|e] eqn:E; [|reflexivity]. f_equal. rewrite <- E. unfold lite_read_args in E |- *.
    repeat match type of E with context [if ?b then _ else _] => destruct b eqn:?; try discriminate E end; inversion E; subst; cbn [lr_addr lr_len lr_prot] in *;
    repeat match goal with H : _ = _ |- _ => rewrite H; clear H end; reflexivity.
Qed.
Print Assumptions C81_lite_args.

(** What APB's idle() tells: a reset between lines 341 and 345 of apb.py takes the command away; the master is then idle, no task can go on, and the
    event of init_write is still not set. *)
Theorem C81_apb_lost_refuted : forall L ep c, exists h, asked h = [(c, Some 5)] /\
  let '(y, l) := a_calls L ep h in
  b_is_idle (i_s y) = true /\ (forall n, istep (b_step L ep) BIssue a_env a_beg a_fin fst y (IRun n) = (y, [])) /\
  ended l = [] /\ i_ts y = [{| t_ev := Some 5; t_st := TWait (0, c) |}].
Proof.
  intros L ep c. exists [IOp (BEdge false false 0 false); IInit c 5; IRun 0; IOp BWake; IOp (BReset true)]. split; [reflexivity|].
  cbn. split; [reflexivity|]. split; [|split; reflexivity]. intros [|[|n]]; reflexivity.
Qed.
Print Assumptions C81_apb_lost_refuted.

(** Two init_write calls with the same event 7, a write() between them; the first two complete, with the responses in order, the third is ended by the
    reset; the tasks run late. *)
Example C81_lite_nontrivial :
  let c i := (i, {| lc_addr := 4 * i; lc_data := [1; 2; 3; 4]; lc_prot := 2 |}) in
  let h := [IInit (c 1) 7; ICall (c 2); IInit (c 3) 7; IRun 0; IOp GGet; IOp GSend; IOp GSend; IOp GRGet; IOp (GResp DECERR); IOp GGet; IOp GSend;
            IRun 1; IOp GSend; IOp GRGet; IRun 0; IOp (GResp OKAY); IOp (GReset true); IRun 2; IRun 0; IRun 0; IRun 0] in
  let '(y, l) := lw_calls 4 h in
  i_ts y = [] /\ queued l_beg l = [c 2; c 1; c 3] /\ ended l = [(None, c 2, Some [DECERR]); (Some 7, c 1, Some [OKAY]); (Some 7, c 3, None)].
Proof. vm_compute. auto. Qed.

(** APB: the task of the second init call runs first, so its read is the first operation; its event 4 carries the bytes read; the write is still open *)
Example C81_apb_nontrivial :
  let w := ACW {| lc_addr := 6; lc_data := [1; 2; 3]; lc_prot := 2 |} in let r := ACR {| lr_addr := 0; lr_len := 4; lr_prot := 2 |} in
  let e := IOp (BEdge false false 0 false) in let k := IOp (BEdge false true 67305985 false) in
  let '(y, l) := a_calls 4 true [IInit w 3; IInit r 4; IRun 1; e; e; k; e; IRun 0; e; e; k; e; k; e; e; k; IRun 1; IRun 0; IRun 0; IRun 0] in
  i_ts y = [{| t_ev := Some 3; t_st := TWait (1, w) |}] /\ queued a_beg l = [(0, r); (1, w)] /\
  ended l = [(Some 4, (0, r), Some (ARResp 0 [1; 2; 3; 4] OKAY))].
Proof. vm_compute. auto. Qed.
