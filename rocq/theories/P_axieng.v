(** Proofs about the AXI master engine (M_axieng.v). *)
From Coq Require Import ZArith Lia List Bool Permutation.
From Coq Require Import ZifyBool ZifyNat.
From Verif Require Import Py M_liteeng M_axieng S_axieng P_liteeng P_axitag.
Import ListNotations.
Open Scope Z_scope.

Section P.
Context {C E R : Type}.
Implicit Type l : list (xout C E R).

Definition xis_reset (x : xout C E R) : bool := match x with XReset => true | _ => false end.
Definition xquiet l : Prop := existsb xis_reset l = false.

Lemma xstarted_app l1 l2 : xstarted (l1 ++ l2) = xstarted l1 ++ xstarted l2.
Proof. induction l1 as [|[] l1 IH]; cbn [app xstarted]; rewrite ?IH; auto. Qed.
Lemma xsent_app l1 l2 : xsent (l1 ++ l2) = xsent l1 ++ xsent l2.
Proof. induction l1 as [|[] l1 IH]; cbn [app xsent]; rewrite ?IH; auto. Qed.
Lemma xreceived_app l1 l2 : xreceived (l1 ++ l2) = xreceived l1 ++ xreceived l2.
Proof. induction l1 as [|[] l1 IH]; cbn [app xreceived]; rewrite ?IH; auto. Qed.
Lemma xcompleted_app l1 l2 : xcompleted (l1 ++ l2) = xcompleted l1 ++ xcompleted l2.
Proof. induction l1 as [|[] l1 IH]; cbn [app xcompleted]; rewrite ?IH; auto. Qed.
Lemma xflushed_app l1 l2 : xflushed (l1 ++ l2) = xflushed l1 ++ xflushed l2.
Proof. induction l1 as [|[] l1 IH]; cbn [app xflushed]; rewrite ?IH; auto. Qed.
Lemma xflushed_map cs : xflushed (map XFlush cs : list (xout C E R)) = cs.
Proof. induction cs as [|c cs IH]; cbn; congruence. Qed.
Lemma xstarted_flush cs : xstarted (map XFlush cs : list (xout C E R)) = [].
Proof. induction cs as [|c cs IH]; cbn; congruence. Qed.
Lemma xcompleted_flush cs : xcompleted (map XFlush cs : list (xout C E R)) = [].
Proof. induction cs as [|c cs IH]; cbn; congruence. Qed.

Lemma xepoch_quiet l : xquiet l -> xepoch l = l.
Proof.
  unfold xquiet. destruct l as [|o l]; auto. cbn [existsb]. intros H. apply orb_false_iff in H. destruct H as [H1 H2].
  cbn [xepoch]. change (existsb (fun x => match x with XReset => true | _ => false end) l) with (existsb xis_reset l).
  rewrite H2. destruct o; auto; discriminate.
Qed.
Lemma xepoch_app_quiet l l2 : xquiet l2 -> xepoch (l ++ l2) = xepoch l ++ l2.
Proof.
  intros Hq. induction l as [|o l IH]; cbn [app]; [now rewrite xepoch_quiet|].
  cbn [xepoch]. change (fun x => match x with XReset => true | _ => false end) with xis_reset.
  rewrite existsb_app, Hq, orb_false_r, IH. destruct (existsb xis_reset l); auto. destruct o; auto.
Qed.
Lemma xepoch_reset l : xepoch (l ++ [XReset]) = [].
Proof.
  induction l as [|o l IH]; [reflexivity|]. cbn [app xepoch].
  change (fun x => match x with XReset => true | _ => false end) with xis_reset. now rewrite existsb_app, orb_true_r.
Qed.

Variable sends : C -> Z -> list E.
Variable opens : E -> bool.
Variable epat : E -> list bool.
Variable chk : bool -> R -> bool.
Variable rtag : R -> Z.
Variable ask : C -> option Z.
Variable idn : Z.

Local Notation step := (@x_step C E R sends opens epat chk rtag ask idn).
Local Notation run := (@x_run C E R sends opens epat chk rtag ask idn).
Local Notation eng := (xeng C E R).
Implicit Type s : eng.

Lemma xrun_app s h1 h2 : run s (h1 ++ h2) =
  let '(s1, o1) := run s h1 in let '(s2, o2) := run s1 h2 in (s2, o1 ++ o2).
Proof.
  revert s. induction h1 as [|o h1 IH]; intros s; cbn [app x_run].
  - now destruct (run s h2).
  - destruct (step s o) as [s1 o1]. rewrite IH. destruct (run s1 h1) as [s2 o2]. destruct (run s2 h2) as [s3 o3].
    now rewrite app_assoc.
Qed.
Lemma xrun_ind (P : list (xop C R) -> eng -> list (xout C E R) -> Prop) :
  P [] xeng_init [] ->
  (forall h s l o, run xeng_init h = (s, l) -> P h s l -> let '(s', os) := step s o in P (h ++ [o]) s' (l ++ os)) ->
  forall h, let '(s, l) := run xeng_init h in P h s l.
Proof.
  intros H0 HS h. induction h as [|o h IH] using rev_ind; [exact H0|].
  rewrite xrun_app. destruct (run xeng_init h) as [s l] eqn:Er. specialize (HS h s l o Er IH).
  cbn [x_run]. destruct (step s o) as [s' os]. now rewrite app_nil_r.
Qed.

(** ** Every operation is in one place *)
Definition curc s : list C := opt_list (fun p => fst (fst p)) (e_cur s).
Definition xpending s : list C := e_q s ++ curc s ++ flat_map content (m_ctxs (e_mgr s)).
Definition done_ops l : list C := map (fun d => fst (fst d)) (xcompleted l).

Definition pinv s l : Prop :=
  mwf (e_mgr s) /\
  Permutation (xstarted l) (done_ops l ++ xflushed l ++ xpending s) /\
  e_inflight s = zlen (xpending s) /\ e_idle s = (e_inflight s =? 0).

Lemma done_ops_app l1 l2 : done_ops (l1 ++ l2) = done_ops l1 ++ done_ops l2.
Proof. unfold done_ops. now rewrite xcompleted_app, map_app. Qed.

Lemma zlen_perm {A} (a b : list A) : Permutation a b -> zlen a = zlen b.
Proof. intros H. unfold zlen. now rewrite (Permutation_length H). Qed.

Lemma pinv_silent s s' l os : pinv s l -> mwf (e_mgr s') -> Permutation (xpending s') (xpending s) ->
  e_inflight s' = e_inflight s -> e_idle s' = e_idle s ->
  xstarted os = [] -> xcompleted os = [] -> xflushed os = [] -> pinv s' (l ++ os).
Proof.
  intros (P1 & P2 & P3 & P4) W Hp H1 H2 E1 E2 E3. split; auto. rewrite xstarted_app, done_ops_app, xflushed_app, E1, E3.
  unfold done_ops at 2. rewrite E2. cbn [map]. rewrite !app_nil_r. split; [|split].
  - rewrite P2. do 2 apply Permutation_app_head. now symmetry.
  - rewrite H1, P3. symmetry. now apply zlen_perm.
  - rewrite H2, P4, H1. reflexivity.
Qed.

Lemma pinv_issue s l c pend : pinv s l -> pinv (x_issue (x_set_pend s pend) c) (l ++ [XStart c]).
Proof.
  intros (P1 & P2 & P3 & P4). split; [exact P1|]. unfold xpending in *. cbn [x_issue x_set_pend e_q e_mgr e_cur e_inflight e_idle].
  rewrite xstarted_app, done_ops_app, xflushed_app. cbn [xstarted xflushed]. unfold done_ops at 2. cbn [xcompleted map].
  rewrite !app_nil_r. unfold curc in *. cbn [x_issue x_set_pend e_cur]. split; [|split].
  - rewrite P2, <- !app_assoc. do 3 apply Permutation_app_head. rewrite (app_assoc _ _ [c]). apply Permutation_app_comm.
  - rewrite P3. unfold zlen. rewrite !app_length. cbn [length]. lia.
  - pose proof (zlen_nonneg (e_q s ++ opt_list (fun p => fst (fst p)) (e_cur s) ++ flat_map content (m_ctxs (e_mgr s)))). lia.
Qed.

(** the sender's step *)
Lemma x_go_perm s q id c t r : mwf (e_mgr s) -> let s' := x_go sends opens epat s q id c t r in
  mwf (e_mgr s') /\ Permutation (xpending s') (q ++ [c] ++ flat_map content (m_ctxs (e_mgr s))) /\
  e_inflight s' = e_inflight s /\ e_idle s' = e_idle s.
Proof.
  intros W. unfold x_go, xpending, curc. destruct r as [|e r]; cbn [e_q e_cur e_mgr e_inflight e_idle opt_list fst].
  - destruct (start_cmd_spec (e_mgr s) t (c, flat_map epat (sends c t)) W) as (W1 & _ & _ & HP). split; auto. split; auto.
    cbn [app]. apply Permutation_app_head. exact HP.
  - split; auto.
Qed.

Lemma x_ctx_upd s i x c bid got cmdq respq act :
  let b := Nat.leb (length (snd c)) (length got) in
  let x' := {| x_tag := x_tag x; x_cmdq := cmdq; x_cur := if b then None else Some (c, bid, got); x_respq := respq; x_task := x_task x |} in
  x_ctx (E:=E) s i x c bid got cmdq respq act =
  if b then (x_mgr s (upd (e_mgr s) i x' true) act (e_inflight s - 1) (if e_inflight s - 1 =? 0 then true else e_idle s), [XDone (fst c) bid got])
  else (x_mgr s (upd (e_mgr s) i x' false) act (e_inflight s) (e_idle s), []).
Proof. cbv zeta. unfold x_ctx, upd. destruct (Nat.leb _ _); reflexivity. Qed.

Lemma pinv_ctx s l t i x c bid got cmdq respq act :
  pinv s l -> In (t, i) (m_map (e_mgr s)) -> x = X (e_mgr s) i -> x_tag x = Some t -> bid = Some t -> x_task x <> TNone ->
  content x = fst c :: map fst cmdq ->
  let '(s', os) := x_ctx s i x c bid got cmdq respq act in pinv s' (l ++ os).
Proof.
  intros (P1 & P2 & P3 & P4) Hin Hx Ht Hb Htk Hc. rewrite x_ctx_upd. cbv zeta.
  set (b := Nat.leb (length (snd c)) (length got)). set (x' := {| x_tag := x_tag x |}).
  destruct (upd_spec (e_mgr s) t i x' b P1 Hin) as (W1 & _ & _ & HP); auto.
  { unfold x'. cbn. destruct b; auto. } { unfold x'. cbn. intros ->. reflexivity. }
  rewrite <- Hx, Hc in HP. destruct b eqn:Eb.
  - assert (Hx' : content x' = map fst cmdq) by reflexivity. rewrite Hx' in HP. cbn [app] in HP.
    assert (HP2 : Permutation (fst c :: flat_map content (m_ctxs (upd (e_mgr s) i x' true))) (flat_map content (m_ctxs (e_mgr s)))).
    { apply (Permutation_app_inv_l (map fst cmdq)). rewrite <- HP. symmetry. apply Permutation_middle. }
    assert (HP3 : Permutation (xpending s) (fst c :: xpending (x_mgr s (upd (e_mgr s) i x' true) act (e_inflight s - 1) (if e_inflight s - 1 =? 0 then true else e_idle s)))).
    { unfold xpending, curc. cbn [x_mgr e_q e_cur e_mgr]. rewrite <- HP2, !app_assoc. symmetry. apply Permutation_middle. }
    match type of HP3 with Permutation _ (_ :: xpending ?z) => set (s' := z) in HP3 |- * end.
    assert (Hz : zlen (xpending s) = zlen (xpending s') + 1) by (rewrite (zlen_perm _ _ HP3); unfold zlen; cbn [length]; lia).
    pose proof (zlen_nonneg (xpending s')) as Hz0.
    split; [exact W1|]. rewrite xstarted_app, done_ops_app, xflushed_app. cbn [xstarted xflushed]. unfold done_ops at 2. cbn [xcompleted map fst].
    rewrite !app_nil_r. split; [|split].
    + rewrite P2, HP3, <- app_assoc. apply Permutation_app_head. cbn [app]. symmetry. apply Permutation_middle.
    + change (e_inflight s') with (e_inflight s - 1). lia.
    + change (e_inflight s') with (e_inflight s - 1). change (e_idle s') with (if e_inflight s - 1 =? 0 then true else e_idle s).
      destruct (Z.eqb_spec (e_inflight s - 1) 0); auto. rewrite P4. lia.
  - apply (pinv_silent s); auto; [split; auto|]. unfold xpending, curc. cbn [x_mgr e_q e_cur e_mgr].
    do 2 apply Permutation_app_head. assert (Hx' : content x' = fst c :: map fst cmdq) by reflexivity. rewrite Hx' in HP.
    now apply Permutation_app_inv_l in HP.
Qed.

Lemma pinv_step s l o : pinv s l -> let '(s', os) := step s o in pinv s' (l ++ os).
Proof.
  intros HI. assert (Hs : pinv s (l ++ [])) by now rewrite app_nil_r.
  pose proof HI as (P1 & P2 & P3 & P4). destruct o as [c|c|n| | |r|i|i|b]; cbn [x_step].
  - pose proof (pinv_issue s l c (e_pend s) HI) as H. now destruct s.
  - apply (pinv_silent s); auto.
  - destruct (nth_error (e_pend s) n) as [c|]; auto. now apply pinv_issue.
  - destruct (e_wtask s), (e_cur s) as [[[? ?] ?]|] eqn:Ec; auto. destruct (e_q s) as [|c q] eqn:Eq; auto.
    destruct (x_choose ask idn s c) as [t id]. destruct (x_go_perm s q id c t (sends c t) P1) as (W & HP & H1 & H2).
    apply (pinv_silent s); auto. rewrite HP. unfold xpending, curc. rewrite Eq, Ec. cbn [opt_list app].
    symmetry. apply Permutation_middle.
  - destruct (e_wtask s), (e_cur s) as [[[c t] [|e r]]|] eqn:Ec; auto.
    destruct (x_go_perm s (e_q s) (e_id s) c t r P1) as (W & HP & H1 & H2).
    apply (pinv_silent s); auto. rewrite HP. unfold xpending, curc. rewrite Ec. reflexivity.
  - destruct (e_rtask s); auto. unfold x_resp. destruct (0 <? e_act s (rtag r)).
    + destruct (put_resp_spec (e_mgr s) (rtag r) r P1) as (W & _ & _ & HP). apply (pinv_silent s); auto.
      unfold xpending, curc. cbn [e_q e_cur e_mgr]. do 2 apply Permutation_app_head. exact HP.
    + apply (pinv_silent s); auto.
  - destruct (nth_error (m_ctxs (e_mgr s)) i) as [x|] eqn:En; auto. destruct (x_task x) eqn:Et; auto.
    destruct (x_cur x) as [|] eqn:Ec; auto. destruct (x_cmdq x) as [|c q] eqn:Eq; auto.
    destruct (busy_mapped (e_mgr s) i x P1 En) as (t & Hin & Hx & _ & Htg); [unfold empty; intros (_ & K & _); congruence|].
    apply (pinv_ctx s l t); auto; [congruence|]. unfold content. rewrite Ec, Eq. reflexivity.
  - destruct (nth_error (m_ctxs (e_mgr s)) i) as [x|] eqn:En; auto. destruct (x_task x) eqn:Et; auto.
    destruct (x_cur x) as [[[c bid] got]|] eqn:Ec; auto. destruct (x_respq x) as [|r q] eqn:Eq; auto.
    destruct (busy_mapped (e_mgr s) i x P1 En) as (t & Hin & Hx & _ & Htg); [unfold empty; intros (K & _); congruence|].
    destruct (wf_map _ P1 _ _ Hin) as (_ & _ & Hb). rewrite <- Hx, Ec in Hb.
    destruct ((0 <? act_of (e_act s) bid) && chk _ r).
    + apply (pinv_ctx s l t); auto; [congruence|]. unfold content. rewrite Ec. reflexivity.
    + set (x' := {| x_tag := x_tag x |}).
      destruct (upd_spec (e_mgr s) t i x' false P1 Hin) as (W1 & _ & _ & HP); auto; try discriminate.
      change (mgr_set (e_mgr s) i x') with (upd (e_mgr s) i x' false). apply (pinv_silent s); auto.
      unfold xpending, curc. cbn [x_mgr e_q e_cur e_mgr]. do 2 apply Permutation_app_head.
      assert (Hc : content x' = content (X (e_mgr s) i)) by (rewrite <- Hx; unfold content, x'; cbn; rewrite ?Ec; reflexivity).
      rewrite Hc in HP. now apply Permutation_app_inv_l in HP.
  - unfold x_reset. destruct b.
    + pose proof (mgr_flush_spec (e_mgr s) P1) as H. destruct (mgr_flush (e_mgr s)) as [m ml]. destruct H as (W & -> & Hm & _ & Hc).
      split; [exact W|]. fold (curc s). fold (xpending s).
      assert (Hp : xpending {| e_pend := e_pend s; e_q := []; e_cur := None; e_wtask := TNone; e_mgr := m; e_rtask := TNone;
        e_act := fun _ => 0; e_id := 0; e_inflight := 0; e_idle := true |} = []) by (unfold xpending, curc; cbn; exact Hc).
      rewrite Hp. rewrite !xstarted_app, !done_ops_app, !xflushed_app, xflushed_map, xstarted_flush.
      unfold done_ops at 2 3. rewrite xcompleted_flush. cbn. rewrite !app_nil_r. split; [exact P2|]. split; auto.
    + apply (pinv_silent s); auto.
Qed.

Lemma pinv_run h : let '(s, l) := run xeng_init h in pinv s l.
Proof.
  apply (xrun_ind (fun _ s l => pinv s l)).
  - split; [apply mwf_new|]. cbn. repeat split; auto.
  - intros h' s l o _ H. exact (pinv_step s l o H).
Qed.

Lemma xinitiated_app (h1 h2 : list (xop C R)) : xinitiated (h1 ++ h2) = xinitiated h1 ++ xinitiated h2.
Proof. induction h1 as [|[] h1 IH]; cbn [app xinitiated]; rewrite ?IH; auto. Qed.

Lemma xinitiated_run h : let '(s, l) := run xeng_init h in Permutation (xinitiated h) (xstarted l ++ e_pend s).
Proof.
  apply (xrun_ind (fun h s l => Permutation (xinitiated h) (xstarted l ++ e_pend s))); [reflexivity|].
  intros h' s l o _ H.
  assert (Hsame : forall s' (os : list (xout C E R)) (o' : xop C R), xinitiated [o'] = [] -> xstarted os = [] -> e_pend s' = e_pend s ->
     Permutation (xinitiated (h' ++ [o'])) (xstarted (l ++ os) ++ e_pend s')).
  { intros s' os o' E1 E2 E3. now rewrite xinitiated_app, xstarted_app, E1, E2, E3, !app_nil_r. }
  destruct o as [c|c|n| | |r|i|i|b]; cbn [x_step].
  - rewrite xinitiated_app, xstarted_app. cbn [xinitiated xstarted x_issue e_pend].
    rewrite H, <- !app_assoc. apply Permutation_app_head. apply Permutation_app_comm.
  - rewrite xinitiated_app, xstarted_app. cbn [xinitiated xstarted x_set_pend e_pend]. rewrite app_nil_r, app_assoc.
    now apply Permutation_app_tail.
  - destruct (nth_error (e_pend s) n) as [c|] eqn:En; [|now apply Hsame].
    rewrite xinitiated_app, xstarted_app. cbn [xinitiated xstarted x_issue x_set_pend e_pend]. rewrite app_nil_r, H, <- app_assoc.
    apply Permutation_app_head. cbn [app]. now apply nth_split_perm.
  - destruct (e_wtask s), (e_cur s) as [[[? ?] ?]|]; try now apply Hsame. destruct (e_q s); try now apply Hsame.
    destruct (x_choose ask idn s c) as [t id]. apply Hsame; auto. unfold x_go. now destruct (sends c t).
  - destruct (e_wtask s), (e_cur s) as [[[? ?] [|? ?]]|]; try now apply Hsame. apply Hsame; auto. unfold x_go. now destruct l0.
  - destruct (e_rtask s); try now apply Hsame. unfold x_resp. destruct (0 <? _); now apply Hsame.
  - destruct (nth_error _ i) as [x|]; [|now apply Hsame]. destruct (x_task x), (x_cur x), (x_cmdq x); try now apply Hsame.
    unfold x_ctx. destruct (Nat.leb _ _); now apply Hsame.
  - destruct (nth_error _ i) as [x|]; [|now apply Hsame]. destruct (x_task x), (x_cur x) as [[[? ?] ?]|], (x_respq x); try now apply Hsame.
    destruct (_ && _); [|now apply Hsame]. unfold x_ctx. destruct (Nat.leb _ _); now apply Hsame.
  - unfold x_reset. destruct b; [|now apply Hsame]. destruct (mgr_flush _) as [m ml]. apply Hsame; auto.
    rewrite xstarted_app, xstarted_flush. reflexivity.
Qed.

Lemma xreset_state h : let '(s, l) := run xeng_init (h ++ [PReset true]) in
  xpending s = [] /\ e_inflight s = 0 /\ e_idle s = true.
Proof.
  rewrite xrun_app. pose proof (pinv_run h) as HI. destruct (run xeng_init h) as [s l]. destruct HI as (P1 & _).
  cbn [x_run x_step]. unfold x_reset. pose proof (mgr_flush_spec (e_mgr s) P1) as H.
  destruct (mgr_flush (e_mgr s)) as [m ml]. destruct H as (W & _ & _ & _ & Hc). cbn. unfold xpending, curc. cbn. auto.
Qed.
End P.
