(** Proofs about the AXI-Lite operation engine (M_liteeng.v). *)
From Coq Require Import ZArith Lia List Bool Permutation.
From Coq Require Import ZifyBool ZifyNat.
From Verif Require Import Py M_liteeng S_liteeng.
Import ListNotations.
Open Scope Z_scope.

Lemma NoDup_app_inv' {A} (l1 l2 : list A) : NoDup (l1 ++ l2) ->
  NoDup l1 /\ NoDup l2 /\ forall x, In x l1 -> In x l2 -> False.
Proof.
  induction l1 as [|x l1 IH]; cbn [app]; intros H.
  - split; [constructor|]. split; [exact H|]. intros x [].
  - inversion H as [|? ? H1 H2]; subst. destruct (IH H2) as (A1 & A2 & A3). rewrite in_app_iff in H1.
    split; [constructor; tauto|]. split; auto. intros y [->|Hy] Hy2; [tauto|]. eauto.
Qed.
Lemma NoDup_app' {A} (l1 l2 : list A) : NoDup l1 -> NoDup l2 -> (forall x, In x l1 -> In x l2 -> False) -> NoDup (l1 ++ l2).
Proof.
  induction l1 as [|x l1 IH]; cbn [app]; intros H1 H2 H3; auto. inversion H1; subst. constructor.
  - rewrite in_app_iff. intros [K|K]; [tauto|]. apply (H3 x); cbn; auto.
  - apply IH; auto. intros y Hy Hy2. apply (H3 y); cbn; auto.
Qed.

Section P.
Context {C E R : Type}.
Implicit Type l : list (gout C E R).

Definition is_reset (x : gout C E R) : bool := match x with OReset => true | _ => false end.
Definition quiet l : Prop := existsb is_reset l = false.

Lemma started_app l1 l2 : started (l1 ++ l2) = started l1 ++ started l2.
Proof. induction l1 as [|[] l1 IH]; cbn [app started]; rewrite ?IH; auto. Qed.
Lemma sent_app l1 l2 : sent (l1 ++ l2) = sent l1 ++ sent l2.
Proof. induction l1 as [|[] l1 IH]; cbn [app sent]; rewrite ?IH; auto. Qed.
Lemma received_app l1 l2 : received (l1 ++ l2) = received l1 ++ received l2.
Proof. induction l1 as [|[] l1 IH]; cbn [app received]; rewrite ?IH; auto. Qed.
Lemma completed_app l1 l2 : completed (l1 ++ l2) = completed l1 ++ completed l2.
Proof. induction l1 as [|[| | |? []|] l1 IH]; cbn [app completed]; rewrite ?IH; auto. Qed.
Lemma flushed_app l1 l2 : flushed (l1 ++ l2) = flushed l1 ++ flushed l2.
Proof. induction l1 as [|[| | |? []|] l1 IH]; cbn [app flushed]; rewrite ?IH; auto. Qed.

Lemma epoch_quiet l : quiet l -> epoch l = l.
Proof.
  unfold quiet. destruct l as [|o l]; auto. cbn [existsb]. intros H. apply orb_false_iff in H. destruct H as [H1 H2].
  cbn [epoch]. change (existsb (fun x => match x with OReset => true | _ => false end) l) with (existsb is_reset l).
  rewrite H2. destruct o; auto; discriminate.
Qed.
Lemma epoch_app_quiet l l2 : quiet l2 -> epoch (l ++ l2) = epoch l ++ l2.
Proof.
  intros Hq. induction l as [|o l IH]; cbn [app]; [now rewrite epoch_quiet|].
  cbn [epoch]. change (fun x => match x with OReset => true | _ => false end) with is_reset.
  rewrite existsb_app, Hq, orb_false_r, IH. destruct (existsb is_reset l); auto. destruct o; auto.
Qed.
Lemma epoch_reset l : epoch (l ++ [OReset]) = [].
Proof.
  induction l as [|o l IH]; [reflexivity|]. cbn [app epoch].
  change (fun x => match x with OReset => true | _ => false end) with is_reset. now rewrite existsb_app, orb_true_r.
Qed.

(** every list is what came before the last reset, and the epoch *)
Lemma epoch_split l : quiet l \/ exists pre, l = pre ++ OReset :: epoch l.
Proof.
  induction l as [|o l IH]; [now left|]. destruct IH as [IH|(pre & IH)].
  - destruct (is_reset o) eqn:E1.
    + right. exists []. destruct o; try discriminate. cbn [epoch app].
      change (fun x => match x with OReset => true | _ => false end) with is_reset. now rewrite IH.
    + left. unfold quiet. cbn [existsb]. now rewrite E1.
  - right. exists (o :: pre). cbn [epoch]. change (fun x => match x with OReset => true | _ => false end) with is_reset.
    rewrite IH at 2. rewrite existsb_app. cbn [existsb is_reset orb]. rewrite orb_true_r. cbn [app]. now rewrite <- IH.
Qed.

Variable sends : C -> list E.
Variable need : C -> nat.

Local Notation step := (@eng_step C E R sends need).
Local Notation run := (@eng_run C E R sends need).

Lemma run_app s h1 h2 : run s (h1 ++ h2) =
  let '(s1, o1) := run s h1 in let '(s2, o2) := run s1 h2 in (s2, o1 ++ o2).
Proof.
  revert s. induction h1 as [|o h1 IH]; intros s; cbn [app eng_run].
  - now destruct (run s h2).
  - destruct (step s o) as [s1 o1]. rewrite IH. destruct (run s1 h1) as [s2 o2]. destruct (run s2 h2) as [s3 o3].
    now rewrite app_assoc.
Qed.

(** commands the sender has taken in this epoch and not completed, and completed *)
Definition taken (s : eng C E R) (D : list (C * list R)) : list C :=
  map fst D ++ opt_list fst (g_rcur s) ++ g_rq s.
Definition todo (s : eng C E R) : list E := match g_cur s with Some (_, l) => l | None => [] end.
Definition got (s : eng C E R) : list R := match g_rcur s with Some (_, l) => l | None => [] end.

Definition inv (s : eng C E R) l : Prop :=
  let ep := epoch l in let D := completed ep in
  flushed ep = [] /\
  started ep = taken s D ++ g_q s /\
  received ep = concat (map snd D) ++ got s /\
  sent ep ++ todo s = flat_map sends (taken s D) /\
  Forall (fun d => length (snd d) = need (fst d)) D /\
  match g_rcur s with Some (c, g) => (length g < need c)%nat | None => True end /\
  match g_cur s with
  | Some (c, r) => r <> [] /\ (exists pre, taken s D = pre ++ [c]) /\ exists pre, sends c = pre ++ r
  | None => True
  end /\
  g_inflight s = zlen (started ep) - zlen D /\ g_idle s = (g_inflight s =? 0) /\ g_wtask s = g_rtask s.

Lemma inv_init : inv eng_init [].
Proof. unfold inv. cbn. repeat split; auto. Qed.

Lemma left_of_todo (c : C) (r : list E) :
  match left_of c r with Some (_, l) => l | None => [] end = r /\
  match left_of c r with Some (c', l) => c' = c /\ l = r /\ r <> [] | None => r = [] end.
Proof. destruct r; cbn; repeat split; auto; discriminate. Qed.

Lemma flushed_map (cs : list C) : flushed (map (fun c => ODone c None) cs : list (gout C E R)) = cs /\
  completed (map (fun c => ODone c None) cs : list (gout C E R)) = [] /\
  started (map (fun c => ODone c None) cs : list (gout C E R)) = [].
Proof. induction cs as [|c cs (H1 & H2 & H3)]; cbn [map flushed completed started]; repeat split; auto. now rewrite H1. Qed.

(** the response task: got so far [g], with command c taken from the front of the queue *)
Lemma inv_resp s l c rq' g D :
  let ep := epoch l in
  D = completed ep -> flushed ep = [] -> started ep = (map fst D ++ c :: rq') ++ g_q s ->
  received ep = concat (map snd D) ++ g -> sent ep ++ todo s = flat_map sends (map fst D ++ c :: rq') ->
  Forall (fun d => length (snd d) = need (fst d)) D -> (length g <= need c)%nat ->
  match g_cur s with
  | Some (c', r) => r <> [] /\ (exists pre, map fst D ++ c :: rq' = pre ++ [c']) /\ exists pre, sends c' = pre ++ r
  | None => True
  end ->
  g_inflight s = zlen (started ep) - zlen D -> g_idle s = (g_inflight s =? 0) -> g_wtask s = g_rtask s ->
  let '(s', o) := eng_resp need s c rq' g in inv s' (l ++ o).
Proof.
  intros ep HD Hf Hs Hr Ht Hn Hg Hc Hi Hid Hw. unfold eng_resp.
  destruct (Nat.leb_spec (need c) (length g)) as [Hle|Hlt].
  - unfold inv. cbv zeta. rewrite epoch_app_quiet by reflexivity. fold ep.
    rewrite flushed_app, started_app, received_app, sent_app, completed_app. cbn [flushed started received sent completed].
    rewrite <- HD. cbn [taken got todo g_rcur g_rq g_q g_cur g_inflight g_idle g_wtask g_rtask opt_list].
    rewrite !app_nil_r, Hf, Hs, Hr. rewrite !map_app. cbn [map fst snd]. rewrite concat_app. cbn [concat].
    rewrite !app_nil_r. unfold taken. cbn [g_rcur g_rq opt_list app]. rewrite map_app. cbn [map fst].
    rewrite <- !app_assoc. cbn [app]. repeat split; auto.
    + apply Forall_app. split; auto. repeat constructor. cbn. lia.
    + rewrite Hi, Hs, !zlen_app. change (zlen [(c, g)]) with 1. cbn [zlen length]. unfold zlen. cbn [length].
      rewrite !app_length. cbn [length]. lia.
    + rewrite Hid. rewrite Hi. rewrite Hs, !zlen_app. change (zlen (c :: rq')) with (Z.of_nat (length (c :: rq'))).
      rewrite zlen_map. cbn [length]. pose proof (zlen_nonneg (g_q s)).
      match goal with |- (if ?b then _ else _) = _ => destruct b eqn:Q end; lia.
  - unfold inv. cbv zeta. rewrite app_nil_r. fold ep. rewrite <- HD.
    cbn [got todo g_rcur g_rq g_q g_cur g_inflight g_idle g_wtask g_rtask opt_list].
    unfold taken. cbn [g_rcur g_rq opt_list app fst]. repeat split; auto.
Qed.

Lemma inv_step s l o : inv s l -> let '(s', os) := step s o in inv s' (l ++ os).
Proof.
  intros (Hf & Hs & Hr & Ht & Hn & Hg & Hc & Hi & Hid & Hw).
  set (ep := epoch l) in *. set (D := completed ep) in *.
  assert (Hissue : forall s0 c, g_q s0 = g_q s -> g_rq s0 = g_rq s -> g_rcur s0 = g_rcur s -> g_cur s0 = g_cur s -> g_inflight s0 = g_inflight s -> g_idle s0 = g_idle s ->
     g_wtask s0 = g_wtask s -> g_rtask s0 = g_rtask s -> inv (eng_issue s0 c) (l ++ [OStart c])).
  { intros s0 c E2 E1 E5 E6 E7 E8 E9 E10. unfold inv. cbv zeta. rewrite epoch_app_quiet by reflexivity. fold ep.
    rewrite flushed_app, started_app, received_app, sent_app, completed_app. cbn [flushed started received sent completed].
    rewrite !app_nil_r. fold D. unfold eng_issue.
    unfold taken, got, todo in *.
    cbn [g_rcur g_rq g_q g_cur g_inflight g_idle g_wtask g_rtask]. rewrite E1, E2, E5, E6, E7, E9, E10.
    rewrite Hs, <- !app_assoc. rewrite <- !app_assoc in *. repeat split; auto.
    - rewrite Hi, Hs, !zlen_app. change (zlen [c]) with 1. lia.
    - rewrite Hi, Hs. rewrite !zlen_app, zlen_map. pose proof (zlen_nonneg (g_q s)).
      pose proof (zlen_nonneg (g_rq s)). pose proof (zlen_nonneg (opt_list fst (g_rcur s))). lia. }
  destruct o as [c|c|n| | | |r|b]; cbn [eng_step].
  - apply Hissue; reflexivity.
  - rewrite app_nil_r. unfold inv. cbv zeta. fold ep D.
    cbn [eng_set_pend g_rcur g_rq g_q g_cur g_inflight g_idle g_wtask g_rtask].
    unfold taken, got, todo in *. cbn [g_rcur g_rq g_q g_cur]. auto 12.
  - destruct (nth_error (g_pend s) n) as [c|]; [apply Hissue; reflexivity|].
    rewrite app_nil_r. unfold inv. auto 12.
  - (* GGet *)
    assert (Hsame : inv s (l ++ [])) by (rewrite app_nil_r; unfold inv; auto 12).
    destruct (g_wtask s) eqn:Ew; [|exact Hsame]. destruct (g_cur s) as [[c0 r0]|] eqn:Ec; [exact Hsame|].
    destruct (g_q s) as [|c q'] eqn:Eq; [exact Hsame|].
    rewrite app_nil_r. unfold inv. cbv zeta. fold ep D. unfold eng_get.
    cbn [g_rcur g_rq g_q g_cur g_inflight g_idle g_wtask g_rtask].
    destruct (left_of_todo c (sends c)) as (L1 & L2).
    unfold taken, todo, got in *. cbn [g_rcur g_rq g_q g_cur]. rewrite L1. rewrite Ec in Ht. rewrite app_nil_r in Ht.
    rewrite !app_assoc in *. split; [auto|]. split.
    { rewrite Hs, <- !app_assoc. reflexivity. }
    split; [auto|]. split.
    { rewrite Ht. rewrite !flat_map_app. cbn [flat_map]. now rewrite app_nil_r. }
    split; [auto|]. split; [auto|]. split.
    { destruct (left_of c (sends c)) as [[c' r']|]; auto. destruct L2 as (-> & -> & L3). split; auto.
      split; [now eexists|]. now exists []. }
    repeat split; auto; congruence.
  - (* GSend *)
    assert (Hsame : inv s (l ++ [])) by (rewrite app_nil_r; unfold inv; auto 12).
    destruct (g_wtask s) eqn:Ew; [|exact Hsame]. destruct (g_cur s) as [[c [|e r]]|] eqn:Ec; try exact Hsame.
    unfold inv. cbv zeta. rewrite epoch_app_quiet by reflexivity. fold ep.
    rewrite flushed_app, started_app, received_app, sent_app, completed_app. cbn [flushed started received sent completed].
    rewrite !app_nil_r. fold D. unfold eng_sent. cbn [g_rcur g_rq g_q g_cur g_inflight g_idle g_wtask g_rtask].
    destruct (left_of_todo c r) as (L1 & L2). destruct Hc as (Hc1 & Hc2 & (pre & Hc3)).
    unfold taken, todo, got in *. cbn [g_rcur g_rq g_q g_cur]. rewrite L1. rewrite Ec in Ht.
    split; [auto|]. split; [auto|]. split; [auto|]. split.
    { rewrite <- app_assoc. exact Ht. }
    split; [auto|]. split; [auto|]. split.
    { destruct (left_of c r) as [[c' r']|]; auto. destruct L2 as (-> & -> & L3). split; auto. split; auto.
      exists (pre ++ [e]). now rewrite <- app_assoc. }
    repeat split; auto; congruence.
  - (* GRGet *)
    assert (Hsame : inv s (l ++ [])) by (rewrite app_nil_r; unfold inv; auto 12).
    destruct (g_rtask s) eqn:Ew; [|exact Hsame]. destruct (g_rcur s) as [[c0 r0]|] eqn:Ec; [exact Hsame|].
    destruct (g_rq s) as [|c q'] eqn:Eq; [exact Hsame|].
    apply (inv_resp s l c q' [] D); auto; fold ep; unfold taken, got in *; rewrite ?Ec, ?Eq in *; cbn [opt_list app] in *; auto; cbn; lia.
  - (* GResp *)
    assert (Hsame : inv s (l ++ [])) by (rewrite app_nil_r; unfold inv; auto 12).
    destruct (g_rtask s) eqn:Ew; [|exact Hsame]. destruct (g_rcur s) as [[c g]|] eqn:Ec; [|exact Hsame].
    pose proof (inv_resp s (l ++ [OResp r]) c (g_rq s) (g ++ [r]) D) as H. cbv zeta in H.
    rewrite epoch_app_quiet in H by reflexivity. fold ep in H.
    rewrite flushed_app, started_app, received_app, sent_app, completed_app in H. cbn [flushed started received sent completed] in H.
    rewrite !app_nil_r in H. fold D in H.
    destruct (eng_resp need s c (g_rq s) (g ++ [r])) as [s' o]. change (OResp r :: o) with ([OResp r] ++ o). rewrite app_assoc.
    apply H; auto; unfold taken, got in *; rewrite ?Ec in *; cbn [opt_list app fst] in *; auto.
    + rewrite Hr, <- app_assoc. reflexivity.
    + rewrite app_length. cbn. lia.
    + congruence.
  - destruct b; cbn [eng_reset].
    + rewrite app_assoc. unfold inv. cbv zeta. rewrite epoch_reset. cbn. repeat split; auto.
    + rewrite app_nil_r. unfold inv. cbv zeta. fold ep D.
      cbn [g_rcur g_rq g_q g_cur g_inflight g_idle g_wtask g_rtask].
      unfold taken, got, todo in *. cbn [g_rcur g_rq g_q g_cur]. auto 12.
Qed.

(** induction over a run from the start, last operation first *)
Lemma run_ind (P : list (gop C R) -> eng C E R -> list (gout C E R) -> Prop) :
  P [] eng_init [] ->
  (forall h s l o, run eng_init h = (s, l) -> P h s l -> let '(s', os) := step s o in P (h ++ [o]) s' (l ++ os)) ->
  forall h, let '(s, l) := run eng_init h in P h s l.
Proof.
  intros H0 HS h. induction h as [|o h IH] using rev_ind; [exact H0|].
  rewrite run_app. destruct (run eng_init h) as [s l] eqn:Er. specialize (HS h s l o Er IH).
  cbn [eng_run]. destruct (step s o) as [s' os]. now rewrite app_nil_r.
Qed.

Lemma inv_run h : let '(s, l) := run eng_init h in inv s l.
Proof.
  apply (run_ind (fun _ s l => inv s l)); [exact inv_init|]. intros h' s l o _ H. exact (inv_step s l o H).
Qed.

(** ** attribution *)
Lemma combine_fst_snd {A B} (l : list (A * B)) : combine (map fst l) (map snd l) = l.
Proof. induction l as [|[a b] l IH]; cbn; congruence. Qed.

Lemma eng_attribution h : let '(s, l) := run eng_init h in
  let ep := epoch l in
  exists segs rest,
    (length segs <= length (started ep))%nat /\
    completed ep = combine (firstn (length segs) (started ep)) segs /\
    received ep = concat segs ++ rest /\
    Forall2 (fun c seg => length seg = need c) (firstn (length segs) (started ep)) segs /\
    (exists more, flat_map sends (started ep) = sent ep ++ more) /\
    (g_wtask s = true -> step s GGet = (s, []) -> step s GSend = (s, []) -> step s GRGet = (s, []) ->
       sent ep = flat_map sends (started ep) /\
       (length segs = length (started ep) \/
        exists c, nth_error (started ep) (length segs) = Some c /\ (length rest < need c)%nat)).
Proof.
  pose proof (inv_run h) as Hi. destruct (run eng_init h) as [s l]. cbv zeta.
  destruct Hi as (Hf & Hs & Hr & Ht & Hn & Hg & Hc & _ & _ & Hw).
  set (ep := epoch l) in *. set (D := completed ep) in *.
  exists (map snd D), (got s). rewrite map_length.
  assert (Hfst : firstn (length D) (started ep) = map fst D).
  { rewrite Hs. unfold taken. rewrite <- app_assoc. replace (length D) with (length (map fst D) + 0)%nat by (rewrite map_length; lia).
    rewrite firstn_app_2. cbn [firstn]. apply app_nil_r. }
  rewrite Hfst. split; [|split; [|split; [|split; [|split]]]].
  - rewrite Hs. unfold taken. rewrite !app_length, map_length. lia.
  - now rewrite combine_fst_snd.
  - exact Hr.
  - clear -Hn. induction Hn; cbn; constructor; auto.
  - exists (todo s ++ flat_map sends (g_q s)). rewrite app_assoc, Ht, Hs. apply flat_map_app.
  - intros Ew E1 E2 E3. cbn [eng_step] in *. rewrite <- Hw, Ew in *.
    assert (Ecur : g_cur s = None).
    { destruct (g_cur s) as [[c [|e r]]|] eqn:Ec; auto.
      - destruct Hc as (Hc & _). congruence.
      - discriminate. }
    assert (Eq : g_q s = []).
    { rewrite Ecur in E1. destruct (g_q s) as [|c q]; auto. exfalso. injection E1 as E1. apply (f_equal (fun x => length (g_rq x))) in E1. cbn in E1.
      rewrite app_length in E1. cbn in E1. lia. }
    split.
    + unfold todo in Ht. rewrite Ecur, app_nil_r in Ht. rewrite Ht, Hs, Eq, app_nil_r. reflexivity.
    + rewrite Hs, Eq, app_nil_r. unfold taken. destruct (g_rcur s) as [[c g]|] eqn:Er.
      * right. exists c. cbn [opt_list fst]. unfold got. rewrite Er. split; auto.
        rewrite nth_error_app2 by (rewrite map_length; lia). now rewrite map_length, Nat.sub_diag.
      * left. cbn [opt_list app]. destruct (g_rq s) as [|c q] eqn:Erq; [now rewrite app_nil_r, map_length|].
        exfalso. unfold eng_resp in E3. destruct (Nat.leb _ _); [discriminate|].
        injection E3 as E3. apply (f_equal g_rcur) in E3. cbn in E3. congruence.
Qed.

(** initiated = started + waiting *)
Lemma initiated_app (h1 h2 : list (gop C R)) : initiated (h1 ++ h2) = initiated h1 ++ initiated h2.
Proof. induction h1 as [|[] h1 IH]; cbn [app initiated]; rewrite ?IH; auto. Qed.

Lemma nth_split_perm {A} (l : list A) n x : nth_error l n = Some x ->
  Permutation l (x :: firstn n l ++ skipn (S n) l).
Proof.
  revert n. induction l as [|y l IH]; intros [|n] H; try discriminate.
  - injection H as ->. reflexivity.
  - cbn [nth_error] in H. specialize (IH n H). cbn [firstn skipn app]. rewrite perm_swap. now constructor.
Qed.

Lemma initiated_run h : let '(s, l) := run eng_init h in Permutation (initiated h) (started l ++ g_pend s).
Proof.
  apply (run_ind (fun h s l => Permutation (initiated h) (started l ++ g_pend s))); [reflexivity|].
  intros h' s l o _ H.
  assert (Hsame : forall (s' : eng C E R) (os : list (gout C E R)) (o' : gop C R), initiated [o'] = [] -> started os = [] -> g_pend s' = g_pend s ->
     Permutation (initiated (h' ++ [o'])) (started (l ++ os) ++ g_pend s')).
  { intros s' os o' E1 E2 E3. now rewrite initiated_app, started_app, E1, E2, E3, !app_nil_r. }
  destruct o as [c|c|n| | | |r|b]; cbn [eng_step].
  - rewrite initiated_app, started_app. cbn [initiated started eng_issue g_pend].
    rewrite H, <- !app_assoc. apply Permutation_app_head. apply Permutation_app_comm.
  - rewrite initiated_app, started_app. cbn [initiated started eng_set_pend g_pend]. rewrite app_nil_r, app_assoc.
    now apply Permutation_app_tail.
  - destruct (nth_error (g_pend s) n) as [c|] eqn:En; [|now apply Hsame].
    rewrite initiated_app, started_app. cbn [initiated started eng_issue eng_set_pend g_pend]. rewrite app_nil_r, H, <- app_assoc.
    apply Permutation_app_head. cbn [app]. now apply nth_split_perm.
  - destruct (g_wtask s), (g_cur s), (g_q s); apply Hsame; reflexivity.
  - destruct (g_wtask s), (g_cur s) as [[c [|e r]]|]; apply Hsame; reflexivity.
  - destruct (g_rtask s), (g_rcur s), (g_rq s) as [|c q']; try (apply Hsame; reflexivity).
    unfold eng_resp. destruct (Nat.leb _ _); apply Hsame; reflexivity.
  - destruct (g_rtask s), (g_rcur s) as [[c g]|]; try (apply Hsame; reflexivity).
    unfold eng_resp. destruct (Nat.leb _ _); apply Hsame; reflexivity.
  - destruct b; cbn [eng_reset]; apply Hsame; try reflexivity.
    rewrite started_app. cbn [started]. now rewrite (proj2 (proj2 (flushed_map _))).
Qed.

(** ** completion exactly once *)
Variable ans : E -> bool.
Variable valid : C -> Prop.
Hypothesis need_ans : forall c, valid c -> need c = length (filter ans (sends c)).
Hypothesis last_ans : forall c pre e, valid c -> sends c = pre ++ [e] -> ans e = true.

Lemma flat_need D : Forall valid D -> length (filter ans (flat_map sends D)) = list_sum (map need D).
Proof.
  induction 1 as [|c D Hc _ IH]; [reflexivity|]. cbn [flat_map map]. rewrite filter_app, app_length, IH, need_ans by auto. reflexivity.
Qed.
Lemma concat_need D : Forall (fun d : C * list R => length (snd d) = need (fst d)) D ->
  length (concat (map snd D)) = list_sum (map need (map fst D)).
Proof. induction 1 as [|d D H _ IH]; [reflexivity|]. cbn. rewrite app_length, IH, H. reflexivity. Qed.

Lemma suffix_ans c r pre : valid c -> sends c = pre ++ r -> r <> [] -> (0 < length (filter ans r))%nat.
Proof.
  intros Hv H Hne. destruct (exists_last Hne) as (r' & e & ->). rewrite filter_app. cbn [filter].
  rewrite (last_ans c (pre ++ r') e Hv); [rewrite app_length; cbn; lia|]. now rewrite H, app_assoc.
Qed.

Lemma epoch_valid l : Forall valid (started l) -> Forall valid (started (epoch l)).
Proof.
  destruct (epoch_split l) as [Hq|(pre & Hl)]; [now rewrite epoch_quiet|]. intros H. rewrite Hl, started_app in H.
  apply Forall_app in H. destruct H as [_ H]. exact H.
Qed.

(** a command that still has transfers left is not completed in this epoch *)
Lemma cur_not_done s l c r : inv s l -> Forall valid (started l) ->
  (length (received (epoch l)) <= length (filter ans (sent (epoch l))))%nat ->
  g_cur s = Some (c, r) -> exists q, opt_list fst (g_rcur s) ++ g_rq s = q ++ [c].
Proof.
  intros (Hf & Hs & Hr & Ht & Hn & Hg & Hc & _) Hv Hp Ecur. apply epoch_valid in Hv. rewrite Hs in Hv. apply Forall_app in Hv. destruct Hv as [Hv _]. rewrite Ecur in Hc. destruct Hc as (Hc1 & (pre & Hc2) & (pre' & Hc3)).
  unfold taken, todo in *. rewrite Ecur in Ht. set (D := completed (epoch l)) in *.
  destruct (opt_list fst (g_rcur s) ++ g_rq s) as [|c0 q0] eqn:Eq.
  - exfalso. rewrite app_nil_r in *. apply (f_equal (fun x => length (filter ans x))) in Ht.
    rewrite filter_app, app_length, flat_need in Ht by exact Hv. rewrite Hr, app_length, (concat_need _ Hn) in Hp.
    assert (valid c) as Hvc by (rewrite Hc2 in Hv; apply Forall_app in Hv; destruct Hv as [_ Hv]; now inversion Hv).
    pose proof (suffix_ans c r pre' Hvc Hc3 Hc1). lia.
  - destruct (exists_last (l := c0 :: q0)) as (q & x & Hx); [discriminate|]. rewrite Hx in *.
    exists q. rewrite app_assoc in Hc2. apply app_inj_tail in Hc2. destruct Hc2 as [_ ->]. reflexivity.
Qed.

Definition fin l c : Prop := In c (map fst (completed l)) \/ In c (flushed l).

(** a finished part of the trace: every operation finished, in one way *)
Definition closed l : Prop :=
  (forall c, In c (started l) <-> fin l c) /\
  (NoDup (started l) -> NoDup (map fst (completed l)) /\ forall c, In c (flushed l) -> ~ In c (map fst (completed l))).

Definition pending (s : eng C E R) : list C := opt_list fst (g_rcur s) ++ g_rq s ++ g_q s.

Lemma inv_started s l : inv s l -> started (epoch l) = map fst (completed (epoch l)) ++ pending s.
Proof. intros (_ & H & _). rewrite H. unfold taken, pending. now rewrite <- !app_assoc. Qed.

Lemma closed_app l1 l2 : closed l1 -> closed l2 -> closed (l1 ++ l2).
Proof.
  intros (A1 & A2) (B1 & B2). unfold closed, fin in *. rewrite started_app, completed_app, flushed_app, map_app. split.
  - intros c. rewrite !in_app_iff, A1, B1. tauto.
  - intros Hnd. destruct (NoDup_app_inv' _ _ Hnd) as (N1 & N2 & N3).
    destruct (A2 N1) as (A3 & A4). destruct (B2 N2) as (B3 & B4). split.
    + apply NoDup_app'; auto. intros c H1 H2. apply (N3 c); [apply A1|apply B1]; auto.
    + intros c. rewrite !in_app_iff. intros [H|H] [K|K]; auto.
      * now apply (A4 c).
      * apply (N3 c); [apply A1|apply B1]; auto.
      * apply (N3 c); [apply A1|apply B1]; auto.
      * now apply (B4 c).
Qed.

Lemma closed_epoch s l : inv s l -> Forall valid (started l) ->
  (length (received (epoch l)) <= length (filter ans (sent (epoch l))))%nat ->
  closed (epoch l ++ snd (eng_reset s true)).
Proof.
  intros Hi Hv Hp. pose proof (inv_started _ _ Hi) as Hs. pose proof (proj1 Hi) as Hf.
  cbn [eng_reset snd]. set (ep := epoch l) in *. set (D := map fst (completed ep)) in *.
  set (fl := g_q s ++ opt_list fst (g_cur s) ++ g_rq s ++ opt_list fst (g_rcur s)).
  assert (Hfl : forall c, In c fl <-> In c (pending s)).
  { intros c. unfold fl, pending. rewrite !in_app_iff. split; [|tauto].
    intros [H|[H|H]]; try tauto. destruct (g_cur s) as [[c' r]|] eqn:Ec; [|contradiction].
    cbn in H. destruct H as [->|[]]. destruct (cur_not_done s l c r Hi Hv Hp Ec) as (q & Hq).
    assert (In c (opt_list fst (g_rcur s) ++ g_rq s)) as Hin by (rewrite Hq, in_app_iff; cbn; auto).
    rewrite in_app_iff in Hin. tauto. }
  destruct (flushed_map fl) as (F1 & F2 & F3).
  unfold closed, fin. rewrite !started_app, !completed_app, !flushed_app, !map_app, F1, F2, F3, Hf.
  cbn [started completed flushed map]. rewrite !app_nil_r. cbn [app]. fold D. rewrite Hs. split.
  - intros c. rewrite in_app_iff, Hfl. tauto.
  - intros Hnd. destruct (NoDup_app_inv' _ _ Hnd) as (N1 & N2 & N3). split; auto.
    intros c Hc Hd. apply Hfl in Hc. now apply (N3 c).
Qed.

(** the trace is a closed part and the current epoch *)
Definition inv2 l : Prop := exists past, l = past ++ epoch l /\ closed past.

Lemma quiet_step s o : quiet (snd (step s o)) \/ o = GReset true.
Proof.
  destruct o as [c|c|n| | | |r|[]]; cbn [eng_step]; auto; left; try reflexivity.
  - now destruct (nth_error (g_pend s) n).
  - now destruct (g_wtask s), (g_cur s), (g_q s).
  - now destruct (g_wtask s), (g_cur s) as [[c [|e r]]|].
  - destruct (g_rtask s), (g_rcur s), (g_rq s) as [|c q']; try reflexivity.
    unfold eng_resp. now destruct (Nat.leb _ _).
  - destruct (g_rtask s), (g_rcur s) as [[c g]|]; try reflexivity.
    unfold eng_resp. now destruct (Nat.leb _ _).
Qed.

Lemma follow_app (l1 l2 : list (gout C E R)) : answers_follow ans (l1 ++ l2) -> answers_follow ans l1.
Proof. intros H a b Hab. apply (H a (b ++ l2)). now rewrite Hab, app_assoc. Qed.

Lemma inv2_run h : let '(s, l) := run eng_init h in answers_follow ans l -> Forall valid (started l) -> inv2 l.
Proof.
  apply (run_ind (fun _ s l => answers_follow ans l -> Forall valid (started l) -> inv2 l)).
  - intros _ _. exists []. split; [reflexivity|]. split; [unfold fin; cbn; tauto|]. intros _. split; [constructor|]. auto.
  - intros h' s l o Er IH. pose proof (inv_run h') as Hi. rewrite Er in Hi.
    destruct (step s o) as [s' os] eqn:Es. intros Hp Hv. rewrite started_app in Hv. apply Forall_app in Hv. destruct Hv as [Hv _].
    destruct (IH (follow_app _ _ Hp) Hv) as (past & Hl & Hc).
    destruct (quiet_step s o) as [Hq| ->].
    + rewrite Es in Hq. exists past. rewrite epoch_app_quiet by exact Hq. split; auto. rewrite Hl at 1. now rewrite app_assoc.
    + pose proof (Hp l os eq_refl) as Hp1. pose proof (closed_epoch s l Hi Hv Hp1) as Hce.
      cbn [eng_step] in Es. rewrite Es in Hce. cbn [snd] in Hce.
      assert (exists fl, os = fl ++ [OReset]) as (fl & Efl) by (cbn in Es; injection Es as _ <-; now eexists).
      exists (l ++ os). split.
      * rewrite Efl, app_assoc, epoch_reset. now rewrite app_nil_r.
      * rewrite Hl, <- app_assoc. now apply closed_app.
Qed.

(** what holds in every reachable state *)
Lemma eng_finish h : let '(s, l) := run eng_init h in
  answers_follow ans l -> Forall valid (started l) ->
  (forall c, In c (started l) <-> fin l c \/ In c (pending s)) /\
  (NoDup (started l) ->
     NoDup (map fst (completed l)) /\ (forall c, In c (flushed l) -> ~ In c (map fst (completed l))) /\
     forall c, In c (pending s) -> ~ fin l c).
Proof.
  pose proof (inv_run h) as Hi. pose proof (inv2_run h) as H2. destruct (run eng_init h) as [s l].
  intros Hp Hv. destruct (H2 Hp Hv) as (past & Hl & (C1 & C2)). pose proof (inv_started _ _ Hi) as Hs.
  destruct Hi as (Hf & _). rewrite Hl. set (ep := epoch l) in *. unfold fin in *.
  rewrite started_app, completed_app, flushed_app, map_app, Hf, Hs, app_nil_r. split.
  - intros c. rewrite !in_app_iff, C1. tauto.
  - intros Hnd. destruct (NoDup_app_inv' _ _ Hnd) as (N1 & N2 & N3). destruct (C2 N1) as (C3 & C4).
    destruct (NoDup_app_inv' _ _ N2) as (M1 & M2 & M3). split; [|split].
    + apply NoDup_app'; auto. intros c K1 K2. apply (N3 c); [apply C1; auto|]. rewrite in_app_iff; auto.
    + intros c K1. rewrite in_app_iff. intros [K2|K2]; [now apply (C4 c)|].
      apply (N3 c); [apply C1; auto|]. rewrite in_app_iff; auto.
    + intros c K1. rewrite !in_app_iff. intros [[K2|K2]|K2].
      * apply (N3 c); [apply C1; auto|]. rewrite in_app_iff; auto.
      * now apply (M3 c).
      * apply (N3 c); [apply C1; auto|]. rewrite in_app_iff; auto.
Qed.
End P.

(** ** idle *)
Section Idle.
Context {C E R : Type} (sends : C -> list E) (need : C -> nat).

Lemma idle_exact (h : list (gop C R)) (s : eng C E R) (l : list (gout C E R)) : inv sends need s l ->
  Permutation (initiated h) (started l ++ g_pend s) -> NoDup (initiated h) ->
  forall valid : C -> Prop, Forall valid (initiated h) ->
  (Forall valid (started l) ->
   (forall c, In c (started l) <-> fin l c \/ In c (pending s)) /\
   (NoDup (started l) ->
     NoDup (map fst (completed l)) /\ (forall c, In c (flushed l) -> ~ In c (map fst (completed l))) /\
     forall c, In c (pending s) -> ~ fin l c)) ->
  (eng_is_idle s = true <-> forall c, In c (started l) -> In c (map fst (completed l)) \/ In c (flushed l)) /\
  g_idle s = eng_is_idle s /\
  (g_pend s = [] -> forall c, In c (initiated h) <-> In c (started l)).
Proof.
  intros Hi Hp Hnd valid Hv Hf.
  assert (Hvs : Forall valid (started l)).
  { rewrite Forall_forall in *. intros c Hc. apply Hv. rewrite Hp, in_app_iff. now left. }
  destruct (Hf Hvs) as (F1 & F2).
  assert (Hnds : NoDup (started l)).
  { rewrite Hp in Hnd. now apply NoDup_app_inv' in Hnd. }
  destruct (F2 Hnds) as (_ & _ & F3).
  pose proof (inv_started _ _ _ _ Hi) as Hst. destruct Hi as (_ & _ & _ & _ & _ & _ & _ & Hin & Hid & _).
  assert (Hidle : eng_is_idle s = true <-> pending s = []).
  { unfold eng_is_idle. rewrite Hin, Hst, zlen_app, zlen_map. destruct (pending s) as [|c p]; [split; auto; cbn; lia|].
    split; [|discriminate]. unfold zlen. cbn [length]. lia. }
  split; [|split; auto].
  - rewrite Hidle. split.
    + intros Hpe c Hc. apply F1 in Hc. rewrite Hpe in Hc. destruct Hc as [Hc|[]]. exact Hc.
    + intros H. destruct (pending s) as [|c p] eqn:Epe; auto. exfalso.
      apply (F3 c); [cbn; auto|]. apply H. apply F1. right. cbn; auto.
  - intros Hpe c. rewrite Hp, Hpe, app_nil_r. tauto.
Qed.
End Idle.

(** ** reset *)
Section Reset.
Context {C E R : Type} (sends : C -> list E) (need : C -> nat).
Lemma reset_state (h : list (gop C R)) : let '(s, l) := eng_run (E:=E) sends need eng_init (h ++ [GReset true]) in
  pending s = [] /\ g_inflight s = 0 /\ g_idle s = true /\ g_cur s = None.
Proof.
  rewrite run_app. destruct (eng_run sends need eng_init h) as [s l]. cbn. auto.
Qed.
End Reset.
