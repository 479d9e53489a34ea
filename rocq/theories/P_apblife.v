(** Lemmas for the APB master: operations, their events, idle and reset. *)
From Coq Require Import ZArith Lia List Bool.
From Coq Require Import ZifyBool ZifyNat.
From Verif Require Import Py M_axi M_axil P_axil M_apb S_apb P_apb P_apbsys.
Import ListNotations.
Open Scope Z_scope.

Fixpoint rets (o : list aout) : list (aop * option aresp) :=
  match o with [] => [] | ORet x d :: o' => (x, d) :: rets o' | _ :: o' => rets o' end.
Lemma rets_app a b : rets (a ++ b) = rets a ++ rets b.
Proof. induction a as [|[] a IH]; cbn; congruence. Qed.

(** the operation the task holds *)
Definition held (t : atask) : list aop :=
  match t with AGot x => [x] | APaus r | ASetup r | AAcc r => [ru_op r] | _ => [] end.
(** operations not completed *)
Definition outst (s : apb) : list aop := held (b_task s) ++ b_q s.
Definition curl (s : apb) : list aop := match b_cur s with Some x => [x] | None => [] end.
Definition evs (se : list (aop * option aresp)) (l : list (aop * option (option aresp))) :=
  fold_left (fun l e => ev_set (fst e) (snd e) l) se l.

Lemma ev_set_fst x d l : map fst (ev_set x d l) = map fst l.
Proof. unfold ev_set. rewrite map_map. apply map_ext. intros e. destruct (_ =? _); reflexivity. Qed.
Lemma evs_fst se : forall l, map fst (evs se l) = map fst l.
Proof. induction se as [|e se IH]; intros l; cbn; auto. unfold evs in IH. now rewrite IH, ev_set_fst. Qed.
Lemma evs_spec se : forall l x e, In (x, e) (evs se l) ->
  exists e0, In (x, e0) l /\ ((exists y d, In (y, d) se /\ fst y = fst x /\ e = Some d) \/
                              (e = e0 /\ forall y d, In (y, d) se -> fst y <> fst x)).
Proof.
  induction se as [|[y d] se IH]; intros l x e H.
  - exists e. split; [exact H|]. right. split; [reflexivity|]. intros ? ? [].
  - cbn [evs fold_left] in H. apply IH in H. destruct H as (e0 & Hin & Hc).
    unfold ev_set in Hin. apply in_map_iff in Hin. destruct Hin as ((x1 & e1) & E & Hin). cbn [fst snd] in E.
    destruct (Z.eqb_spec (fst x1) (fst y)) as [Heq|Hne]; injection E as -> E0; exists e1; split; auto.
    + left. destruct Hc as [(y' & d' & Hy & Hf & ->)|[-> Hn]]; [exists y', d'; cbn; auto|]. exists y, d. cbn. auto.
    + destruct Hc as [(y' & d' & Hy & Hf & ->)|[-> Hn]]; [left; exists y', d'; cbn; auto|]. right. split; [auto|].
      intros y' d' [Heq|Hin']; [injection Heq as <- <-; auto|eauto].
Qed.

Section Life.
Variables (L : Z) (ep : bool).
Hypothesis HL : 0 < L.

(** the task's data are consistent: it cannot end with an exception *)
Definition run_ok (r : arun) : Prop :=
  0 <= ru_k r < ac_cycles L (snd (ru_op r)) /\ ru_off r = ooff L (snd (ru_op r)) (ru_k r + 1).
Definition task_ok (t : atask) : Prop :=
  match t with APaus r | ASetup r | AAcc r => run_ok r | ADead => False | _ => True end.
(** current_command is the operation in work *)
Definition cur_ok (s : apb) : Prop :=
  match b_task s with APaus r | ASetup r | AAcc r => b_cur s = Some (ru_op r) | _ => True end.

(** the task completes the operations [fin] *)
Record moved (s s' : apb) (all fin : list aop) (o : list aout) : Prop := {
  mv_out : all = fin ++ outst s';
  mv_sets : map fst (sets o) = fin;
  mv_some : Forall (fun e => snd e <> None) (sets o);
  mv_starts : starts o = [];
  mv_rets : rets o = [];
  mv_wait : b_wait s' = evs (sets o) (b_wait s);
  mv_cnt : b_inflight s' = b_inflight s - zlen fin;
  mv_idle : b_idle s' = (b_inflight s' =? 0);
  mv_next : b_next s' = b_next s;
  mv_pend : b_pend s' = b_pend s;
  mv_task : task_ok (b_task s');
  mv_cur : cur_ok s';
  mv_curl : forall x, In x (curl s') -> In x (curl s) \/ In x all }.

Lemma a_beat_moved pause s x k off d r : op_ok (snd x) -> 0 <= k < ac_cycles L (snd x) -> off = ooff L (snd x) k -> b_cur s = Some x ->
  b_idle s = (b_inflight s =? 0) ->
  moved s (fst (a_beat L pause s x k off d r)) (x :: b_q s) [] (snd (a_beat L pause s x k off d r)).
Proof.
  intros Hx Hk -> Hc Hi. unfold a_beat. rewrite a_word_spec by auto.
  split; cbn [snd sets starts rets map fst]; auto; destruct pause; auto; try (cbn; rewrite ?Z.sub_0_r; auto; fail);
    unfold cur_ok; cbn; auto; split; cbn; auto.
Qed.

Lemma a_loop_moved pause q : forall s, Forall (fun x => op_ok (snd x)) q -> b_idle s = (b_inflight s =? 0) -> zlen q <= b_inflight s ->
  exists fin, moved s (fst (a_loop L pause q s)) q fin (snd (a_loop L pause q s)).
Proof.
  induction q as [|x q IH]; intros s Hq Hidle Hcnt; cbn [a_loop].
  - exists []. split; cbn; rewrite ?Z.sub_0_r; auto; try exact I.
  - apply Forall_cons_iff in Hq as [Hx Hq]. pose proof (ac_cycles_nonneg L HL _ Hx) as HC. rewrite zlen_cons in Hcnt. pose proof (zlen_nonneg q) as Hz0.
    destruct (Z.ltb_spec 0 (ac_cycles L (snd x))) as [Hc|Hc].
    + exists []. set (s1 := b_set_cur _ _).
      pose proof (a_beat_moved pause s1 x 0 0 [] OKAY Hx ltac:(lia) ltac:(now rewrite ooff_0) eq_refl Hidle) as HM.
      destruct HM. split; auto. intros z Hz. destruct (mv_curl0 z Hz) as [Hz'|]; auto. cbn in Hz'. destruct Hz' as [<-|[]]. right. left. reflexivity.
    + set (d := a_result (snd x) [] OKAY). set (s1 := b_set_cur _ _). set (s2 := b_complete s1 x d).
      destruct (IH s2 Hq) as (fin & HM).
      { cbn. destruct (Z.eqb_spec (b_inflight s - 1) 0); auto. rewrite Hidle. lia. }
      { cbn. lia. }
      destruct (a_loop L pause q s2) as [s' o]. cbn [fst snd] in *. exists (x :: fin). destruct HM. split; cbn [sets starts rets map fst]; auto.
      * cbn [app]. now rewrite <- mv_out0.
      * f_equal. exact mv_sets0.
      * constructor; [discriminate|auto].
      * rewrite mv_cnt0, zlen_cons. cbn [b_complete b_set_cnt b_inflight b_set_wait s2 s1 b_set_cur b_set_q b_set_sig]. lia.
      * intros z Hz. destruct (mv_curl0 z Hz) as [Hz'|]; [|right; right; auto]. cbn in Hz'. destruct Hz' as [<-|[]]. right. left. reflexivity.
Qed.

Lemma a_edge_moved pause pready prdata pslverr s : Forall (fun x => op_ok (snd x)) (outst s) -> task_ok (b_task s) -> cur_ok s ->
  b_idle s = (b_inflight s =? 0) -> b_inflight s = zlen (outst s) ->
  exists fin, let '(s', o) := a_edge L ep pause pready prdata pslverr s in moved s s' (outst s) fin o.
Proof.
  intros Hq Ht Hc Hi Hn. assert (Hsame : moved s s (outst s) [] []).
  { split; cbn; rewrite ?Z.sub_0_r; auto. }
  unfold a_edge. destruct (b_task s) as [| | |x|r|r|r|] eqn:E; try (exists []; exact Hsame).
  - unfold outst in *. rewrite E in *. cbn [held app] in *.
    destruct (a_loop_moved pause (b_q s) s Hq Hi (Z.eq_le_incl _ _ (eq_sym Hn))) as (fin & HM). exists fin. destruct (a_loop L pause (b_q s) s). exact HM.
  - unfold outst in *. rewrite E in *. cbn [held app] in *.
    destruct (a_loop_moved pause (x :: b_q s) s Hq Hi (Z.eq_le_incl _ _ (eq_sym Hn))) as (fin & HM). exists fin. destruct (a_loop L pause (x :: b_q s) s). exact HM.
  - exists []. destruct pause; [exact Hsame|]. unfold cur_ok in Hc. rewrite E in Hc. cbn [task_ok] in Ht.
    split; cbn; rewrite ?Z.sub_0_r; auto. unfold outst. rewrite E. reflexivity.
  - exists []. unfold cur_ok in Hc. rewrite E in Hc. cbn [task_ok] in Ht.
    split; cbn; rewrite ?Z.sub_0_r; auto. unfold outst. rewrite E. reflexivity.
  - destruct pready; [|exists []; exact Hsame]. unfold a_ack. cbv zeta. unfold outst in *. unfold cur_ok in Hc. rewrite E in *. cbn [held app] in *.
    apply Forall_cons_iff in Hq as [Hx Hq]. destruct Ht as (Hk & Hoff). rewrite zlen_cons in Hn. pose proof (zlen_nonneg (b_q s)) as Hz0.
    destruct (Z.ltb_spec (ru_k r + 1) (ac_cycles L (snd (ru_op r)))) as [Hlt|Hge].
    + exists []. set (s1 := b_set_sig _ _ _ _). set (data := _ ++ _). set (resp := if ep && pslverr then _ else _).
      pose proof (a_beat_moved pause s1 (ru_op r) (ru_k r + 1) (ru_off r) data resp Hx ltac:(lia) Hoff Hc Hi) as HM.
      destruct (a_beat L pause s1 (ru_op r) (ru_k r + 1) (ru_off r) data resp) as [s' o]. cbn [fst snd] in HM.
      destruct HM. split; auto.
    + set (s1 := b_set_sig _ _ _ _). set (d := a_result _ _ _). set (s2 := b_complete s1 (ru_op r) d).
      destruct (a_loop_moved pause (b_q s) s2 Hq) as (fin & HM).
      { cbn. destruct (Z.eqb_spec (b_inflight s - 1) 0); auto. rewrite Hi. lia. }
      { cbn. lia. }
      change (b_q s1) with (b_q s). destruct (a_loop L pause (b_q s) s2) as [s' o]. cbn [fst snd] in *. exists (ru_op r :: fin). destruct HM.
      split; cbn [sets starts rets map fst]; auto.
      * cbn [app]. now rewrite <- mv_out0.
      * f_equal. exact mv_sets0.
      * constructor; [discriminate|auto].
      * rewrite mv_cnt0, zlen_cons. cbn [b_complete b_set_cnt b_inflight b_set_wait s2 s1 b_set_cur b_set_q b_set_sig]. lia.
      * intros z Hz. destruct (mv_curl0 z Hz) as [Hz'|]; [left; exact Hz'|right; right; auto].
Qed.

(** ** the invariant of a history *)
Record life (s : apb) (o : list aout) : Prop := {
  lf_pos : 0 <= b_next s;
  lf_num : forall x, In x (starts o) -> 0 <= fst x < b_next s;
  lf_uniq : NoDup (map fst (starts o));
  lf_ok : Forall (fun x => op_ok (snd x)) (starts o);
  lf_pend : Forall op_ok (b_pend s);
  lf_out : incl (outst s) (starts o);
  lf_cur : incl (curl s) (starts o);
  lf_wait : incl (map fst (b_wait s)) (starts o);
  lf_sets : incl (map fst (sets o)) (starts o);
  lf_nodup : NoDup (outst s);
  lf_open : forall x, In x (outst s) -> ~ In x (map fst (sets o));
  lf_data : forall x e, In (x, e) (b_wait s) -> (forall d, e = Some d -> In (x, d) (sets o)) /\ (e = None -> ~ In x (map fst (sets o)));
  lf_ret : incl (rets o) (sets o);
  lf_here : forall x, In x (starts o) -> In x (map fst (rets o)) \/ In x (map fst (b_wait s));
  lf_task : task_ok (b_task s);
  lf_curok : cur_ok s;
  lf_idle : b_idle s = (b_inflight s =? 0);
  lf_cnt : b_inflight s = zlen (outst s) }.

Lemma uniq_fst (l : list aop) x y : NoDup (map fst l) -> In x l -> In y l -> fst x = fst y -> x = y.
Proof.
  induction l as [|z l IH]; cbn; intros Hn Hx Hy E; [tauto|]. apply NoDup_cons_iff in Hn as [Hz Hn].
  destruct Hx as [->|Hx], Hy as [->|Hy]; auto.
  - destruct Hz. rewrite E. now apply in_map.
  - destruct Hz. rewrite <- E. now apply in_map.
Qed.

Lemma life_init : life apb_init [].
Proof.
  split; cbn; try lia; try exact I; try reflexivity; try apply incl_nil_l; try constructor; try (intros ? []); try (intros ? ? []).
Qed.

(** a step that sets the events [se] *)
Lemma life_wait s o se (w : list (aop * option (option aresp))) : life s o -> incl (map fst se) (starts o) -> w = evs se (b_wait s) ->
  incl (map fst w) (starts o) /\
  (forall x e, In (x, e) w -> (forall d, e = Some d -> In (x, d) (sets o ++ se)) /\ (e = None -> ~ In x (map fst (sets o ++ se)))) /\
  (forall x, In x (starts o) -> In x (map fst (rets o)) \/ In x (map fst w)).
Proof.
  intros H Hse ->. destruct H. rewrite evs_fst. split; [auto|]. split; [|auto].
  intros x e Hin. pose proof (evs_spec se _ _ _ Hin) as (e0 & Hin0 & Hc).
  assert (Hx : In x (starts o)) by (apply lf_wait0; apply (in_map fst) in Hin0; exact Hin0).
  destruct (lf_data0 x e0 Hin0) as [Hs Hnone]. split.
  - intros d ->. apply in_or_app. destruct Hc as [(y & d' & Hy & Hf & Ed)|[<- Hn]]; [|left; auto].
    injection Ed as <-. right. assert (y = x) as <-; [|exact Hy].
    apply (uniq_fst (starts o)); auto. apply Hse. apply (in_map fst) in Hy. exact Hy.
  - intros ->. rewrite map_app. intros Hin'. apply in_app_or in Hin'. destruct Hc as [(y & d' & Hy & Hf & Ed)|[<- Hn]]; [discriminate|].
    destruct Hin' as [Hin'|Hin']; [now apply Hnone|]. apply in_map_iff in Hin' as ((y & d) & E & Hy). cbn in E. subst y. exact (Hn _ _ Hy eq_refl).
Qed.

Lemma nodup_app_r {A} (a b : list A) : NoDup (a ++ b) -> NoDup b /\ forall x, In x a -> ~ In x b.
Proof.
  induction a as [|x a IH]; cbn; intros H; [split; [auto|tauto]|]. apply NoDup_cons_iff in H as [Hx H].
  destruct (IH H) as [H1 H2]. split; auto. intros y [<-|Hy]; auto. intros Hin. apply Hx. apply in_or_app. auto.
Qed.

Lemma nodup_snoc {A} (l : list A) x : NoDup l -> ~ In x l -> NoDup (l ++ [x]).
Proof.
  intros H Hx.
  induction H as [|y l Hy Hn IH]; cbn; [constructor; [auto|constructor]|]. cbn in Hx. constructor.
  - intros Hin. apply in_app_or in Hin as [Hin|[->|[]]]; auto.
  - apply IH. auto.
Qed.

Lemma life_issue s o c : life s o -> op_ok c -> life (fst (b_issue s c)) (o ++ snd (b_issue s c)).
Proof.
  intros H Hc. destruct H. set (x := (b_next s, c)).
  assert (Hfresh : forall y, In y (starts o) -> fst y <> fst x) by (intros y Hin; specialize (lf_num0 y Hin); cbn; lia).
  assert (Hfr : ~ In x (starts o)) by (intros Hin; exact (Hfresh x Hin eq_refl)).
  assert (Hout : outst (fst (b_issue s c)) = outst s ++ [x]) by (unfold outst; cbn; now rewrite app_assoc).
  split; rewrite ?Hout; cbn [b_issue fst snd b_next b_task b_q b_cur b_wait b_pend b_inflight b_idle]; rewrite ?starts_app, ?sets_app, ?rets_app; cbn [starts sets rets];
    rewrite ?app_nil_r, ?map_app; auto; fold x.
  - lia.
  - intros y Hy. apply in_app_or in Hy as [Hy|[<-|[]]]; [specialize (lf_num0 y Hy); lia|]. cbn. lia.
  - apply nodup_snoc; auto. intros Hin. apply in_map_iff in Hin as (y & E & Hy). exact (Hfresh y Hy E).
  - apply Forall_app; auto.
  - apply incl_app; [now apply incl_appl|]. now apply incl_appr, incl_refl.
  - now apply incl_appl.
  - apply incl_app; [now apply incl_appl|]. now apply incl_appr, incl_refl.
  - now apply incl_appl.
  - apply nodup_snoc; auto.
  - intros y Hy. apply in_app_or in Hy as [Hy|[<-|[]]]; auto.
  - intros y e Hy. apply in_app_or in Hy as [Hy|[E|[]]]; auto. injection E as <- <-. split; [discriminate|]. auto.
  - intros y Hy. apply in_app_or in Hy as [Hy|[<-|[]]].
    + destruct (lf_here0 y Hy); auto. right. apply in_or_app. auto.
    + right. apply in_or_app. right. left. reflexivity.
  - pose proof (zlen_nonneg (outst s)). lia.
  - rewrite zlen_app. change (zlen [x]) with 1. lia.
Qed.

(** nothing of interest changes *)
Lemma life_same s s' o : life s o -> outst s' = outst s -> b_next s' = b_next s -> b_wait s' = b_wait s -> Forall op_ok (b_pend s') ->
  b_inflight s' = b_inflight s -> b_idle s' = b_idle s -> task_ok (b_task s') -> cur_ok s' -> b_cur s' = b_cur s -> life s' (o ++ []).
Proof.
  intros H E1 E2 E3 E4 E5 E6 E7 E8 E9. rewrite app_nil_r. destruct H. split; rewrite ?E1, ?E2, ?E3, ?E5, ?E6; auto. unfold curl in *. now rewrite E9.
Qed.

Lemma life_moved s s' o os fin : life s o -> moved s s' (outst s) fin os -> life s' (o ++ os).
Proof.
  intros H M. pose proof H as H'. destruct H', M.
  assert (Hfin : incl fin (starts o)).
  { intros x Hx. apply lf_out0. rewrite mv_out0. apply in_or_app. auto. }
  assert (Hout' : incl (outst s') (starts o)).
  { intros x Hx. apply lf_out0. rewrite mv_out0. apply in_or_app. auto. }
  destruct (life_wait s o (sets os) (b_wait s') H ltac:(now rewrite mv_sets0) mv_wait0) as (W1 & W2 & W3).
  rewrite mv_out0 in lf_nodup0. destruct (nodup_app_r _ _ lf_nodup0) as [N1 N2].
  split; rewrite ?starts_app, ?sets_app, ?rets_app, ?mv_starts0, ?mv_rets0, ?app_nil_r, ?mv_next0, ?mv_pend0; auto.
  - intros x Hx. destruct (mv_curl0 x Hx); auto.
  - rewrite map_app, mv_sets0. now apply incl_app.
  - intros x Hx. rewrite map_app, mv_sets0. intros Hin. apply in_app_or in Hin as [Hin|Hin].
    + revert Hin. apply lf_open0. rewrite mv_out0. apply in_or_app. auto.
    + exact (N2 _ Hin Hx).
  - now apply incl_appl.
  - rewrite mv_cnt0, lf_cnt0, mv_out0, zlen_app. lia.
Qed.

Lemma flush_evs l : forall w, fold_left (fun l x => ev_set x None l) l w = evs (map (fun x => (x, None)) l) w.
Proof. induction l as [|x l IH]; intros w; cbn; auto. Qed.
Lemma flush_sets l : sets (map (fun x => OSet x None) l) = map (fun x => (x, None)) l.
Proof. induction l; cbn; congruence. Qed.
Lemma flush_starts l : starts (map (fun x => OSet x None) l) = [].
Proof. induction l; cbn; congruence. Qed.
Lemma flush_rets l : rets (map (fun x => OSet x None) l) = [].
Proof. induction l; cbn; congruence. Qed.
Lemma map_pair_fst (l : list aop) : map fst (map (fun x => (x, @None aresp)) l) = l.
Proof. rewrite map_map. cbn. apply map_id. Qed.

Lemma life_step s o op : life s o -> bop_ok op -> let '(s', os) := b_step L ep s op in life s' (o ++ os).
Proof.
  intros H Hop. pose proof H as H'. destruct H'. destruct op as [c|c|n| |n|p pr pd pe|b]; cbn [b_step].
  - pose proof (life_issue s o c H Hop). destruct (b_issue s c). exact H0.
  - apply life_same with (s := s); auto. cbn. apply Forall_app; auto.
  - destruct (nth_error (b_pend s) n) as [c|] eqn:En; [|apply life_same with (s := s); auto].
    assert (Hc : op_ok c) by (rewrite Forall_forall in lf_pend0; apply lf_pend0; eapply nth_error_In; eauto).
    set (s1 := b_set_pend _ _). assert (Hps : Forall op_ok (b_pend s1)).
    { cbn. apply Forall_app. split; apply Forall_forall; intros z Hz; rewrite Forall_forall in lf_pend0; apply lf_pend0.
      - rewrite <- (firstn_skipn n (b_pend s)). apply in_or_app. auto.
      - rewrite <- (firstn_skipn (S n) (b_pend s)). apply in_or_app. auto. }
    assert (H1 : life s1 o). { rewrite <- (app_nil_r o). apply life_same with (s := s); auto. }
    pose proof (life_issue s1 o c H1 Hc) as H2. destruct (b_issue s1 c). exact H2.
  - destruct (b_task s) eqn:Et; try (apply life_same with (s := s); rewrite ?Et; auto; fail).
    destruct (b_q s) as [|x q] eqn:Eq; [apply life_same with (s := s); rewrite ?Et; auto|].
    apply life_same with (s := s); auto; try exact I. unfold outst. rewrite Et, Eq. reflexivity.
  - destruct (nth_error (b_wait s) n) as [[x [d|]]|] eqn:En; try (apply life_same with (s := s); auto; fail).
    assert (Hsplit : forall e, In e (firstn n (b_wait s) ++ skipn (S n) (b_wait s)) -> In e (b_wait s)).
    { intros e He. apply in_app_or in He as [He|He].
      - rewrite <- (firstn_skipn n (b_wait s)). apply in_or_app. auto.
      - rewrite <- (firstn_skipn (S n) (b_wait s)). apply in_or_app. auto. }
    split; rewrite ?starts_app, ?sets_app, ?rets_app; cbn [starts sets rets b_set_wait b_wait b_task b_q b_cur b_next b_pend b_inflight b_idle];
      rewrite ?app_nil_r; auto.
    + intros y Hy. apply in_map_iff in Hy as (e & <- & He). apply lf_wait0. apply in_map. auto.
    + apply incl_app; [auto|]. intros e [<-|[]]. apply (lf_data0 x (Some d)); auto. eapply nth_error_In; eauto.
    + intros y Hy. rewrite map_app. destruct (lf_here0 y Hy) as [Hr|Hr]; [left; apply in_or_app; auto|].
      apply in_map_iff in Hr as (e & <- & He). apply In_nth_error in He as (i & Ei).
      destruct (Nat.eq_dec i n) as [->|Hne].
      * rewrite En in Ei. injection Ei as <-. left. apply in_or_app. right. left. reflexivity.
      * right. apply in_map. apply in_or_app. destruct (Nat.lt_ge_cases i n) as [Hlt|Hge].
        -- left. rewrite <- (firstn_skipn n (b_wait s)) in Ei. rewrite nth_error_app1 in Ei.
           ++ eapply nth_error_In; eauto.
           ++ assert (n < length (b_wait s))%nat by (apply nth_error_Some; congruence). rewrite firstn_length. lia.
        -- right. assert (n < length (b_wait s))%nat by (apply nth_error_Some; congruence).
           rewrite <- (firstn_skipn (S n) (b_wait s)) in Ei. rewrite nth_error_app2 in Ei by (rewrite firstn_length; lia).
           eapply nth_error_In; eauto.
  - destruct (a_edge_moved p pr pd pe s) as (fin & HM); auto.
    { rewrite Forall_forall in *. auto. }
    destruct (a_edge L ep p pr pd pe s) as [s' os]. now apply life_moved with (s := s) (fin := fin).
  - destruct b; cbn [a_reset].
    + fold (curl s). set (fl := b_q s ++ curl s).
      assert (Hfl : incl fl (starts o)).
      { apply incl_app; auto. intros x Hx. apply lf_out0. unfold outst. apply in_or_app. auto. }
      destruct (life_wait s o (map (fun x => (x, None)) fl) _ H ltac:(now rewrite map_pair_fst) (flush_evs fl (b_wait s))) as (W1 & W2 & W3).
      split; unfold outst, curl; cbn [b_wait b_task b_q b_cur b_next b_pend b_inflight b_idle held app];
        rewrite ?starts_app, ?sets_app, ?rets_app, ?flush_sets, ?flush_starts, ?flush_rets, ?app_nil_r; auto using incl_nil_l.
      all: try exact I; try constructor; try (rewrite map_app, map_pair_fst; now apply incl_app); try (now apply incl_appl); try (intros ? []).
    + destruct (b_task s) eqn:Et; try (apply life_same with (s := s); rewrite ?Et; auto; fail).
      apply life_same with (s := s); auto; try exact I. unfold outst. cbn. now rewrite Et.
Qed.
Lemma life_run h : forall s o, life s o -> Forall bop_ok h -> let '(s', os) := b_run L ep s h in life s' (o ++ os).
Proof.
  induction h as [|op h IH]; intros s o H Hh; cbn [b_run].
  - now rewrite app_nil_r.
  - apply Forall_cons_iff in Hh as [Hop Hh]. pose proof (life_step s o op H Hop) as H1. destruct (b_step L ep s op) as [s1 o1].
    specialize (IH s1 _ H1 Hh). destruct (b_run L ep s1 h) as [s2 o2]. now rewrite app_assoc.
Qed.

(** ** without a reset in the window no operation is lost *)
Definition kept (s : apb) (o : list aout) : Prop := forall x, In x (starts o) -> In x (map fst (sets o)) \/ In x (outst s).
Lemma kept_step s o op : life s o -> kept s o -> bop_ok op -> (op = BReset true -> forall x, b_task s <> AGot x) ->
  let '(s', os) := b_step L ep s op in kept s' (o ++ os).
Proof.
  intros H K Hop Hw.
  assert (Hsame : forall s', outst s' = outst s -> kept s' (o ++ [])) by (intros s' E; rewrite app_nil_r; unfold kept; rewrite E; exact K).
  assert (Hiss : forall s1 c, outst s1 = outst s -> kept (fst (b_issue s1 c)) (o ++ [OStart (b_next s1, c)])).
  { intros s1 c E x. rewrite starts_app, sets_app. cbn [starts sets]. rewrite app_nil_r.
    assert (outst (fst (b_issue s1 c)) = outst s ++ [(b_next s1, c)]) as -> by (rewrite <- E; unfold outst; cbn; now rewrite app_assoc).
    intros Hx. apply in_app_or in Hx as [Hx|[<-|[]]].
    - destruct (K x Hx); auto. right. apply in_or_app. auto.
    - right. apply in_or_app. right. left. reflexivity. }
  destruct op as [c|c|n| |n|p pr pd pe|b]; cbn [b_step].
  - exact (Hiss s c eq_refl).
  - now apply Hsame.
  - destruct (nth_error (b_pend s) n) as [c|]; [|now apply Hsame]. set (s1 := b_set_pend _ _). exact (Hiss s1 c eq_refl).
  - destruct (b_task s) eqn:Et; try (now apply Hsame). destruct (b_q s) as [|x q] eqn:Eq; [now apply Hsame|].
    apply Hsame. unfold outst. rewrite Et, Eq. reflexivity.
  - destruct (nth_error (b_wait s) n) as [[x [d|]]|]; try (now apply Hsame).
    intros y. rewrite starts_app, sets_app. cbn [starts sets]. rewrite !app_nil_r. apply K.
  - destruct H. destruct (a_edge_moved p pr pd pe s) as (fin & HM); auto.
    { rewrite Forall_forall in *. auto. }
    destruct (a_edge L ep p pr pd pe s) as [s' os]. destruct HM. intros x. rewrite starts_app, sets_app, mv_starts0, app_nil_r, map_app, mv_sets0.
    intros Hx. destruct (K x Hx) as [Hs|Ho]; [left; apply in_or_app; auto|]. rewrite mv_out0 in Ho. apply in_app_or in Ho as [Ho|Ho]; auto.
    left. apply in_or_app. auto.
  - destruct b; cbn [a_reset].
    + intros x. rewrite starts_app, sets_app, flush_starts, flush_sets, app_nil_r, map_app, map_pair_fst. intros Hx. left. apply in_or_app.
      destruct (K x Hx) as [Hs|Ho]; auto. right. unfold outst in Ho. apply in_app_or in Ho as [Ho|Ho]; apply in_or_app; auto. right.
      destruct H. unfold cur_ok in lf_curok0. specialize (Hw eq_refl). fold (curl s). unfold curl.
      destruct (b_task s) as [| | |y|r|r|r|]; cbn [held] in Ho; try (now destruct Ho); try (now rewrite lf_curok0).
      now destruct (Hw y).
    + apply Hsame. destruct (b_task s) eqn:Et; unfold outst; rewrite ?Et; auto.
Qed.
Lemma kept_run h : forall s o, life s o -> kept s o -> Forall bop_ok h -> no_reset_in_window L ep s h ->
  let '(s', os) := b_run L ep s h in kept s' (o ++ os).
Proof.
  induction h as [|op h IH]; intros s o H K Hh Hw; cbn [b_run].
  - now rewrite app_nil_r.
  - apply Forall_cons_iff in Hh as [Hop Hh]. destruct Hw as [Hw1 Hw2]. pose proof (life_step s o op H Hop) as H1.
    pose proof (kept_step s o op H K Hop Hw1) as K1. destruct (b_step L ep s op) as [s1 o1].
    specialize (IH s1 _ H1 K1 Hh Hw2). destruct (b_run L ep s1 h) as [s2 o2]. now rewrite app_assoc.
Qed.

(** ** an operation nobody holds is never completed *)
Definition gone (x : aop) (s : apb) (o : list aout) : Prop :=
  In x (starts o) /\ ~ In x (outst s) /\ ~ In x (curl s) /\ ~ In x (map fst (sets o)).
Lemma gone_step x s o op : life s o -> gone x s o -> bop_ok op -> let '(s', os) := b_step L ep s op in gone x s' (o ++ os).
Proof.
  intros H (G1 & G2 & G3 & G4) Hop.
  assert (Hsame : forall s', outst s' = outst s -> curl s' = curl s -> gone x s' (o ++ [])).
  { intros s' E1 E2. rewrite app_nil_r. unfold gone. now rewrite E1, E2. }
  assert (Hiss : forall s1 c, outst s1 = outst s -> curl s1 = curl s -> b_next s1 = b_next s -> gone x (fst (b_issue s1 c)) (o ++ [OStart (b_next s1, c)])).
  { intros s1 c E1 E2 E3. unfold gone. rewrite starts_app, sets_app. cbn [starts sets]. rewrite app_nil_r.
    assert (outst (fst (b_issue s1 c)) = outst s ++ [(b_next s1, c)]) as -> by (rewrite <- E1; unfold outst; cbn; now rewrite app_assoc).
    change (curl (fst (b_issue s1 c))) with (curl s1). rewrite E2. split; [apply in_or_app; auto|]. split; [|auto].
    intros Hin. apply in_app_or in Hin as [Hin|[Hin|[]]]; auto. destruct H. specialize (lf_num0 x G1). rewrite <- Hin in lf_num0. cbn in lf_num0. lia. }
  destruct op as [c|c|n| |n|p pr pd pe|b]; cbn [b_step].
  - exact (Hiss s c eq_refl eq_refl eq_refl).
  - now apply Hsame.
  - destruct (nth_error (b_pend s) n) as [c|]; [|now apply Hsame]. set (s1 := b_set_pend _ _). exact (Hiss s1 c eq_refl eq_refl eq_refl).
  - destruct (b_task s) eqn:Et; try (now apply Hsame). destruct (b_q s) as [|y q] eqn:Eq; [now apply Hsame|].
    apply Hsame; [|reflexivity]. unfold outst. rewrite Et, Eq. reflexivity.
  - destruct (nth_error (b_wait s) n) as [[y [d|]]|]; try (now apply Hsame).
    unfold gone. rewrite starts_app, sets_app. cbn [starts sets]. rewrite !app_nil_r. auto.
  - pose proof H as H'. destruct H'. destruct (a_edge_moved p pr pd pe s) as (fin & HM); auto.
    { rewrite Forall_forall in *. auto. }
    destruct (a_edge L ep p pr pd pe s) as [s' os]. destruct HM. unfold gone.
    rewrite starts_app, sets_app, mv_starts0, app_nil_r, map_app, mv_sets0. split; auto.
    rewrite mv_out0 in G2. split; [intros Hin; apply G2; apply in_or_app; auto|]. split.
    + intros Hin. destruct (mv_curl0 x Hin) as [Hc|Hc]; auto. rewrite mv_out0 in Hc. auto.
    + intros Hin. apply in_app_or in Hin as [Hin|Hin]; auto. apply G2. apply in_or_app. auto.
  - destruct b; cbn [a_reset].
    + unfold gone. rewrite starts_app, sets_app, flush_starts, flush_sets, app_nil_r, map_app, map_pair_fst. split; auto.
      split; [intros []|]. split; [intros []|]. intros Hin. apply in_app_or in Hin as [Hin|Hin]; auto.
      apply in_app_or in Hin as [Hin|Hin]; auto. apply G2. unfold outst. apply in_or_app. auto.
    + apply Hsame; destruct (b_task s) eqn:Et; unfold outst; rewrite ?Et; auto.
Qed.
Lemma gone_run x h : forall s o, life s o -> gone x s o -> Forall bop_ok h -> let '(s', os) := b_run L ep s h in gone x s' (o ++ os).
Proof.
  induction h as [|op h IH]; intros s o H G Hh; cbn [b_run].
  - now rewrite app_nil_r.
  - apply Forall_cons_iff in Hh as [Hop Hh]. pose proof (life_step s o op H Hop) as H1.
    pose proof (gone_step x s o op H G Hop) as G1. destruct (b_step L ep s op) as [s1 o1].
    specialize (IH s1 _ H1 G1 Hh). destruct (b_run L ep s1 h) as [s2 o2]. now rewrite app_assoc.
Qed.
Lemma b_run_app h1 : forall h2 s, b_run L ep s (h1 ++ h2) =
  let '(s1, o1) := b_run L ep s h1 in let '(s2, o2) := b_run L ep s1 h2 in (s2, o1 ++ o2).
Proof.
  induction h1 as [|o h1 IH]; intros h2 s; cbn [app b_run].
  - destruct (b_run L ep s h2). reflexivity.
  - destruct (b_step L ep s o) as [s1 o1]. rewrite IH. destruct (b_run L ep s1 h1) as [s2 o2].
    destruct (b_run L ep s2 h2). now rewrite app_assoc.
Qed.
End Life.
