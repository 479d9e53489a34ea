(** The masters as machines for P_initev.v: what is completed was queued. *)
From Coq Require Import ZArith List Bool Permutation Lia.
From Verif Require Import Py M_axi M_axil M_liteeng S_liteeng M_axieng S_axieng T_axieng M_apb S_apb P_apbsys M_initev S_initev P_initev.
Import ListNotations.
Open Scope Z_scope.

(** ** AXI-Lite *)
Section Lite.
Context {C E R : Type}.
Variable sends : C -> list E.
Variable need : C -> nat.
Notation step := (eng_step (R:=R) sends need).
Definition lall (s : eng C E R) : list C := g_q s ++ opt_list fst (g_cur s) ++ g_rq s ++ opt_list fst (g_rcur s).
Definition lknown (us : list (gout C E R)) (s : eng C E R) : Prop :=
  incl (lall s) (ibegs l_beg us) /\ forall c r, In (ODone c r) us -> In c (ibegs l_beg us).

Lemma opt_left (c : C) (l : list E) : incl (opt_list fst (left_of c l)) [c].
Proof. destruct l; cbn; intros a; auto. intros []. Qed.

Lemma lknown_step : forall s o us, lknown us s -> lknown (us ++ snd (step s o)) (fst (step s o)).
Proof.
  assert (Hsame : forall us (s' : eng C E R) us', ibegs l_beg us' = [] -> incl (lall s') (ibegs l_beg us) ->
    (forall c r, In (ODone c r) us -> In c (ibegs l_beg us)) -> (forall c r, In (ODone c r) us' -> In c (ibegs l_beg us)) -> lknown (us ++ us') s').
  { intros us s' us' Eb Hi Hd Hd'. unfold lknown, ibegs. rewrite flat_map_app. fold (ibegs l_beg us) (ibegs l_beg us'). rewrite Eb, app_nil_r. split; auto.
    intros c r Hin. apply in_app_or in Hin as []; eauto. }
  assert (Hiss : forall us (s : eng C E R) c, lknown us s -> forall s', lall s' = lall s -> lknown (us ++ [M_liteeng.OStart c]) (eng_issue s' c)).
  { intros us s c [Hi Hd] s' Es. unfold lknown, ibegs. rewrite flat_map_app. fold (ibegs l_beg us). cbn [flat_map l_beg app]. split.
    - intros a Ha. unfold lall, eng_issue in Ha. cbn [g_q g_cur g_rq g_rcur] in Ha. rewrite <- app_assoc in Ha. apply in_app_or in Ha as [Ha|Ha].
      + apply in_or_app. left. apply Hi. rewrite <- Es. unfold lall. apply in_or_app. auto.
      + apply in_app_or in Ha as [[->|[]]|Ha]; [apply in_or_app; right; cbn; auto|]. apply in_or_app. left. apply Hi. rewrite <- Es. unfold lall. apply in_or_app. auto.
    - intros c0 r Hin. apply in_or_app. apply in_app_or in Hin as [Hin|[Hin|[]]]; [left; eauto|discriminate]. }
  assert (Hresp : forall us (s : eng C E R) c rq got pre, lknown us s -> In c (ibegs l_beg us) -> incl rq (ibegs l_beg us) ->
    (pre = [] \/ exists r, pre = [OResp r]) -> lknown (us ++ pre ++ snd (eng_resp (E:=E) need s c rq got)) (fst (eng_resp need s c rq got))).
  { intros us s c rq got pre [Hi Hd] Hc Hrq Hpre. unfold lall in Hi.
    assert (Hq : incl (g_q s) (ibegs l_beg us)) by (intros a Ha; apply Hi, in_or_app; auto).
    assert (Hcu : incl (opt_list fst (g_cur s)) (ibegs l_beg us)) by (intros a Ha; apply Hi, in_or_app; right; apply in_or_app; auto).
    assert (Hb : ibegs l_beg pre = [] /\ forall c r, ~ In (ODone c r) pre).
    { destruct Hpre as [->|(r & ->)]; split; cbn; auto. intros c0 r0 [H|[]]. discriminate. }
    unfold eng_resp. destruct (Nat.leb (need c) (length got)); cbn [fst snd]; (apply Hsame; [|unfold lall; cbn [g_q g_cur g_rq g_rcur opt_list fst]|exact Hd|]).
    - unfold ibegs. rewrite flat_map_app. fold (ibegs l_beg pre). now rewrite (proj1 Hb).
    - repeat apply incl_app; auto. intros a [].
    - intros c0 r Hin. apply in_app_or in Hin as [Hin|[Hin|[]]]; [exfalso; eapply (proj2 Hb); eauto|]. inversion Hin; subst. auto.
    - unfold ibegs. rewrite flat_map_app. fold (ibegs l_beg pre). now rewrite (proj1 Hb).
    - repeat apply incl_app; auto. intros a [<-|[]]. auto.
    - intros c0 r Hin. apply in_app_or in Hin as [Hin|[]]. exfalso; eapply (proj2 Hb); eauto. }
  intros s o us HK. pose proof HK as [Hi Hd]. unfold lall in Hi.
  assert (Hq : incl (g_q s) (ibegs l_beg us)) by (intros a Ha; apply Hi, in_or_app; auto).
  assert (Hcu : incl (opt_list fst (g_cur s)) (ibegs l_beg us)) by (intros a Ha; apply Hi, in_or_app; right; apply in_or_app; auto).
  assert (Hrq : incl (g_rq s) (ibegs l_beg us)) by (intros a Ha; apply Hi, in_or_app; right; apply in_or_app; right; apply in_or_app; auto).
  assert (Hrc : incl (opt_list fst (g_rcur s)) (ibegs l_beg us)) by (intros a Ha; apply Hi, in_or_app; right; apply in_or_app; right; apply in_or_app; auto).
  assert (Hid : lknown (us ++ []) s) by (rewrite app_nil_r; exact HK).
  destruct o as [c|c|n| | | |r|b]; cbn [eng_step].
  - now apply Hiss with s.
  - cbn [fst snd]. rewrite app_nil_r. exact HK.
  - destruct (nth_error (g_pend s) n) as [c|]; cbn [fst snd]; [|exact Hid]. now apply Hiss with s.
  - destruct (g_wtask s); [|exact Hid]. destruct (g_cur s); [exact Hid|]. destruct (g_q s) as [|c q]; [exact Hid|]. cbn [fst snd].
    apply Hsame; [reflexivity| |exact Hd|intros c0 r []]. unfold lall, eng_get. cbn [g_q g_cur g_rq g_rcur]. assert (Hc : In c (ibegs l_beg us)) by (apply Hq; now left).
    apply incl_app; [intros a Ha; apply Hq; now right|]. apply incl_app; [intros a Ha; apply opt_left in Ha as [<-|[]]; auto|]. apply incl_app; [apply incl_app; [auto|intros a [<-|[]]; auto]|auto].
  - destruct (g_wtask s); [|exact Hid]. destruct (g_cur s) as [[c [|e l]]|]; [exact Hid| |exact Hid]. cbn [fst snd].
    apply Hsame; [reflexivity| |exact Hd|intros c0 r [H|[]]; discriminate]. unfold lall, eng_sent. cbn [g_q g_cur g_rq g_rcur].
    apply incl_app; [auto|]. apply incl_app; [|apply incl_app; auto]. intros a Ha. apply opt_left in Ha as [<-|[]]. apply Hcu. now left.
  - destruct (g_rtask s); [|exact Hid]. destruct (g_rcur s); [exact Hid|]. destruct (g_rq s) as [|c q] eqn:Eq; [exact Hid|].
    apply (Hresp us s c q [] []); auto; [apply Hrq; now left|intros a Ha; apply Hrq; now right].
  - destruct (g_rtask s); [|exact Hid]. destruct (g_rcur s) as [[c got]|] eqn:Er; [|exact Hid].
    pose proof (Hresp us s c (g_rq s) (got ++ [r]) [OResp r] HK) as H. destruct (eng_resp need s c (g_rq s) (got ++ [r])) as [s' o]. apply H; eauto. apply Hrc. now left.
  - destruct b; cbn [eng_reset fst snd].
    + apply Hsame; [|intros a []|exact Hd|].
      * unfold ibegs. rewrite flat_map_app. cbn. rewrite app_nil_r. generalize (g_q s ++ opt_list fst (g_cur s) ++ g_rq s ++ opt_list fst (g_rcur s)). induction l; cbn; auto.
      * intros c r Hin. apply in_app_or in Hin as [Hin|[Hin|[]]]; [|discriminate]. apply in_map_iff in Hin as (c' & E1 & Hc'). inversion E1; subst. apply Hi. exact Hc'.
    + rewrite app_nil_r. exact HK.
Qed.

Lemma lknown_run : forall g s us, lknown us s -> lknown (us ++ snd (erun step s g)) (fst (erun step s g)).
Proof.
  induction g as [|o g IH]; intros s us HK; cbn [erun]; [now rewrite app_nil_r|].
  pose proof (lknown_step s o us HK) as H1. destruct (step s o) as [s1 u1]. cbn [fst snd] in H1. specialize (IH s1 _ H1).
  destruct (erun step s1 g) as [s2 u2]. cbn [fst snd] in *. now rewrite app_assoc.
Qed.

Lemma l_fin_known (key : C -> Z) g y (r : option (list R)) : In (Some (y, r)) (map l_fin (snd (erun step eng_init g))) ->
  exists x, In x (ibegs l_beg (snd (erun step eng_init g))) /\ key x = key y.
Proof.
  intros Hin. assert (H0 : lknown [] (eng_init (C:=C) (E:=E) (R:=R))) by (split; [intros a []|intros c r0 []]).
  pose proof (lknown_run g _ _ H0) as [_ Hd]. cbn [app] in Hd. apply in_map_iff in Hin as (u & Eu & Hu). exists y. split; auto.
  destruct u; try discriminate. inversion Eu; subst. eauto.
Qed.
Lemma l_issue (s : eng C E R) c : exists x, ibegs l_beg (snd (step s (GIssue c))) = [x] /\ x = c /\ Forall (fun u => l_fin u = None) (snd (step s (GIssue c))).
Proof. exists c. cbn. auto. Qed.
Lemma l_env_ok (s : eng C E R) o : l_env o = true -> ibegs l_beg (snd (step s o)) = [].
Proof.
  destruct o as [c|c|n| | | |r|b]; intros H; try discriminate; cbn [eng_step].
  - destruct (g_wtask s), (g_cur s), (g_q s); reflexivity.
  - destruct (g_wtask s), (g_cur s) as [[c [|e l]]|]; reflexivity.
  - destruct (g_rtask s), (g_rcur s), (g_rq s); try reflexivity. unfold eng_resp. destruct (Nat.leb _ _); reflexivity.
  - destruct (g_rtask s), (g_rcur s) as [[c got]|]; try reflexivity. unfold eng_resp. destruct (Nat.leb _ _); reflexivity.
  - destruct b; cbn [eng_reset snd]; [|reflexivity]. unfold ibegs. rewrite flat_map_app. cbn. rewrite app_nil_r.
    generalize (g_q s ++ opt_list fst (g_cur s) ++ g_rq s ++ opt_list fst (g_rcur s)). induction l; cbn; auto.
Qed.
End Lite.

(** ** AXI *)
Section Axi.
Context {C E R : Type}.
Variable sends : C -> Z -> list E.
Variable opens : E -> bool.
Variable epat : E -> list bool.
Variable chk : bool -> R -> bool.
Variable rtag : R -> Z.
Variable ask : C -> option Z.
Variable idn : Z.
Notation step := (x_step sends opens epat chk rtag ask idn).

Lemma x_begs (l : list (xout C E R)) : ibegs x_beg l = xstarted l.
Proof. induction l as [|u l IH]; auto. destruct u; try exact IH. cbn. f_equal. exact IH. Qed.
Lemma erun_x g : forall s, erun step s g = x_run sends opens epat chk rtag ask idn s g.
Proof. induction g as [|o g IH]; intros s; cbn [erun x_run]; [reflexivity|]. destruct (step s o). now rewrite IH. Qed.
Lemma in_fin (l : list (xout C E R)) y r : In (Some (y, r)) (map x_fin l) ->
  In y (map (fun d => fst (fst d)) (xcompleted l)) \/ In y (xflushed l).
Proof. induction l as [|u l IH]; cbn [map]; [intros []|]. intros [H|H]; [|destruct u; cbn; tauto]. destruct u; try discriminate; inversion H; subst; cbn; auto. Qed.
Lemma fin_in (l : list (xout C E R)) y : In y (map (fun d => fst (fst d)) (xcompleted l)) \/ In y (xflushed l) -> exists r, In (Some (y, r)) (map x_fin l).
Proof.
  induction l as [|u l IH]; cbn [map]; [intros [[]|[]]|]. intros H. assert (HC : (exists r, x_fin u = Some (y, r)) \/
    (In y (map (fun d => fst (fst d)) (xcompleted l)) \/ In y (xflushed l))).
  { destruct u; cbn in *; try tauto; destruct H as [H|H]; try tauto; destruct H as [H|H]; subst; eauto; tauto. }
  destruct HC as [(r & Hr)|HC]; [exists r; left; auto|]. destruct (IH HC) as (r & Hr). exists r. now right.
Qed.
Lemma x_fin_known (key : C -> Z) g y r : In (Some (y, r)) (map x_fin (snd (erun step xeng_init g))) ->
  exists x, In x (ibegs x_beg (snd (erun step xeng_init g))) /\ key x = key y.
Proof.
  rewrite erun_x, x_begs. intros Hin. exists y. split; auto. apply in_fin in Hin.
  pose proof (accounted_of sends opens epat chk rtag ask idn g) as H. destruct (x_run sends opens epat chk rtag ask idn xeng_init g) as [s l]. cbn [snd] in *.
  destruct H as (op & Hp & _). eapply Permutation_in; [symmetry; exact Hp|]. apply in_or_app. destruct Hin; auto. right. apply in_or_app. auto.
Qed.
Lemma x_issue_ok (s : xeng C E R) c : exists x, ibegs x_beg (snd (step s (PIssue c))) = [x] /\ x = c /\ Forall (fun u => x_fin u = None) (snd (step s (PIssue c))).
Proof. exists c. cbn. auto. Qed.
Lemma x_env_ok (s : xeng C E R) o : x_env o = true -> ibegs x_beg (snd (step s o)) = [].
Proof.
  assert (HF : forall l : list C, ibegs x_beg (map XFlush l ++ [XReset] : list (xout C E R)) = []).
  { intros l. unfold ibegs. rewrite flat_map_app. cbn. rewrite app_nil_r. induction l; cbn; auto. }
  destruct o as [c|c|n| | |r|i|i|b]; intros H; try discriminate; cbn [x_step].
  - destruct (e_wtask s), (e_cur s), (e_q s); try reflexivity. destruct (x_choose _ _ s c). reflexivity.
  - destruct (e_wtask s), (e_cur s) as [[[c t] [|e l]]|]; reflexivity.
  - destruct (e_rtask s); try reflexivity. unfold x_resp. destruct (0 <? _); reflexivity.
  - destruct (nth_error _ i) as [x|]; [|reflexivity]. destruct (x_task x), (x_cur x), (x_cmdq x); try reflexivity. unfold x_ctx. destruct (Nat.leb _ _); reflexivity.
  - destruct (nth_error _ i) as [x|]; [|reflexivity]. destruct (x_task x), (x_cur x) as [[[c bid] got]|], (x_respq x); try reflexivity.
    destruct (_ && _); [|reflexivity]. unfold x_ctx. destruct (Nat.leb _ _); reflexivity.
  - unfold x_reset. destruct b; [|reflexivity]. destruct (mgr_flush (e_mgr s)). cbn [snd]. apply HF.
Qed.
End Axi.

(** ** APB *)
Section Apb.
Variable L : Z.
Variable ep : bool.
Notation step := (b_step L ep).
Definition task_op (t : atask) : list aop :=
  match t with AGot x => [x] | APaus r | ASetup r | AAcc r => [ru_op r] | _ => [] end.
Definition ball (s : apb) : list aop := b_q s ++ match b_cur s with Some x => [x] | None => [] end ++ task_op (b_task s).
(** all operations are known, numbered below b_next, each number once *)
Definition bknown (us : list aout) (s : apb) : Prop :=
  incl (ball s) (ibegs a_beg us) /\ (forall x d, In (OSet x d) us -> In x (ibegs a_beg us)) /\ NoDup (map fst (ibegs a_beg us)) /\ (forall x, In x (ibegs a_beg us) -> fst x < b_next s).

Definition quiet (xs : list aop) (s s' : apb) (os : list aout) : Prop :=
  incl (ball s') xs /\ b_next s' = b_next s /\ ibegs a_beg os = [] /\ (forall x d, In (OSet x d) os -> In x xs).

Lemma beat_quiet pause xs s x k off d r : incl (ball s) xs -> In x xs -> quiet xs s (fst (a_beat L pause s x k off d r)) (snd (a_beat L pause s x k off d r)).
Proof.
  intros Hi Hx. unfold ball in Hi.
  assert (Hq : incl (b_q s) xs) by (intros a Ha; apply Hi, in_or_app; auto).
  assert (Hc : incl (match b_cur s with Some x => [x] | None => [] end) xs) by (intros a Ha; apply Hi, in_or_app; right; apply in_or_app; auto).
  assert (Hx1 : incl [x] xs) by (intros a [<-|[]]; auto).
  unfold a_beat. destruct (a_word L (snd x) k off) as [[w o']|]; [destruct pause|]; cbn [fst snd]; unfold quiet, ball, a_drive, b_set_task, b_set_sig; cbn;
    (split; [repeat apply incl_app; auto; intros a []|]; split; [reflexivity|]; split; [reflexivity|]); intros y e0 H; first [destruct H as [H|[]]; discriminate | destruct H].
Qed.
Lemma loop_quiet pause xs q : forall s, incl (ball s) xs -> incl q xs -> quiet xs s (fst (a_loop L pause q s)) (snd (a_loop L pause q s)).
Proof.
  induction q as [|x q IH]; intros s Hi Hq; cbn [a_loop].
  - unfold quiet, ball, b_set_task, b_set_q. cbn. split; [|split; [reflexivity|split; [reflexivity|intros y e []]]].
    rewrite app_nil_r. intros a Ha. apply Hi. unfold ball. apply in_or_app. right. apply in_or_app. auto.
  - assert (Hx : In x xs) by (apply Hq; now left). assert (Hq' : incl q xs) by (intros a Ha; apply Hq; now right).
    assert (H1 : incl (ball (b_set_cur (b_set_q s q) (Some x))) xs).
    { unfold ball, b_set_cur, b_set_q. cbn. apply incl_app; auto. intros a [<-|Ha]; auto. apply Hi. unfold ball. apply in_or_app. right. apply in_or_app. auto. }
    destruct (0 <? _).
    + destruct (beat_quiet pause xs _ x 0 0 [] OKAY H1 Hx) as (A1 & A2 & A3 & A4). repeat split; auto.
    + set (s1 := b_complete _ x _). assert (H2 : incl (ball s1) xs) by exact H1. specialize (IH s1 H2 Hq'). destruct (a_loop L pause q s1) as [s2 o]. cbn [fst snd] in *.
      destruct IH as (A1 & A2 & A3 & A4). repeat split; auto. intros y e [H|H]; [inversion H; subst; auto|eauto].
Qed.
Lemma edge_quiet p pr pd pe s xs : incl (ball s) xs -> quiet xs s (fst (a_edge L ep p pr pd pe s)) (snd (a_edge L ep p pr pd pe s)).
Proof.
  intros Hi. assert (Hq : incl (b_q s) xs) by (intros a Ha; apply Hi; unfold ball; apply in_or_app; auto).
  assert (Hid : quiet xs s s []) by (repeat split; auto; intros y e []).
  assert (Ht : incl (task_op (b_task s)) xs) by (intros a Ha; apply Hi; unfold ball; apply in_or_app; right; apply in_or_app; auto).
  assert (Hc : incl (match b_cur s with Some x => [x] | None => [] end) xs) by (intros a Ha; apply Hi; unfold ball; apply in_or_app; right; apply in_or_app; auto).
  unfold a_edge. destruct (b_task s) eqn:Et; auto.
  all: try (destruct p; [exact Hid|]; cbn [fst snd]; unfold quiet, ball, a_drive, b_set_task, b_set_sig; cbn; rewrite ?Et in *; repeat split; auto; [repeat apply incl_app; auto|intros y e []]; fail).
  all: try (cbn [fst snd]; unfold quiet, ball, b_set_task, b_set_sig; cbn; repeat split; auto; [repeat apply incl_app; auto|intros y e []]; fail).
  all: try (apply loop_quiet; auto; intros a [<-|Ha]; auto; apply Ht; now left).
  destruct pr; auto. unfold a_ack. cbv zeta.
  assert (H1 : incl (ball (b_set_sig s false false (b_word s))) xs) by exact Hi. assert (Hx : In (ru_op r) xs) by (apply Ht; now left).
  destruct (_ <? _).
  - destruct (beat_quiet p xs (b_set_sig s false false (b_word s)) (ru_op r) (ru_k r + 1) (ru_off r) (ru_data r ++ a_bytes L (snd (ru_op r)) (ru_k r) pd) (if ep && pe then SLVERR else ru_resp r) H1 Hx) as (A1 & A2 & A3 & A4).
    repeat split; auto.
  - set (d := a_result _ _ _). set (s1 := b_complete _ _ _). assert (H2 : incl (ball s1) xs) by exact H1.
    destruct (loop_quiet p xs (b_q (b_set_sig s false false (b_word s))) s1 H2 Hq) as (A1 & A2 & A3 & A4).
    destruct (a_loop L p (b_q (b_set_sig s false false (b_word s))) s1) as [s2 o]. cbn [fst snd] in *. repeat split; auto. intros y e [H|H]; [inversion H; subst; auto|eauto].
Qed.

Lemma bknown_step : forall s o us, bknown us s -> bknown (us ++ snd (step s o)) (fst (step s o)).
Proof.
  intros s o us HK. pose proof HK as (Hi & Hd & Hn & Hlt).
  assert (Hid : bknown (us ++ []) s) by (rewrite app_nil_r; exact HK).
  assert (HQ : forall s' os, quiet (ibegs a_beg us) s s' os -> bknown (us ++ os) s').
  { intros s' os (A1 & A2 & A3 & A4). unfold bknown, ibegs. rewrite flat_map_app. fold (ibegs a_beg us) (ibegs a_beg os). rewrite A3, app_nil_r, A2. repeat split; auto.
    intros x d H. apply in_app_or in H as []; eauto. }
  assert (Hiss : forall s' c, ball s' = ball s -> b_next s' = b_next s -> bknown (us ++ snd (b_issue s' c)) (fst (b_issue s' c))).
  { intros s' c Eb En. unfold bknown, ibegs. rewrite flat_map_app. fold (ibegs a_beg us). cbn [b_issue fst snd flat_map a_beg app b_next]. rewrite En. repeat split.
    - unfold ball in *. cbn [b_q b_cur b_task]. rewrite <- app_assoc. intros a Ha. apply in_or_app. apply in_app_or in Ha as [Ha|Ha].
      + left. apply Hi. rewrite <- Eb. apply in_or_app. auto.
      + cbn [app] in Ha. destruct Ha as [<-|Ha]; [right; now left|]. left. apply Hi. rewrite <- Eb. apply in_or_app. auto.
    - intros x d H. apply in_or_app. apply in_app_or in H as [H|[H|[]]]; [left; eauto|discriminate].
    - rewrite map_app. cbn [map fst]. apply NoDup_Add with (a := b_next s) (l := map fst (ibegs a_beg us)).
      + rewrite <- (app_nil_r (map fst (ibegs a_beg us))) at 1. apply Add_app.
      + split; auto. intros Hin. apply in_map_iff in Hin as (x & Ex & Hx). specialize (Hlt x Hx). lia.
    - intros x Hx. apply in_app_or in Hx as [Hx|[<-|[]]]; [specialize (Hlt x Hx); lia|cbn; lia]. }
  destruct o as [c|c|n| |n|p pr pd pe|b]; cbn [b_step].
  - apply Hiss; reflexivity.
  - cbn [fst snd]. rewrite app_nil_r. exact HK.
  - destruct (nth_error (b_pend s) n); [|exact Hid]. apply Hiss; reflexivity.
  - destruct (b_task s) eqn:Et; try exact Hid. destruct (b_q s) as [|x q] eqn:Eq; [exact Hid|]. apply HQ. unfold ball in Hi. rewrite Et, Eq in Hi.
    unfold quiet, ball, b_set_task, b_set_q. cbn. repeat split; auto; [|intros y e []]. intros a Ha. apply in_app_or in Ha as [Ha|Ha]; [apply Hi; right; apply in_or_app; auto|].
    apply in_app_or in Ha as [Ha|[<-|[]]]; apply Hi; [right; apply in_or_app; right; apply in_or_app; auto|now left].
  - destruct (nth_error (b_wait s) n) as [[x [d|]]|]; try exact Hid. apply HQ. repeat split; auto. intros y e [H|[]]. discriminate.
  - apply HQ. now apply edge_quiet.
  - apply HQ. unfold a_reset. destruct b.
    + unfold quiet, ball. cbn. repeat split; auto.
      * intros a [].
      * generalize (b_q s ++ match b_cur s with Some x => [x] | None => [] end). induction l; cbn; auto.
      * intros x d H. apply in_map_iff in H as (y & E & Hy). inversion E; subst. apply Hi. unfold ball. rewrite app_assoc. apply in_or_app. auto.
    + cbn [fst snd]. unfold quiet, ball in *. destruct (b_task s) eqn:Et; unfold b_set_task; cbn; rewrite ?Et; repeat split; auto; intros y e [].
Qed.
Lemma bknown_run : forall g s us, bknown us s -> bknown (us ++ snd (erun step s g)) (fst (erun step s g)).
Proof.
  induction g as [|o g IH]; intros s us HK; cbn [erun]; [now rewrite app_nil_r|].
  pose proof (bknown_step s o us HK) as H1. destruct (step s o) as [s1 u1]. cbn [fst snd] in H1. specialize (IH s1 _ H1).
  destruct (erun step s1 g) as [s2 u2]. cbn [fst snd] in *. now rewrite app_assoc.
Qed.
Lemma b_known g : bknown (snd (erun step apb_init g)) (fst (erun step apb_init g)).
Proof. apply (bknown_run g apb_init []). unfold bknown. cbn. split; [intros a []|]. split; [intros x d []|]. split; [constructor|intros x []]. Qed.
Lemma a_fin_known g y r : In (Some (y, r)) (map a_fin (snd (erun step apb_init g))) -> exists x, In x (ibegs a_beg (snd (erun step apb_init g))) /\ fst x = fst y.
Proof.
  intros Hin. destruct (b_known g) as (_ & Hd & _). apply in_map_iff in Hin as (u & Eu & Hu). exists y. split; auto. destruct u; try discriminate. inversion Eu; subst. eauto.
Qed.
Lemma a_issue_ok s c : exists x, ibegs a_beg (snd (step s (BIssue c))) = [x] /\ snd x = c /\ Forall (fun u => a_fin u = None) (snd (step s (BIssue c))).
Proof. exists (b_next s, c). cbn. auto. Qed.
Lemma a_env_ok s o : a_env o = true -> ibegs a_beg (snd (step s o)) = [].
Proof.
  destruct o as [c|c|n| |n|p pr pd pe|b]; intros H; try discriminate; cbn [b_step].
  - destruct (b_task s), (b_q s); reflexivity.
  - apply (edge_quiet p pr pd pe s (ball s)). intros a; auto.
  - unfold a_reset. destruct b; [|reflexivity]. cbn [snd]. generalize (b_q s ++ match b_cur s with Some x => [x] | None => [] end). induction l; cbn; auto.
Qed.
End Apb.
