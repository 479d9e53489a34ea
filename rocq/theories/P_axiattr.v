(** Attribution of responses in the AXI master engine (M_axieng.v): a simulation by one queue per ID. *)
From Coq Require Import ZArith Lia List Bool Permutation.
From Coq Require Import ZifyBool ZifyNat.
From Verif Require Import Py M_liteeng M_axieng S_axieng P_liteeng P_axitag P_axieng.
Import ListNotations.
Open Scope Z_scope.

Fixpoint trues (l : list bool) : Z := match l with [] => 0 | b :: l' => (if b then 1 else 0) + trues l' end.
Lemma trues_app a b : trues (a ++ b) = trues a + trues b.
Proof. induction a as [|x a IH]; cbn [app trues]; lia. Qed.
Lemma trues_nonneg l : 0 <= trues l.
Proof. induction l as [|[] l IH]; cbn [trues]; lia. Qed.
Lemma trues_repeat k : trues (repeat false k) = 0.
Proof. induction k; cbn [repeat trues]; lia. Qed.

Lemma filter_map_fst_app {A} (f : A -> bool) (a b : list A) : filter f (a ++ b) = filter f a ++ filter f b.
Proof. apply filter_app. Qed.

Section P.
Context {C E R : Type}.
Implicit Type l ep : list (xout C E R).
Variable sends : C -> Z -> list E.
Variable opens : E -> bool.
Variable epat : E -> list bool.
Variable chk : bool -> R -> bool.
Variable rtag : R -> Z.
Variable ask : C -> option Z.
Variable idn : Z.
Variable etag : E -> Z.
Hypothesis Htag : forall c u e, In e (sends c u) -> opens e = true -> etag e = u.
Hypothesis Hpat0 : forall e, opens e = false -> epat e = [].
Hypothesis Hpat1 : forall e, opens e = true -> exists k, epat e = repeat false k ++ [true].
Hypothesis Hidn : 0 < idn.

Local Notation step := (@x_step C E R sends opens epat chk rtag ask idn).
Local Notation run := (@x_run C E R sends opens epat chk rtag ask idn).
Local Notation eng := (xeng C E R).
Local Notation asg := (assigned ask idn).
Local Notation owe := (owed (C:=C) (R:=R) etag epat).
Local Notation ans := (answers (C:=C) (E:=E) rtag).
Local Notation conf := (conforms (C:=C) etag epat chk rtag).
Implicit Type s : eng.

(** ** IDs *)
Fixpoint autos (cs : list C) : Z :=
  match cs with [] => 0 | c :: cs' => (match ask c with Some _ => 0 | None => 1 end) + autos cs' end.
Lemma autos_app a b : autos (a ++ b) = autos a + autos b.
Proof. induction a as [|x a IH]; cbn [app autos]; lia. Qed.
Lemma asg_app k a b : asg k (a ++ b) = asg k a ++ asg (k + autos a) b.
Proof.
  revert k. induction a as [|x a IH]; intros k; cbn [app assigned autos]; [now rewrite Z.add_0_r|].
  destruct (ask x); rewrite IH; cbn [app]; do 2 f_equal; f_equal; lia.
Qed.
Lemma with_tag_app t (a b : list (C * Z)) : with_tag t (a ++ b) = with_tag t a ++ with_tag t b.
Proof. unfold with_tag. now rewrite filter_app, map_app. Qed.
Lemma with_tag_1 t (c : C) u : with_tag t [(c, u)] = if u =? t then [c] else [].
Proof. unfold with_tag. cbn. now destruct (u =? t). Qed.

(** ** what is owed *)
Definition pat (c : C) (t : Z) : list bool := flat_map epat (sends c t).
Definition sendsA (l : list (C * Z)) : list E := flat_map (fun p => sends (fst p) (snd p)) l.
Definition owedE (t : Z) (es : list E) : list bool := flat_map epat (filter (fun e => etag e =? t) es).

Lemma owedE_app t a b : owedE t (a ++ b) = owedE t a ++ owedE t b.
Proof. unfold owedE. now rewrite filter_app, flat_map_app. Qed.
Lemma owedE_one t u e : (opens e = true -> etag e = u) -> owedE t [e] = if u =? t then epat e else [].
Proof.
  intros H. unfold owedE. cbn [filter]. destruct (opens e) eqn:Eo.
  - rewrite H by auto. destruct (u =? t); cbn [flat_map]; now rewrite ?app_nil_r.
  - rewrite (Hpat0 e Eo). destruct (etag e =? t), (u =? t); cbn [flat_map]; now rewrite ?(Hpat0 e Eo).
Qed.
Lemma owedE_tagged t u es : (forall e, In e es -> opens e = true -> etag e = u) ->
  owedE t es = if u =? t then flat_map epat es else [].
Proof.
  induction es as [|e es IH]; intros H; [now destruct (u =? t)|].
  change (e :: es) with ([e] ++ es). rewrite owedE_app, flat_map_app, IH by (intros; apply H; cbn; auto).
  rewrite (owedE_one t u e) by (apply H; cbn; auto). destruct (u =? t); cbn [flat_map]; now rewrite ?app_nil_r.
Qed.
Definition pfull (t : Z) (tk : list C) : list bool := flat_map (fun c => pat c t) (with_tag t (asg 0 tk)).
Lemma owedE_pfull t tk : owedE t (sendsA (asg 0 tk)) = pfull t tk.
Proof.
  unfold pfull. generalize 0. induction tk as [|c tk IH]; intros k; cbn [assigned]; [reflexivity|].
  assert (H : forall u (l' : list (C * Z)), owedE t (sendsA ((c, u) :: l')) = flat_map (fun c => pat c t) (with_tag t [(c, u)]) ++ owedE t (sendsA l')).
  { intros u l'. unfold sendsA. cbn [flat_map fst snd]. rewrite owedE_app. f_equal.
    rewrite (owedE_tagged t u) by (intros e; apply Htag). rewrite with_tag_1. unfold pat.
    destruct (Z.eqb_spec u t); cbn [flat_map]; subst; now rewrite ?app_nil_r. }
  destruct (ask c); rewrite H, IH, <- flat_map_app, <- with_tag_app; reflexivity.
Qed.
Lemma pfull_snoc t tk c u : asg 0 (tk ++ [c]) = asg 0 tk ++ [(c, u)] ->
  pfull t (tk ++ [c]) = pfull t tk ++ (if u =? t then pat c t else []).
Proof.
  intros H. unfold pfull. rewrite H, with_tag_app, flat_map_app, with_tag_1.
  destruct (u =? t); cbn [flat_map]; now rewrite ?app_nil_r.
Qed.

(** a list of bursts ends with a last beat *)
Lemma owedE_end t es : owedE t es = [] \/ exists p, owedE t es = p ++ [true].
Proof.
  induction es as [|e es IH] using rev_ind; [now left|]. rewrite owedE_app.
  destruct (opens e) eqn:Eo.
  - unfold owedE at 2 4. cbn [filter]. destruct (etag e =? t); cbn [flat_map]; rewrite ?app_nil_r; auto.
    right. destruct (Hpat1 e Eo) as (k & ->). exists (owedE t es ++ repeat false k). now rewrite app_assoc.
  - rewrite (owedE_one t (etag e)) by auto. rewrite (Hpat0 e Eo). destruct (etag e =? t); rewrite ?app_nil_r; auto.
Qed.
Lemma trues_left t es n : (n < length (owedE t es))%nat -> trues (firstn n (owedE t es)) < trues (owedE t es).
Proof.
  intros H. destruct (owedE_end t es) as [E1|(p & E1)]; rewrite E1 in *; [cbn in H; lia|].
  rewrite app_length in H. cbn in H. rewrite firstn_app, trues_app, trues_app.
  replace (n - length p)%nat with 0%nat by lia. cbn [firstn trues].
  rewrite <- (firstn_skipn n p) at 2. rewrite trues_app. pose proof (trues_nonneg (skipn n p)). lia.
Qed.

(** ** The invariant *)
Definition todo s : list E := match e_cur s with Some (_, _, r) => r | None => [] end.
Definition armed s t : Z :=
  match e_cur s with Some (_, u, e :: _) => if opens e && (u =? t) then 1 else 0 | _ => 0 end.
Definition xc (x : ctx C R) : list (C * list bool) := opt_list (fun p => fst (fst p)) (x_cur x).
Definition xg (x : ctx C R) : list R := match x_cur x with Some (_, _, g) => g | None => [] end.
Notation D_t := (list ((C * list bool) * list R)).

(** command list Q = done, current, queued of ID t; g the responses of the current one *)
Record tq (ep : list (xout C E R)) (fin : list C) (t : Z) (D : D_t) (cur : list (C * list bool)) (g : list R)
  (cmdq : list (C * list bool)) (respq : list R) (a : Z) (tk : list C) (arm : Z) : Prop := {
  T1 : completed_on t ep = map (fun d => (fst (fst d), snd d)) D;
  T2 : with_tag t (asg 0 fin) = map fst (map fst D ++ cur ++ cmdq);
  T3 : Forall (fun cp => snd cp = pat (fst cp) t) (map fst D ++ cur ++ cmdq);
  T4 : Forall (fun d => length (snd d) = length (snd (fst d))) D;
  T5 : ans t ep = concat (map snd D) ++ g ++ respq;
  T6 : (length g <= length (flat_map snd cur))%nat;
  T7 : a = trues (owe t ep) + arm - trues (firstn (length (concat (map snd D) ++ g)) (pfull t tk)) }.

Definition tinv s ep fin (D : D_t) t : Prop :=
  let x := slot (e_mgr s) t in
  tq ep fin t D (xc x) (xg x) (x_cmdq x) (x_respq x) (e_act s t) (fin ++ curc s) (armed s t) /\
  match x_cur x with Some (c, _, g) => (length g < length (snd c))%nat | None => True end.

Record xinv s ep (fin : list C) (D : Z -> D_t) : Prop := {
  I_wf : mwf (e_mgr s);
  I_nc : no_crash (e_mgr s);
  I_wt : e_wtask s <> TCrash;
  I_rt : e_rtask s <> TCrash;
  I_st : xstarted ep = fin ++ curc s ++ e_q s;
  I_id : e_id s = autos (fin ++ curc s) mod idn;
  I_cur : match e_cur s with
          | Some (c, u, r) => r <> [] /\ asg 0 (fin ++ [c]) = asg 0 fin ++ [(c, u)] /\ exists pre, sends c u = pre ++ r
          | None => True
          end;
  I_sent : xsent ep ++ todo s = sendsA (asg 0 (fin ++ curc s));
  I_bid : forall d, In d (xcompleted ep) -> exists t, snd (fst d) = Some t;
  I_t : forall t, tinv s ep fin (D t) t }.

Lemma tq_lengths ep fin t D cur g cmdq respq a tk arm : tq ep fin t D cur g cmdq respq a tk arm ->
  length (concat (map snd D)) = length (flat_map snd (map fst D)) /\
  pfull t fin = flat_map snd (map fst D) ++ flat_map snd cur ++ flat_map snd cmdq.
Proof.
  intros H. split.
  - pose proof (T4 _ _ _ _ _ _ _ _ _ _ _ H) as H4. clear - H4. induction H4 as [|d D Hd _ IH]; auto.
    cbn [map concat flat_map]. rewrite !app_length. lia.
  - unfold pfull. rewrite (T2 _ _ _ _ _ _ _ _ _ _ _ H), <- !flat_map_app.
    pose proof (T3 _ _ _ _ _ _ _ _ _ _ _ H) as H3. induction H3 as [|cp Q Hc _ IH]; auto.
    cbn [map flat_map]. now rewrite Hc, IH.
Qed.
Lemma tq_n ep fin t D cur g cmdq respq a tk arm : tq ep fin t D cur g cmdq respq a tk arm ->
  (length (concat (map snd D) ++ g) <= length (pfull t fin))%nat.
Proof.
  intros H. destruct (tq_lengths _ _ _ _ _ _ _ _ _ _ _ H) as (H1 & H2). rewrite H2, !app_length.
  pose proof (T6 _ _ _ _ _ _ _ _ _ _ _ H). lia.
Qed.
Lemma firstn_app_le {A} n (a b : list A) : (n <= length a)%nat -> firstn n (a ++ b) = firstn n a.
Proof. intros H. rewrite firstn_app. replace (n - length a)%nat with 0%nat by lia. cbn. now rewrite app_nil_r. Qed.

(** change of the parts of the invariant that a step does not touch *)
Lemma tq_ep ep ep' fin t D cur g cmdq respq a tk arm : tq ep fin t D cur g cmdq respq a tk arm ->
  xcompleted ep' = xcompleted ep -> xreceived ep' = xreceived ep -> xsent ep' = xsent ep -> tq ep' fin t D cur g cmdq respq a tk arm.
Proof.
  intros [H1 H2 H3 H4 H5 H6 H7] E1 E2 E3. constructor; auto.
  - unfold completed_on. rewrite E1. exact H1.
  - unfold answers. rewrite E2. exact H5.
  - unfold owed. rewrite E3. exact H7.
Qed.
Lemma tinv_frame s s' ep ep' fin D t : tinv s ep fin D t -> same (slot (e_mgr s') t) (slot (e_mgr s) t) ->
  e_act s' t = e_act s t -> e_cur s' = e_cur s ->
  xcompleted ep' = xcompleted ep -> xreceived ep' = xreceived ep -> xsent ep' = xsent ep -> tinv s' ep' fin D t.
Proof.
  intros [H Hc] (S1 & S2 & S3) Ha Ec E1 E2 E3. unfold tinv, xc, xg, armed, curc in *. rewrite S1, S2, S3, Ha, Ec.
  split; auto. eapply tq_ep; eauto.
Qed.

Lemma xinv_frame s s' ep ep' fin D : xinv s ep fin D -> e_mgr s' = e_mgr s -> e_act s' = e_act s -> e_cur s' = e_cur s ->
  e_wtask s' <> TCrash -> e_rtask s' <> TCrash -> e_id s' = e_id s ->
  xcompleted ep' = xcompleted ep -> xreceived ep' = xreceived ep -> xsent ep' = xsent ep ->
  xstarted ep' = fin ++ curc s ++ e_q s' -> xinv s' ep' fin D.
Proof.
  intros [H1 H2 H3 H4 H5 H6 H7 H8 H9 H10] Em Ea Ec Hw Hr Ei E1 E2 E3 E4.
  assert (Ecc : curc s' = curc s) by (unfold curc; now rewrite Ec).
  constructor; rewrite ?Em, ?Ecc, ?Ei, ?Ec, ?E1, ?E3; auto.
  - unfold todo. rewrite Ec. exact H8.
  - intros t. apply (tinv_frame s s' ep ep'); auto; rewrite ?Em, ?Ea; auto. repeat split.
Qed.

(** ** the sender *)
Lemma go_inv s ep fin D q c u r pre :
  mwf (e_mgr s) -> no_crash (e_mgr s) -> e_wtask s <> TCrash -> e_rtask s <> TCrash ->
  xstarted ep = fin ++ [c] ++ q ->
  asg 0 (fin ++ [c]) = asg 0 fin ++ [(c, u)] -> sends c u = pre ++ r ->
  xsent ep ++ r = sendsA (asg 0 (fin ++ [c])) ->
  (forall d, In d (xcompleted ep) -> exists t, snd (fst d) = Some t) ->
  (forall t, let x := slot (e_mgr s) t in
     tq ep fin t (D t) (xc x) (xg x) (x_cmdq x) (x_respq x) (e_act s t) (fin ++ [c]) 0 /\
     match x_cur x with Some (c, _, g) => (length g < length (snd c))%nat | None => True end) ->
  exists fin', xinv (x_go sends opens epat s q (autos (fin ++ [c]) mod idn) c u r) ep fin' D.
Proof.
  intros W NC Hw Hr Hst Ha Hs Hsent Hb HT. unfold x_go. destruct r as [|e r].
  - exists (fin ++ [c]). destruct (start_cmd_spec (e_mgr s) u (c, flat_map epat (sends c u)) W) as (W1 & S1 & N1 & _).
    constructor; cbn [e_mgr e_wtask e_rtask e_cur e_q e_id todo]; auto; unfold curc; cbn [e_cur opt_list]; rewrite ?app_nil_r; auto.
    + now rewrite <- app_assoc.
    + unfold todo. cbn [e_cur]. rewrite app_nil_r in Hsent. exact Hsent.
    + intros t. unfold tinv. cbv zeta. cbn [e_mgr e_act]. unfold armed, curc. cbn [e_cur opt_list]. rewrite app_nil_r.
      destruct (S1 t) as (A1 & A2 & A3). unfold xc, xg. rewrite A1, A2, A3. destruct (HT t) as (HQ & HC). unfold xc, xg in HQ.
      destruct (Z.eqb_spec t u) as [Heq|Hne]; [subst t|]; unfold add_cmd; cbn [x_cur x_cmdq x_respq]; split; auto.
      * destruct HQ as [H1 H2 H3 H4 H5 H6 H7]. constructor; auto.
        -- rewrite Ha, with_tag_app, with_tag_1, Z.eqb_refl, H2, !map_app. cbn [map fst]. now rewrite !app_assoc.
        -- rewrite !app_assoc. apply Forall_app. split; [rewrite <- app_assoc; exact H3|]. constructor; [reflexivity|constructor].
      * destruct HQ as [H1 H2 H3 H4 H5 H6 H7]. constructor; auto.
        rewrite Ha, with_tag_app, with_tag_1, H2. destruct (Z.eqb_spec u t); [lia|]. now rewrite app_nil_r.
  - exists fin. constructor; cbn [e_mgr e_wtask e_rtask e_cur e_q e_id todo]; auto; unfold curc; cbn [e_cur opt_list fst]; auto.
    + split; [discriminate|]. split; eauto.
    + intros t. unfold tinv. cbv zeta. cbn [e_mgr e_act]. unfold armed, curc. cbn [e_cur opt_list fst].
      destruct (HT t) as (HQ & HC). split; auto. destruct HQ as [H1 H2 H3 H4 H5 H6 H7]. constructor; auto.
      destruct (opens e); cbn [andb]; [|rewrite H7; lia]. unfold bump. rewrite (Z.eqb_sym u t).
      destruct (Z.eqb_spec t u); rewrite H7; lia.
Qed.

(** ** a context *)
Lemma ctx_inv s ep fin D t i x c got cmdq respq act :
  xinv s ep fin D -> In (t, i) (m_map (e_mgr s)) -> x = X (e_mgr s) i -> x_tag x = Some t -> x_task x = TRun ->
  tq ep fin t (D t) [c] got cmdq respq (act t) (fin ++ curc s) (armed s t) ->
  (forall u, u <> t -> act u = e_act s u) ->
  let '(s', os) := x_ctx s i x c (Some t) got cmdq respq act in
  xquiet os /\ xcrashed os = false /\ exists D', xinv s' (ep ++ os) fin D'.
Proof.
  intros [H1 H2 H3 H4 H5 H6 H7 H8 H9 H10] Hin Hx Ht Htk HQ Hact. rewrite x_ctx_upd. cbv zeta.
  set (b := Nat.leb (length (snd c)) (length got)). set (x' := {| x_tag := x_tag x |}).
  destruct (upd_spec (e_mgr s) t i x' b H1 Hin) as (W1 & S1 & N1 & _); auto.
  { cbn. congruence. } { unfold x'. cbn. destruct b; auto. } { unfold x'. cbn. intros ->. reflexivity. }
  assert (NC : no_crash (upd (e_mgr s) i x' b)) by (apply N1; auto; cbn; congruence).
  destruct b eqn:Eb.
  - split; [reflexivity|]. split; [reflexivity|]. exists (fun u => if u =? t then D t ++ [(c, got)] else D u).
    assert (Hlen : length got = length (snd c)).
    { pose proof (T6 _ _ _ _ _ _ _ _ _ _ _ HQ) as H6'. cbn [flat_map] in H6'. rewrite app_nil_r in H6'.
      unfold b in Eb. apply Nat.leb_le in Eb. lia. }
    constructor; cbn [x_mgr e_mgr e_wtask e_rtask e_cur e_q e_id]; auto.
    + now rewrite xstarted_app, app_nil_r.
    + rewrite xsent_app. cbn [xsent]. rewrite app_nil_r. exact H8.
    + intros d. rewrite xcompleted_app, in_app_iff. cbn. intros [Hd|[<-|[]]]; auto. cbn. eauto.
    + intros u. unfold tinv. cbv zeta. cbn [x_mgr e_mgr e_act]. unfold armed, curc. cbn [x_mgr e_cur].
      destruct (S1 u) as (A1 & A2 & A3). unfold xc, xg. rewrite A1, A2, A3.
      destruct (Z.eqb_spec u t) as [Heq|Hne]; [subst u|].
      * unfold x'. cbn [x_cur x_cmdq x_respq opt_list]. split; auto.
        destruct HQ as [Q1 Q2 Q3 Q4 Q5 Q6 Q7]. constructor.
        -- unfold completed_on. rewrite xcompleted_app, filter_app, map_app. cbn [xcompleted filter fst snd].
           rewrite Z.eqb_refl. rewrite map_app. cbn [map fst snd]. f_equal. exact Q1.
        -- rewrite Q2. f_equal. rewrite (map_app fst (D t)). cbn [map fst app]. now rewrite <- app_assoc.
        -- rewrite map_app. cbn [map fst app]. rewrite <- app_assoc. exact Q3.
        -- apply Forall_app. split; auto.
        -- unfold answers. rewrite xreceived_app, app_nil_r, map_app, concat_app. cbn [map concat snd app].
           rewrite app_nil_r, <- app_assoc. exact Q5.
        -- cbn. lia.
        -- unfold owed. rewrite xsent_app, app_nil_r, map_app, concat_app. cbn [map concat snd]. rewrite !app_nil_r.
           exact Q7.
      * destruct (H10 u) as (HQu & HCu). split; auto. destruct HQu as [Q1 Q2 Q3 Q4 Q5 Q6 Q7]. constructor; auto.
        -- unfold completed_on. rewrite xcompleted_app, filter_app, map_app. cbn [xcompleted filter fst snd].
           destruct (Z.eqb_spec t u); [lia|]. rewrite app_nil_r. exact Q1.
        -- unfold answers. rewrite xreceived_app, app_nil_r. exact Q5.
        -- unfold owed. rewrite xsent_app, app_nil_r, Hact by auto. exact Q7.
  - split; [reflexivity|]. split; [reflexivity|]. exists D. rewrite app_nil_r.
    constructor; cbn [x_mgr e_mgr e_wtask e_rtask e_cur e_q e_id]; auto.
    intros u. unfold tinv. cbv zeta. cbn [x_mgr e_mgr e_act]. unfold armed, curc. cbn [x_mgr e_cur].
    destruct (S1 u) as (A1 & A2 & A3). unfold xc, xg. rewrite A1, A2, A3.
    destruct (Z.eqb_spec u t) as [Heq|Hne]; [subst u|].
    + unfold x'. cbn [x_cur x_cmdq x_respq opt_list fst]. split; [exact HQ|]. unfold b in Eb. apply Nat.leb_gt in Eb. lia.
    + destruct (H10 u) as (HQu & HCu). rewrite Hact by auto. split; auto.
Qed.

Lemma owe_owedE t ep : owe t ep = owedE t (xsent ep). Proof. reflexivity. Qed.

(** the responses owed for what was sent are the first ones of those for all commands taken *)
Lemma owe_prefix s ep fin D t : xinv s ep fin D -> pfull t (fin ++ curc s) = owe t ep ++ owedE t (todo s).
Proof.
  intros HI. rewrite <- owedE_pfull, <- (I_sent _ _ _ _ HI), owedE_app. reflexivity.
Qed.

(** more responses arrived or arrive than were used: the ID is active *)
Lemma act_pos s ep fin D t n : xinv s ep fin D ->
  n = length (concat (map snd (D t)) ++ xg (slot (e_mgr s) t)) -> (n < length (owe t ep))%nat -> 0 < e_act s t.
Proof.
  intros HI Hn Hl. destruct (I_t _ _ _ _ HI t) as (HQ & _). pose proof (T7 _ _ _ _ _ _ _ _ _ _ _ HQ) as H7.
  rewrite <- Hn in H7. rewrite (owe_prefix s ep fin D t HI), firstn_app_le in H7 by lia.
  pose proof (trues_left t (xsent ep) n Hl). change (owedE t (xsent ep)) with (owe t ep) in *.
  assert (0 <= armed s t). { unfold armed. destruct (e_cur s) as [[[? ?] [|? ?]]|]; try lia. destruct (_ && _); lia. }
  lia.
Qed.

Lemma xinv_step s l o fin D : xinv s (xepoch l) fin D ->
  let '(s', os) := step s o in
  conf (l ++ os) -> xcrashed os = false /\ exists fin' D', xinv s' (xepoch (l ++ os)) fin' D'.
Proof.
  intros HI. pose proof HI as [H1 H2 H3 H4 H5 H6 H7 H8 H9 H10].
  assert (Hs : conf (l ++ []) -> xcrashed ([] : list (xout C E R)) = false /\ exists fin' D', xinv s (xepoch (l ++ [])) fin' D').
  { intros _. rewrite app_nil_r. eauto. }
  destruct o as [c|c|n| | |r|i|i|b]; cbn [x_step].
  - intros _. split; auto. exists fin, D. rewrite xepoch_app_quiet by reflexivity.
    apply (xinv_frame s _ (xepoch l)); auto; rewrite ?xcompleted_app, ?xreceived_app, ?xsent_app, ?app_nil_r; auto.
    rewrite xstarted_app, H5. cbn [xstarted x_issue e_q]. now rewrite !app_assoc.
  - intros _. split; auto. exists fin, D. rewrite app_nil_r. apply (xinv_frame s _ (xepoch l)); auto.
  - destruct (nth_error (e_pend s) n) as [c|]; auto. intros _. split; auto. exists fin, D. rewrite xepoch_app_quiet by reflexivity.
    apply (xinv_frame s _ (xepoch l)); auto; rewrite ?xcompleted_app, ?xreceived_app, ?xsent_app, ?app_nil_r; auto.
    rewrite xstarted_app, H5. cbn [xstarted x_issue x_set_pend e_q]. now rewrite !app_assoc.
  - destruct (e_wtask s) eqn:Ew, (e_cur s) as [[[? ?] ?]|] eqn:Ec; auto. destruct (e_q s) as [|c q] eqn:Eq; auto.
    assert (Hcc : curc s = []) by (unfold curc; now rewrite Ec).
    assert (Ha0 : forall t, armed s t = 0) by (intros t; unfold armed; now rewrite Ec).
    assert (Htd : todo s = []) by (unfold todo; now rewrite Ec).
    rewrite Hcc, ?app_nil_r in *. rewrite Htd, app_nil_r in H8.
    assert (Hch : exists u, x_choose ask idn s c = (u, autos (fin ++ [c]) mod idn) /\ asg 0 (fin ++ [c]) = asg 0 fin ++ [(c, u)]).
    { unfold x_choose. rewrite asg_app, autos_app. cbn [assigned autos]. destruct (ask c) as [t|] eqn:Ea.
      - exists t. rewrite H6. now rewrite !Z.add_0_r.
      - exists (e_id s). split; [|rewrite H6; reflexivity]. rewrite H6. f_equal. rewrite Zplus_mod_idemp_l. now rewrite ?Z.add_0_r, ?Z.add_assoc. }
    destruct Hch as (u & -> & Hasg). intros _. split; auto. rewrite app_nil_r.
    destruct (go_inv s (xepoch l) fin D q c u (sends c u) []) as (fin' & HG); auto; try congruence.
    + rewrite Hasg. unfold sendsA. rewrite flat_map_app. cbn [flat_map fst snd]. rewrite app_nil_r. f_equal. exact H8.
    + intros t. destruct (H10 t) as (HQ & HC). split; auto. rewrite Hcc, app_nil_r, Ha0 in HQ.
      pose proof (tq_n _ _ _ _ _ _ _ _ _ _ _ HQ) as Hn. destruct HQ as [Q1 Q2 Q3 Q4 Q5 Q6 Q7]. constructor; auto.
      rewrite (pfull_snoc t fin c u Hasg), firstn_app_le by exact Hn. exact Q7.
    + eauto.
  - destruct (e_wtask s) eqn:Ew, (e_cur s) as [[[c u] [|e r]]|] eqn:Ec; auto.
    assert (Hcc : curc s = [c]) by (unfold curc; now rewrite Ec).
    assert (Htd : todo s = e :: r) by (unfold todo; now rewrite Ec).
    rewrite Hcc in *. rewrite Htd in *. destruct H7 as (_ & Hasg & pre & Hpre).
    intros _. split; auto. rewrite xepoch_app_quiet by reflexivity. rewrite H6.
    destruct (go_inv s (xepoch l ++ [XSent e]) fin D (e_q s) c u r (pre ++ [e])) as (fin' & HG); auto; try congruence.
    + rewrite xstarted_app, H5. cbn [xstarted]. now rewrite app_nil_r.
    + now rewrite <- app_assoc.
    + rewrite xsent_app. cbn [xsent]. rewrite <- app_assoc. exact H8.
    + intros d. rewrite xcompleted_app, app_nil_r. apply H9.
    + intros t. destruct (H10 t) as (HQ & HC). split; auto. rewrite Hcc in HQ.
      destruct HQ as [Q1 Q2 Q3 Q4 Q5 Q6 Q7]. constructor; auto.
      * unfold completed_on. rewrite xcompleted_app, app_nil_r. exact Q1.
      * unfold answers. rewrite xreceived_app, app_nil_r. exact Q5.
      * rewrite owe_owedE, xsent_app, owedE_app, trues_app. cbn [xsent].
        rewrite (owedE_one t u e) by (apply (Htag c); rewrite Hpre, in_app_iff; cbn; auto).
        rewrite Q7. unfold armed. rewrite Ec, owe_owedE. destruct (opens e) eqn:Eo; cbn [andb].
        -- destruct (u =? t); cbn [trues]; [|lia]. destruct (Hpat1 e Eo) as (k & ->). rewrite trues_app, trues_repeat. cbn. lia.
        -- rewrite (Hpat0 e Eo). destruct (u =? t); cbn [trues]; lia.
    + eauto.
  - destruct (e_rtask s) eqn:Er; auto. set (t := rtag r). destruct (H10 t) as (HQ & HC).
    assert (Hpos : forall os, conf (l ++ XResp r :: os) -> 0 < e_act s t).
    { intros os Hcf. destruct (Hcf (l ++ [XResp r]) os t) as (HL & _); [now rewrite <- app_assoc|].
      rewrite xepoch_app_quiet in HL by reflexivity. rewrite owe_owedE, xsent_app, app_nil_r in HL.
      unfold answers in HL. rewrite xreceived_app, filter_app, app_length in HL. cbn [xreceived filter] in HL.
      unfold t in HL. rewrite Z.eqb_refl in HL. fold t in HL. cbn [length] in HL. fold (ans t (xepoch l)) in HL.
      eapply act_pos; [exact HI|reflexivity|]. rewrite (T5 _ _ _ _ _ _ _ _ _ _ _ HQ) in HL.
      rewrite owe_owedE. rewrite !app_length in *. lia. }
    unfold x_resp. fold t. destruct (Z.ltb_spec 0 (e_act s t)) as [Hlt|Hle]; intros Hcf; [|exfalso; apply Hpos in Hcf; lia].
    split; auto. exists fin, D. rewrite xepoch_app_quiet by reflexivity.
    destruct (put_resp_spec (e_mgr s) t r H1) as (W1 & S1 & N1 & _).
    constructor; cbn [e_mgr e_wtask e_rtask e_cur e_q e_id]; auto; try congruence.
    + rewrite xstarted_app, app_nil_r. exact H5.
    + rewrite xsent_app, app_nil_r. exact H8.
    + intros d. rewrite xcompleted_app, app_nil_r. apply H9.
    + intros u. unfold tinv. cbv zeta. cbn [e_mgr e_act]. unfold armed, curc. cbn [e_cur].
      destruct (S1 u) as (A1 & A2 & A3). unfold xc, xg. rewrite A1, A2, A3. destruct (H10 u) as (HQu & HCu).
      unfold xc, xg in HQu. destruct (Z.eqb_spec u t) as [Heq|Hne]; [subst u|]; unfold add_resp; cbn [x_cur x_cmdq x_respq]; split; auto.
      * destruct HQu as [Q1 Q2 Q3 Q4 Q5 Q6 Q7]. constructor; auto.
        -- unfold completed_on. rewrite xcompleted_app, app_nil_r. exact Q1.
        -- unfold answers. rewrite xreceived_app, filter_app. fold (ans t (xepoch l)). rewrite Q5. cbn [xreceived filter].
           unfold t. rewrite Z.eqb_refl. now rewrite !app_assoc.
        -- rewrite owe_owedE, xsent_app, app_nil_r. exact Q7.
      * destruct HQu as [Q1 Q2 Q3 Q4 Q5 Q6 Q7]. constructor; auto.
        -- unfold completed_on. rewrite xcompleted_app, app_nil_r. exact Q1.
        -- unfold answers. rewrite xreceived_app, filter_app. fold (ans u (xepoch l)). rewrite Q5. cbn [xreceived filter].
           destruct (Z.eqb_spec (rtag r) u); [unfold t in *; lia|]. now rewrite app_nil_r.
        -- rewrite owe_owedE, xsent_app, app_nil_r. exact Q7.
  - destruct (nth_error (m_ctxs (e_mgr s)) i) as [x|] eqn:En; auto. destruct (x_task x) eqn:Et; auto.
    destruct (x_cur x) as [|] eqn:Ec; auto. destruct (x_cmdq x) as [|c q] eqn:Eq; auto.
    destruct (busy_mapped (e_mgr s) i x H1 En) as (t & Hin & Hx & Hsl & Htg); [unfold empty; intros (_ & K & _); congruence|].
    destruct (H10 t) as (HQ & _). rewrite Hsl in HQ. unfold xc, xg in HQ. rewrite Ec, Eq in HQ.
    rewrite Htg. pose proof (ctx_inv s (xepoch l) fin D t i x c [] q (x_respq x) (e_act s) HI Hin Hx Htg Et) as K.
    destruct (x_ctx s i x c (Some t) [] q (x_respq x) (e_act s)) as [s' os]. intros _.
    destruct K as (K1 & K2 & D' & K3); auto.
    { destruct HQ as [Q1 Q2 Q3 Q4 Q5 Q6 Q7]. constructor; auto. cbn. lia. }
    split; auto. rewrite xepoch_app_quiet by auto. eauto.
  - destruct (nth_error (m_ctxs (e_mgr s)) i) as [x|] eqn:En; auto. destruct (x_task x) eqn:Et; auto.
    destruct (x_cur x) as [[[c bid] got]|] eqn:Ec; auto. destruct (x_respq x) as [|r q] eqn:Eq; auto.
    destruct (busy_mapped (e_mgr s) i x H1 En) as (t & Hin & Hx & Hsl & Htg); [unfold empty; intros (K & _); congruence|].
    destruct (wf_map _ H1 _ _ Hin) as (_ & _ & Hb). rewrite <- Hx, Ec in Hb. subst bid.
    destruct (H10 t) as (HQ & HC). rewrite Hsl in HQ, HC. unfold xc, xg in HQ. rewrite Ec, Eq in HQ. rewrite Ec in HC.
    cbn [opt_list fst] in HQ. set (n := length (concat (map snd (D t)) ++ got)).
    set (b := nth (length got) (snd c) false).
    destruct (tq_lengths _ _ _ _ _ _ _ _ _ _ _ HQ) as (L1 & L2). cbn [flat_map] in L2. rewrite app_nil_r in L2.
    assert (Hnth : forall tl, nth_error (pfull t fin ++ tl) n = Some b).
    { intros tl. rewrite L2. unfold n. rewrite app_length, L1, <- !app_assoc. rewrite nth_error_app2 by lia.
      replace (_ + length got - _)%nat with (length got) by lia. rewrite nth_error_app1 by lia. now apply nth_error_nth'. }
    assert (Hpf : exists tl, pfull t (fin ++ curc s) = pfull t fin ++ tl).
    { unfold curc. destruct (e_cur s) as [[[c0 u0] r0]|]; cbn [opt_list fst].
      - destruct H7 as (_ & Hasg & _). rewrite (pfull_snoc t fin c0 u0 Hasg). eauto.
      - exists []. now rewrite !app_nil_r. }
    destruct Hpf as (tl & Hpf). specialize (Hnth tl). rewrite <- Hpf in Hnth.
    assert (Hok : forall os, conf (l ++ os) -> 0 < e_act s t /\ chk b r = true).
    { intros os Hcf. destruct (Hcf l os t eq_refl) as (HL & HK). rewrite (T5 _ _ _ _ _ _ _ _ _ _ _ HQ) in HL, HK.
      assert (Hn : (n < length (owe t (xepoch l)))%nat) by (unfold n in *; rewrite !app_length in *; cbn [length] in HL; lia).
      split. { eapply act_pos; [exact HI| |exact Hn]. unfold n. rewrite Hsl. unfold xg. now rewrite Ec. }
      apply (HK n r b).
      - unfold n. rewrite app_length, nth_error_app2 by lia. rewrite nth_error_app2 by lia.
        replace (_ + _ - _ - _)%nat with 0%nat by lia. reflexivity.
      - rewrite (owe_prefix s _ fin D t HI) in Hnth. rewrite nth_error_app1 in Hnth by exact Hn. exact Hnth. }
    cbn [act_of]. destruct ((0 <? e_act s t) && chk b r) eqn:Ek.
    + pose proof (ctx_inv s (xepoch l) fin D t i x c (got ++ [r]) (x_cmdq x) q (act_dec (e_act s) (Some t) b) HI Hin Hx Htg Et) as K.
      destruct (x_ctx s i x c (Some t) _ _ _ _) as [s' os]. intros _.
      destruct K as (K1 & K2 & D' & K3).
      { destruct HQ as [Q1 Q2 Q3 Q4 Q5 Q6 Q7]. constructor; auto.
        - rewrite Q5, <- !app_assoc. reflexivity.
        - cbn [flat_map]. rewrite app_nil_r, app_length. cbn [length]. lia.
        - rewrite app_assoc, app_length. fold n. cbn [length].
          assert (Hf : firstn (n + 1) (pfull t (fin ++ curc s)) = firstn n (pfull t (fin ++ curc s)) ++ [b]).
          { clear - Hnth. revert Hnth. generalize (pfull t (fin ++ curc s)) as p. generalize n as k.
            induction k as [|k IH]; intros [|y p] H; try discriminate; cbn in *; [now injection H as ->|]. now rewrite IH. }
          rewrite Hf, trues_app. cbn [trues]. fold n in Q7. unfold act_dec, bump. destruct b; [rewrite Z.eqb_refl|]; lia. }
      { intros u Hu. unfold act_dec, bump. destruct b; auto. destruct (Z.eqb_spec u t); [lia|auto]. }
      split; auto. rewrite xepoch_app_quiet by auto. eauto.
    + intros Hcf. destruct (Hok [XCrash] Hcf) as (K1 & K2). exfalso. rewrite K2 in Ek. lia.
  - unfold x_reset. destruct b.
    + pose proof (mgr_flush_spec (e_mgr s) H1) as H. destruct (mgr_flush (e_mgr s)) as [m ml]. destruct H as (W & _ & Hm & Hn & _).
      intros _. split.
      { unfold xcrashed. rewrite existsb_app. cbn. rewrite orb_false_r. induction (e_q s ++ _) as [|y z IH]; auto. }
      exists [], (fun _ => []). rewrite app_assoc, xepoch_reset.
      constructor; cbn [e_mgr e_wtask e_rtask e_cur e_q e_id]; auto; try discriminate; cbn; try tauto.
      * intros x Hx. rewrite (Hn x Hx). discriminate.
      * intros t. unfold tinv, slot, armed, curc. cbn [e_mgr e_cur e_act]. rewrite Hm. cbn. split; auto. constructor; cbn; auto.
    + intros _. split; auto. exists fin, D. rewrite app_nil_r. apply (xinv_frame s _ (xepoch l)); auto.
      * cbn. destruct (e_wtask s); auto; discriminate.
      * cbn. destruct (e_rtask s); auto; discriminate.
Qed.

Lemma conf_prefix l1 l2 : conf (l1 ++ l2) -> conf l1.
Proof. intros H a b t E0. apply (H a (b ++ l2) t). now rewrite E0, app_assoc. Qed.

Lemma xinv_run h : let '(s, l) := run xeng_init h in conf l -> xcrashed l = false /\ exists fin D, xinv s (xepoch l) fin D.
Proof.
  apply (xrun_ind sends opens epat chk rtag ask idn (fun _ s l => conf l -> xcrashed l = false /\ exists fin D, xinv s (xepoch l) fin D)).
  - intros _. split; auto. exists [], (fun _ => []). constructor; cbn; auto; try discriminate; try tauto.
    + apply mwf_new. + intros x [].
    + intros t. split; cbn; auto. constructor; cbn; auto.
  - intros h' s l o _ IH. pose proof (fun fin D => xinv_step s l o fin D) as K. destruct (step s o) as [s' os]. intros Hcf.
    destruct (IH (conf_prefix _ _ Hcf)) as (Hc & fin & D & HI). destruct (K fin D HI Hcf) as (K1 & K2).
    split; auto. unfold xcrashed in *. rewrite existsb_app, Hc, K1. reflexivity.
Qed.

(** ** The result *)
Definition xstuck s : Prop :=
  e_wtask s = TRun /\ step s PGet = (s, []) /\ step s PSend = (s, []) /\
  forall i, step s (PCGet i) = (s, []) /\ step s (PCResp i) = (s, []).

Theorem xeng_attribution h : let '(s, l) := run xeng_init h in conf l ->
  let ep := xepoch l in let ids := asg 0 (xstarted ep) in
  xcrashed l = false /\
  (forall d, In d (xcompleted ep) -> exists t, snd (fst d) = Some t) /\
  (exists more, flat_map (fun p => sends (fst p) (snd p)) ids = xsent ep ++ more) /\
  (xstuck s -> xsent ep = flat_map (fun p => sends (fst p) (snd p)) ids) /\
  forall t, let cs := with_tag t ids in exists segs rest,
    (length segs <= length cs)%nat /\
    completed_on t ep = combine (firstn (length segs) cs) segs /\
    ans t ep = concat segs ++ rest /\
    Forall2 (fun c seg => length seg = length (pat c t)) (firstn (length segs) cs) segs /\
    (xstuck s -> length segs = length cs \/
       exists c, nth_error cs (length segs) = Some c /\ (length rest < length (pat c t))%nat).
Proof.
  pose proof (xinv_run h) as H. destruct (run xeng_init h) as [s l]. intros Hcf. cbv zeta.
  destruct (H Hcf) as (Hc & fin & D & HI). clear H. split; auto. pose proof HI as [H1 H2 H3 H4 H5 H6 H7 H8 H9 H10].
  split; auto.
  assert (Hall : forall ids, exists more, sendsA (asg 0 (fin ++ curc s ++ ids)) = xsent (xepoch l) ++ more).
  { intros ids. rewrite app_assoc, asg_app. unfold sendsA at 1. rewrite flat_map_app. fold (sendsA (asg 0 (fin ++ curc s))).
    rewrite <- H8, <- app_assoc. eauto. }
  assert (Hst : xstuck s -> e_cur s = None /\ e_q s = []).
  { intros (S1 & S2 & S3 & _). cbn [x_step] in S2, S3. rewrite S1 in S2, S3.
    destruct (e_cur s) as [[[c u] [|e r]]|]; [now destruct H7|discriminate|]. split; auto.
    destruct (e_q s) as [|c q] eqn:Eq; auto. exfalso. destruct (x_choose ask idn s c) as [u id].
    injection S2 as S2. apply (f_equal e_q) in S2. unfold x_go in S2. rewrite Eq in S2.
    assert (K : q = c :: q) by (destruct (sends c u); exact S2). apply (f_equal (@length C)) in K. cbn in K. lia. }
  rewrite H5. split; [exact (Hall (e_q s))|]. split.
  { intros Hk. destruct (Hst Hk) as (K1 & K2). unfold curc, todo in *. rewrite K1 in *. rewrite K2. cbn [opt_list app] in *.
    rewrite !app_nil_r in *. exact H8. }
  intros t. destruct (H10 t) as (HQ & HC). set (x := slot (e_mgr s) t) in *. set (segs := map snd (D t)).
  exists segs, (xg x ++ x_respq x). destruct HQ as [Q1 Q2 Q3 Q4 Q5 Q6 Q7].
  assert (Hcs : exists tl, with_tag t (asg 0 (fin ++ curc s ++ e_q s)) = map fst (map fst (D t)) ++ tl /\
     (xstuck s -> tl = map fst (xc x ++ x_cmdq x))).
  { rewrite asg_app, with_tag_app, Q2, map_app, <- app_assoc. eexists. split; [reflexivity|].
    intros Hk. destruct (Hst Hk) as (K1 & K2). unfold curc. rewrite K1, K2. cbn. now rewrite app_nil_r. }
  destruct Hcs as (tl & Hcs & Htl). rewrite Hcs.
  assert (Hlen : length segs = length (map fst (map fst (D t)))) by (unfold segs; now rewrite !map_length).
  assert (Hfn : firstn (length segs) (map fst (map fst (D t)) ++ tl) = map fst (map fst (D t))).
  { rewrite Hlen, firstn_app, Nat.sub_diag. cbn. rewrite app_nil_r. apply firstn_all. }
  rewrite Hfn. split; [rewrite app_length; lia|]. split; [|split; [|split]].
  - rewrite Q1. unfold segs. clear. induction (D t) as [|[[c p] g] D' IH]; cbn; congruence.
  - exact Q5.
  - unfold segs. apply Forall_app in Q3. destruct Q3 as (Q3 & _). clear - Q3 Q4.
    induction Q4 as [|d D' Hd _ IH]; cbn [map] in *; constructor; inversion Q3; subst; auto. congruence.
  - intros Hk. pose proof Hk as (_ & _ & _ & S4). specialize (Htl Hk).
    rewrite app_length. rewrite nth_error_app2 by lia. replace (length segs - _)%nat with 0%nat by lia.
    assert (Hx : x_cur x = None /\ x_cmdq x = [] \/ exists c bid g, x_cur x = Some (c, bid, g) /\ x_respq x = []).
    { unfold x, slot in *. destruct (lookup t (m_map (e_mgr s))) as [i|] eqn:El; [|left; split; reflexivity].
      pose proof (lookup_in _ _ _ El) as Hin. destruct (wf_map _ H1 _ _ Hin) as (T1' & T2' & _).
      assert (Hi : (i < length (m_ctxs (e_mgr s)))%nat) by (apply (wf_all _ H1); rewrite in_app_iff; left; eapply in_idx; eauto).
      assert (Hrun : x_task (X (e_mgr s) i) = TRun).
      { pose proof (H2 (X (e_mgr s) i) (nth_In _ _ Hi)). destruct (x_task (X (e_mgr s) i)); congruence. }
      destruct (S4 i) as (S5 & S6). cbn [x_step] in S5, S6.
      rewrite (nth_error_nth' _ ctx_new Hi) in S5, S6. fold (X (e_mgr s) i) in S5, S6. rewrite Hrun in S5, S6.
      destruct (x_cur (X (e_mgr s) i)) as [[[c bid] g]|] eqn:Ec.
      - right. exists c, bid, g. split; auto. destruct (x_respq (X (e_mgr s) i)) as [|r q] eqn:Eq; auto. exfalso.
        destruct (_ && _); [|discriminate]. unfold x_ctx in S6. destruct (Nat.leb _ _); [discriminate|].
        injection S6 as S6. apply (f_equal (fun z => X (e_mgr z) i)) in S6. cbn [x_mgr e_mgr] in S6.
        unfold X in S6 at 1. cbn [mgr_set m_ctxs] in S6. rewrite nth_set_nth, Nat.eqb_refl in S6 by auto.
        apply (f_equal x_cur) in S6. rewrite Ec in S6. cbn in S6. injection S6 as S6.
        apply (f_equal (@length R)) in S6. rewrite app_length in S6. cbn in S6. lia.
      - left. split; auto. destruct (x_cmdq (X (e_mgr s) i)) as [|c q] eqn:Eq; auto. exfalso.
        unfold x_ctx in S5. destruct (Nat.leb _ _); [discriminate|].
        injection S5 as S5. apply (f_equal (fun z => X (e_mgr z) i)) in S5. cbn [x_mgr e_mgr] in S5.
        unfold X in S5 at 1. cbn [mgr_set m_ctxs] in S5. rewrite nth_set_nth, Nat.eqb_refl in S5 by auto.
        apply (f_equal x_cur) in S5. rewrite Ec in S5. discriminate. }
    destruct Hx as [(E1 & E2)|(c & bid & g & E1 & E2)].
    + left. rewrite Htl. unfold xc. rewrite E1, E2. cbn. lia.
    + right. exists (fst c). rewrite Htl. unfold xc, xg in *. rewrite E1 in *. cbn [opt_list app map fst nth_error] in *.
      split; auto. rewrite E2, app_nil_r. apply Forall_app in Q3. destruct Q3 as (_ & Q3). inversion Q3 as [|? ? Hp _]; subst.
      rewrite <- Hp. exact HC.
Qed.
End P.
