(** AXI systems (M_sys.v): every step of a task or a channel that does something lowers a measure. *)
From Coq Require Import ZArith Lia List Bool Permutation.
From Coq Require Import ZifyBool ZifyNat.
From Verif Require Import Py M_axi M_axil M_liteeng P_liteeng M_axieng S_axieng P_axieng M_sys S_sys P_sys M_litesys S_litesys S_live P_fair P_ulive.
Import ListNotations.
Open Scope nat_scope.

Section Live.
Context {C E R S : Type}.
Variable sends : C -> Z -> list E.
Variable opens : E -> bool.
Variable epat : E -> list bool.
Variable chk : bool -> R -> bool.
Variable rtag : R -> Z.
Variable ask : C -> option Z.
Variable idn : Z.
Variable kind : E -> bool.
Variable act : S -> sact R S.
Variable sin : S -> E -> S.
Variable pot : S -> nat.
Variable wt : E -> nat.
Variable swt : C -> nat.
Hypothesis Hwait : forall s k e, act s = AWait k -> pot (sin s e) < pot s + wt e.
Hypothesis Hemit : forall s r s', act s = AEmit r s' -> pot s' + 5 <= pot s.
Hypothesis Htau : forall s s', act s = ATau s' -> pot s' < pot s.
Hypothesis Hswt : forall c t, lsum (fun e => wt e + 3) (sends c t) <= swt c.
Notation step := (y_step sends opens epat chk rtag ask idn kind act sin).
Notation run := (y_run sends opens epat chk rtag ask idn kind act sin).
Notation xstep := (x_step sends opens epat chk rtag ask idn).

(** ** contexts *)
Definition ctxw (x : ctx C R) : nat := length (x_cmdq x) + length (x_respq x).
Definition mgrw (m : mgr C R) : nat := lsum ctxw (m_ctxs m).

Lemma set_nth_w (l : list (ctx C R)) : forall i x, lsum ctxw (set_nth i x l) + ctxw (nth i l ctx_new) <= lsum ctxw l + ctxw x.
Proof.
  induction l as [|a l IH]; intros [|i] x; cbn [set_nth nth]; rewrite ?lsum_cons, ?lsum_nil; cbn; try lia.
  specialize (IH i x). lia.
Qed.
Lemma mgr_set_w m i x : mgrw (mgr_set m i x) + ctxw (nth i (m_ctxs m) ctx_new) <= mgrw m + ctxw x.
Proof. apply set_nth_w. Qed.
Lemma set_idle_w m i : mgrw (set_idle m i) <= mgrw m.
Proof.
  unfold set_idle. set (x := nth i (m_ctxs m) ctx_new).
  assert (K : forall m', m_ctxs m' = m_ctxs m -> mgrw (mgr_set m' i (ctx_tag x None)) <= mgrw m).
  { intros m' Em. pose proof (mgr_set_w m' i (ctx_tag x None)) as H. rewrite Em in H. fold x in H. unfold ctxw in H. cbn [ctx_tag x_cmdq x_respq] in H.
    unfold mgrw in H at 2. rewrite Em in H. fold (mgrw m) in H. lia. }
  destruct (x_tag x) as [t|]; [|apply K; reflexivity]. destruct (lookup t (m_map m)); apply K; reflexivity.
Qed.
Lemma get_ctx_w m t : mgrw (fst (get_ctx m t)) <= mgrw m.
Proof.
  unfold get_ctx. destruct (lookup t (m_map m)); [cbn [fst]; lia|].
  destruct (m_idle m) as [|i idle]; cbn [fst]; unfold mgrw; cbn [m_ctxs].
  - pose proof (set_nth_w (m_ctxs m ++ [ctx_new]) (length (m_ctxs m)) (ctx_tag (ctx_start (nth (length (m_ctxs m)) (m_ctxs m ++ [ctx_new]) ctx_new)) (Some t))) as H.
    rewrite lsum_app in H. unfold ctxw in H at 5. cbn [ctx_tag ctx_start x_cmdq x_respq] in H. fold (ctxw (nth (length (m_ctxs m)) (m_ctxs m ++ [ctx_new]) ctx_new)) in H.
    rewrite lsum_cons in H. cbn in H. unfold ctxw in *. cbn [ctx_tag ctx_start x_cmdq x_respq] in *. lia.
  - pose proof (set_nth_w (m_ctxs m) i (ctx_tag (ctx_start (nth i (m_ctxs m) ctx_new)) (Some t))) as H.
    unfold ctxw in *. cbn [ctx_tag ctx_start x_cmdq x_respq] in *. lia.
Qed.
Lemma start_cmd_w m t c : mgrw (start_cmd m t c) <= mgrw m + 1.
Proof.
  unfold start_cmd. pose proof (get_ctx_w m t) as G. destruct (get_ctx m t) as [m' i]. cbn [fst] in G.
  match goal with |- mgrw (mgr_set m' i ?x) <= _ => pose proof (mgr_set_w m' i x) as H end.
  unfold ctxw in H. cbn [x_cmdq x_respq] in H. rewrite app_length in H. cbn [length] in H. lia.
Qed.
Lemma put_resp_w m t r : mgrw (put_resp m t r) <= mgrw m + 1.
Proof.
  unfold put_resp. pose proof (get_ctx_w m t) as G. destruct (get_ctx m t) as [m' i]. cbn [fst] in G.
  match goal with |- mgrw (mgr_set m' i ?x) <= _ => pose proof (mgr_set_w m' i x) as H end.
  unfold ctxw in H. cbn [x_cmdq x_respq] in H. rewrite app_length in H. cbn [length] in H. lia.
Qed.

(** ** measure *)
Definition ycurw (o : option (C * Z * list E)) : nat := match o with Some (_, _, l) => lsum (fun e => wt e + 3) l + 1 | None => 0 end.
Definition xw (m : xeng C E R) : nat :=
  lsum (fun c => swt c + 3) (e_pend m) + lsum (fun c => swt c + 2) (e_q m) + ycurw (e_cur m) + mgrw (e_mgr m).
Definition ymu (y : sys C E R S) : nat :=
  xw (y_m y) + chw wt (y_a y) + chw wt (y_w y) + chw (fun _ => 2) (y_b y) + pot (y_s y).

Definition can_cget (m : xeng C E R) (i : nat) : bool :=
  match nth_error (m_ctxs (e_mgr m)) i with
  | Some x => match x_task x, x_cur x, x_cmdq x with TRun, None, _ :: _ => true | _, _, _ => false end
  | None => false
  end.
Definition can_cresp (m : xeng C E R) (i : nat) : bool :=
  match nth_error (m_ctxs (e_mgr m)) i with
  | Some x => match x_task x, x_cur x, x_respq x with TRun, Some _, _ :: _ => true | _, _, _ => false end
  | None => false
  end.
Definition y_en (y : sys C E R S) (o : yop C S) : bool :=
  match o with
  | YIssue _ | YInit _ | YPoke _ => false
  | YStart n => match nth_error (e_pend (y_m y)) n with Some _ => true | None => false end
  | YGet => match e_wtask (y_m y), e_cur (y_m y), e_q (y_m y) with TRun, None, _ :: _ => true | _, _, _ => false end
  | YSend => match e_wtask (y_m y), next_send (y_m y) with TRun, Some e => q_room (ch_src (fwd y (kind e))) | _, _ => false end
  | YRecv => match e_rtask (y_m y), ch_snk (y_b y) with TRun, _ :: _ => true | _, _ => false end
  | YCGet i => can_cget (y_m y) i
  | YCResp i => can_cresp (y_m y) i
  | YLoad k => can_load (fwd y k)
  | YXfer k => can_xfer (fwd y k)
  | YLoadB => can_load (y_b y)
  | YXferB => can_xfer (y_b y)
  | YSlave => match act (y_s y) with
              | AWait k => match ch_snk (fwd y k) with _ :: _ => true | [] => false end
              | AEmit _ _ => q_room (ch_src (y_b y))
              | ATau _ => true
              | ADead => false
              end
  end.

Lemma ymu_fwd y k c : ymu (set_fwd y k c) + chw wt (fwd y k) = ymu y + chw wt c.
Proof. unfold ymu, set_fwd, fwd. destruct k; cbn [y_m y_a y_w y_b y_s]; lia. Qed.
Lemma ymu_b y c : ymu (set_b y c) + chw (fun _ => 2) (y_b y) = ymu y + chw (fun _ => 2) c.
Proof. unfold ymu, set_b. cbn [y_m y_a y_w y_b y_s]. lia. Qed.
Lemma ymu_s y s : ymu (set_s y s) + pot (y_s y) = ymu y + pot s.
Proof. unfold ymu, set_s. cbn [y_m y_a y_w y_b y_s]. lia. Qed.
Lemma ymu_m y m : ymu (set_m y m) + xw (y_m y) = ymu y + xw m.
Proof. unfold ymu, set_m. cbn [y_m y_a y_w y_b y_s]. lia. Qed.

Ltac flds := cbn [e_pend e_q e_cur e_mgr e_wtask e_rtask x_issue x_set_pend x_mgr] in *.

Lemma go_w s q id c t l : xw (x_go sends opens epat s q id c t l) <=
  lsum (fun c => swt c + 3) (e_pend s) + lsum (fun c => swt c + 2) q + lsum (fun e => wt e + 3) l + 1 + mgrw (e_mgr s).
Proof.
  unfold x_go, xw. destruct l as [|e l]; flds.
  - pose proof (start_cmd_w (e_mgr s) t (c, flat_map epat (sends c t))). cbn [ycurw]. rewrite lsum_nil. lia.
  - cbn [ycurw]. lia.
Qed.
Lemma ctx_w s i x c bid got cmdq respq a : nth_error (m_ctxs (e_mgr s)) i = Some x -> length cmdq + length respq < ctxw x ->
  xw (fst (x_ctx s i x c bid got cmdq respq a)) < xw s.
Proof.
  intros Hx Hl. apply nth_error_nth with (d := ctx_new) in Hx. unfold x_ctx. destruct (Nat.leb _ _); cbn [fst]; unfold xw; flds.
  - match goal with |- context [mgr_set (e_mgr s) i ?X] => pose proof (mgr_set_w (e_mgr s) i X) as H; set (m1 := mgr_set (e_mgr s) i X) in * end.
    rewrite Hx in H. unfold ctxw in H at 2. cbn [x_cmdq x_respq] in H. pose proof (set_idle_w m1 i). destruct cmdq, respq; lia.
  - match goal with |- context [mgr_set (e_mgr s) i ?X] => pose proof (mgr_set_w (e_mgr s) i X) as H end.
    rewrite Hx in H. unfold ctxw in H at 2. cbn [x_cmdq x_respq] in H. lia.
Qed.

Lemma y_en_lt y o : internal o -> y_en y o = true -> ymu (fst (step y o)) < ymu y.
Proof.
  intros Hi. destruct o as [c|c|n| | | |i|i|k|k| | | |f]; cbn [internal] in Hi; try tauto; cbn [y_en y_step]; unfold m_step; cbn [x_step].
  - destruct (nth_error _ n) as [c|] eqn:En; [|discriminate]. intros _. cbn [fst].
    pose proof (ymu_m y (x_issue (x_set_pend (y_m y) (firstn n (e_pend (y_m y)) ++ skipn (Datatypes.S n) (e_pend (y_m y)))) c)) as M.
    unfold xw in M. flds. rewrite (lsum_app _ (e_q (y_m y))), lsum_cons, lsum_nil in M.
    pose proof (lsum_remove (fun c => swt c + 3) _ _ _ En) as Hrm. cbn beta in *. lia.
  - destruct (e_wtask (y_m y)); try discriminate. destruct (e_cur (y_m y)) eqn:Ec; [discriminate|].
    destruct (e_q (y_m y)) as [|c q] eqn:Eq; [discriminate|]. intros _. destruct (x_choose ask idn (y_m y) c) as [t id]. cbn [fst].
    pose proof (ymu_m y (x_go sends opens epat (y_m y) q id c t (sends c t))) as M.
    pose proof (go_w (y_m y) q id c t (sends c t)) as G. pose proof (Hswt c t) as Hc.
    unfold xw in M at 1. rewrite Ec, Eq, lsum_cons in M. cbn [ycurw] in M. lia.
  - destruct (e_wtask (y_m y)) eqn:Ew; try discriminate. unfold next_send. destruct (e_cur (y_m y)) as [[[c t] [|e l]]|] eqn:Ec; try discriminate.
    intros Hr. rewrite Hr. unfold m_step.
    assert (Em : y_m (set_fwd y (kind e) (ch_push (fwd y (kind e)) e)) = y_m y) by (unfold set_fwd; destruct (kind e); reflexivity).
    rewrite Em. cbn [x_step]. rewrite Ew, Ec. cbn [fst].
    pose proof (ymu_m (set_fwd y (kind e) (ch_push (fwd y (kind e)) e)) (x_go sends opens epat (y_m y) (e_q (y_m y)) (e_id (y_m y)) c t l)) as M. rewrite Em in M.
    pose proof (ymu_fwd y (kind e) (ch_push (fwd y (kind e)) e)) as F. rewrite chw_push in F.
    pose proof (go_w (y_m y) (e_q (y_m y)) (e_id (y_m y)) c t l) as G.
    unfold xw in M at 1. rewrite Ec in M. cbn [ycurw] in M. rewrite lsum_cons in M. lia.
  - destruct (e_rtask (y_m y)) eqn:Er; try discriminate.
    destruct (ch_snk (y_b y)) as [|r q] eqn:Eb; [discriminate|]. intros _. unfold m_step. cbn [set_b y_m x_step]. rewrite Er.
    assert (G : xw (fst (x_resp rtag (y_m y) r)) <= xw (y_m y) + 1).
    { unfold x_resp. destruct (0 <? _)%Z; cbn [fst]; unfold xw; flds; [|lia]. pose proof (put_resp_w (e_mgr (y_m y)) (rtag r) r). lia. }
    destruct (x_resp rtag (y_m y) r) as [m os]. cbn [fst] in *.
    pose proof (ymu_m (set_b y (ch_pop (y_b y) q)) m) as M. cbn [set_b y_m] in M.
    pose proof (ymu_b y (ch_pop (y_b y) q)) as B. pose proof (chw_pop (fun _ => 2) (y_b y) r q Eb) as P. cbn beta in P. unfold set_b in *. lia.
  - unfold can_cget. destruct (nth_error (m_ctxs (e_mgr (y_m y))) i) as [x|] eqn:Ex; [|discriminate].
    destruct (x_task x); try discriminate. destruct (x_cur x); [discriminate|]. destruct (x_cmdq x) as [|c q] eqn:Eq; [discriminate|]. intros _.
    pose proof (ctx_w (y_m y) i x c (x_tag x) [] q (x_respq x) (e_act (y_m y)) Ex) as G.
    destruct (x_ctx (y_m y) i x c (x_tag x) [] q (x_respq x) (e_act (y_m y))) as [m os]. cbn [fst] in *.
    pose proof (ymu_m y m). unfold ctxw in G. rewrite Eq in G. cbn [length] in G. lia.
  - unfold can_cresp. destruct (nth_error (m_ctxs (e_mgr (y_m y))) i) as [x|] eqn:Ex; [|discriminate].
    destruct (x_task x); try discriminate. destruct (x_cur x) as [[[c bid] got]|] eqn:Ec; [|discriminate].
    destruct (x_respq x) as [|r q] eqn:Eq; [discriminate|]. intros _. cbv zeta.
    destruct (_ && _).
    + pose proof (ctx_w (y_m y) i x c bid (got ++ [r]) (x_cmdq x) q (act_dec (e_act (y_m y)) bid (nth (length got) (snd c) false)) Ex) as G.
      destruct (x_ctx (y_m y) i x c bid (got ++ [r]) (x_cmdq x) q (act_dec (e_act (y_m y)) bid (nth (length got) (snd c) false))) as [m os]. cbn [fst] in *.
      pose proof (ymu_m y m). unfold ctxw in G. rewrite Eq in G. cbn [length] in G. lia.
    + cbn [fst]. match goal with |- ymu (set_m y ?m) < _ => pose proof (ymu_m y m) as M end. unfold xw in M. flds.
      apply nth_error_nth with (d := ctx_new) in Ex.
      match type of M with context [mgr_set (e_mgr (y_m y)) i ?X] => pose proof (mgr_set_w (e_mgr (y_m y)) i X) as H end.
      rewrite Ex in H. unfold ctxw in H. cbn [x_cmdq x_respq] in H. rewrite Eq in H. cbn [length] in H. lia.
  - intros H. cbn [fst]. pose proof (ymu_fwd y k (ch_load (fwd y k))). pose proof (load_en wt _ H). lia.
  - intros H. cbn [fst]. pose proof (ymu_fwd y k (ch_xfer (fwd y k))). pose proof (xfer_en wt _ H). lia.
  - intros H. cbn [fst]. pose proof (ymu_b y (ch_load (y_b y))). pose proof (load_en (fun _ => 2) _ H). lia.
  - intros H. cbn [fst]. pose proof (ymu_b y (ch_xfer (y_b y))). pose proof (xfer_en (fun _ => 2) _ H). lia.
  - destruct (act (y_s y)) as [k|r s|s|] eqn:Ea.
    + destruct (ch_snk (fwd y k)) as [|e q] eqn:Es; [discriminate|]. intros _. cbn [fst].
      pose proof (ymu_s (set_fwd y k (ch_pop (fwd y k) q)) (sin (y_s y) e)) as A.
      replace (y_s (set_fwd y k (ch_pop (fwd y k) q))) with (y_s y) in A by (unfold set_fwd; destruct k; reflexivity).
      pose proof (ymu_fwd y k (ch_pop (fwd y k) q)) as B. pose proof (chw_pop wt _ _ _ Es) as P. pose proof (Hwait _ _ e Ea). lia.
    + intros Hr. rewrite Hr. cbn [fst].
      pose proof (ymu_s (set_b y (ch_push (y_b y) r)) s) as A. cbn [set_b y_s] in A. unfold set_b in *.
      pose proof (ymu_b y (ch_push (y_b y) r)) as B. rewrite chw_push in B. pose proof (Hemit _ _ _ Ea). unfold set_b in *. lia.
    + intros _. cbn [fst]. pose proof (ymu_s y s). pose proof (Htau _ _ Ea). lia.
    + discriminate.
Qed.

Lemma set_m_id (y : sys C E R S) : set_m y (y_m y) = y. Proof. destruct y; reflexivity. Qed.
Lemma set_b_id (y : sys C E R S) : set_b y (y_b y) = y. Proof. destruct y; reflexivity. Qed.
Lemma set_fwd_id (y : sys C E R S) k : set_fwd y k (fwd y k) = y. Proof. destruct y, k; reflexivity. Qed.

Lemma y_en_no y o : internal o -> y_en y o = false -> step y o = (y, []).
Proof.
  intros Hi. destruct o as [c|c|n| | | |i|i|k|k| | | |f]; cbn [internal] in Hi; try tauto; cbn [y_en y_step]; unfold m_step; cbn [x_step].
  - destruct (nth_error _ n); [discriminate|]. now rewrite set_m_id.
  - destruct (e_wtask (y_m y)), (e_cur (y_m y)), (e_q (y_m y)); try discriminate; now rewrite set_m_id.
  - destruct (e_wtask (y_m y)); auto. destruct (next_send (y_m y)) as [e|]; auto. intros ->. reflexivity.
  - destruct (e_rtask (y_m y)), (ch_snk (y_b y)); auto; discriminate.
  - unfold can_cget. destruct (nth_error _ i) as [x|]; [|now rewrite set_m_id].
    destruct (x_task x), (x_cur x), (x_cmdq x); try discriminate; now rewrite set_m_id.
  - unfold can_cresp. destruct (nth_error _ i) as [x|]; [|now rewrite set_m_id].
    destruct (x_task x), (x_cur x) as [[[? ?] ?]|], (x_respq x); try discriminate; now rewrite set_m_id.
  - intros H. rewrite (load_dis _ H), set_fwd_id. reflexivity.
  - intros H. rewrite (xfer_dis _ H), set_fwd_id. reflexivity.
  - intros H. rewrite (load_dis _ H), set_b_id. reflexivity.
  - intros H. rewrite (xfer_dis _ H), set_b_id. reflexivity.
  - destruct (act (y_s y)) as [k|r s|s|]; auto; try discriminate.
    + destruct (ch_snk (fwd y k)); auto; discriminate.
    + intros ->. reflexivity.
Qed.

(** changing the target changes neither the measure nor what can run *)
Definition ypok (f : S -> S) : Prop := forall s, pot (f s) = pot s /\ same_act (act s) (act (f s)).
Lemma ypoke_same y f : ypok f -> ymu (set_s y (f (y_s y))) = ymu y /\ forall o, y_en (set_s y (f (y_s y))) o = y_en y o.
Proof.
  intros H. destruct (H (y_s y)) as [H1 H2]. split; [pose proof (ymu_s y (f (y_s y))); lia|].
  intros [c|c|n| | | |i|i|k|k| | | |g]; try reflexivity. cbn [y_en set_s y_s].
  destruct (act (y_s y)) as [k|r s|s|] eqn:E1, (act (f (y_s y))) as [k'|r' s'|s'|] eqn:E2; cbn [same_act] in H2; try tauto; try reflexivity.
  subst k'. destruct k; reflexivity.
Qed.

Definition yok (o : yop C S) : Prop := match o with YIssue _ | YInit _ => False | YPoke f => ypok f | _ => True end.
Lemma y_ok_step y o : yok o -> ymu (fst (step y o)) < ymu y \/
  (ymu (fst (step y o)) = ymu y /\ forall o', y_en (fst (step y o)) o' = y_en y o').
Proof.
  intros H. destruct o as [c|c|n| | | |i|i|k|k| | | |f] eqn:Eo; cbn [yok] in H; try tauto;
    try (destruct (y_en y o) eqn:En; rewrite <- Eo; [left; apply y_en_lt; [subst o; exact I|exact En]|right; rewrite y_en_no; [split; auto|subst o; exact I|exact En]]).
  right. apply ypoke_same. exact H.
Qed.

Definition ybase (y : sys C E R S) : list (yop C S) :=
  [YStart 0; YGet; YSend; YRecv; YLoad true; YLoad false; YXfer true; YXfer false; YLoadB; YXferB; YSlave] ++
  map YCGet (seq 0 (length (m_ctxs (e_mgr (y_m y))))) ++ map YCResp (seq 0 (length (m_ctxs (e_mgr (y_m y))))).
Lemma ybase_int y : Forall internal (ybase y).
Proof.
  unfold ybase. apply Forall_app. split; [repeat (apply Forall_cons; [exact I|]); apply Forall_nil|].
  apply Forall_app. split; apply Forall_forall; intros o Ho; apply in_map_iff in Ho; destruct Ho as (i & <- & _); exact I.
Qed.
Lemma ybase_all y : (forall o, In o (ybase y) -> y_en y o = false) -> forall o, internal o -> y_en y o = false.
Proof.
  intros H [c|c|n| | | |i|i|k|k| | | |f] Hi; cbn [internal] in Hi; try tauto; try (apply H; apply in_or_app; left; cbn [In]; tauto).
  - assert (H0 : y_en y (YStart 0) = false) by (apply H; apply in_or_app; left; cbn [In]; tauto). cbn [y_en] in *. destruct (e_pend (y_m y)); [destruct n; reflexivity|discriminate].
  - destruct (Nat.lt_ge_cases i (length (m_ctxs (e_mgr (y_m y))))) as [Hl|Hl].
    + apply H. apply in_or_app. right. apply in_or_app. left. apply in_map, in_seq. lia.
    + cbn [y_en]. unfold can_cget. rewrite (proj2 (nth_error_None _ _)) by exact Hl. reflexivity.
  - destruct (Nat.lt_ge_cases i (length (m_ctxs (e_mgr (y_m y))))) as [Hl|Hl].
    + apply H. apply in_or_app. right. apply in_or_app. right. apply in_map, in_seq. lia.
    + cbn [y_en]. unfold can_cresp. rewrite (proj2 (nth_error_None _ _)) by exact Hl. reflexivity.
  - apply H. apply in_or_app. left. cbn [In]. destruct k; tauto.
  - apply H. apply in_or_app. left. cbn [In]. destruct k; tauto.
Qed.

Lemma yrun_at (sched : nat -> yop C S) y N : fst (run y (first_steps sched N)) = at_ (fun y o => fst (step y o)) sched y N.
Proof.
  induction N as [|N IH]; [reflexivity|]. rewrite first_steps_S, (y_run_app sends opens epat chk rtag ask idn kind act sin). cbn [at_]. rewrite <- IH.
  destruct (run y (first_steps sched N)) as [y1 l1]. cbn [y_run fst]. destruct (step y1 (sched N)) as [y2 l2]. reflexivity.
Qed.

Lemma y_stay y o : yok o -> (internal o -> y_en y o = false) -> forall o', y_en (fst (step y o)) o' = y_en y o'.
Proof.
  intros Hok H. destruct o as [c|c|n| | | |i|i|k|k| | | |f] eqn:Eo; cbn [yok] in Hok; try tauto;
    try (rewrite <- Eo in *; rewrite y_en_no; [reflexivity|subst o; exact I|apply H; subst o; exact I]).
  apply ypoke_same. exact Hok.
Qed.
Lemma y_ends (sched : nat -> yop C S) y : (forall m, yok (sched m)) -> (forall o, internal o -> forall n, exists m, n <= m /\ sched m = o) ->
  exists N, forall M, N <= M -> quiescent step (at_ (fun y o => fst (step y o)) sched y M).
Proof.
  intros Hok Hf.
  destruct (fair_ends (fun y o => fst (step y o)) y_en ymu internal yok ybase y_ok_step y_en_lt ybase_int ybase_all sched Hok Hf y_stay y) as [N HN].
  exists N. intros M HM o Ho. apply y_en_no; auto.
Qed.
Theorem y_completes (sched : nat -> yop C S) y : (forall m, yok (sched m)) -> fair internal sched ->
  exists N, forall M, N <= M -> quiescent step (fst (run y (first_steps sched M))).
Proof. intros Hok Hf. destruct (y_ends sched y Hok Hf) as [N HN]. exists N. intros M HM. rewrite yrun_at. auto. Qed.

(** every issued operation was started or waits for its wrapper task *)
Lemma y_submitted h : forall y, let '(y', l) := run y h in
  Permutation (ysubmitted h ++ e_pend (y_m y)) (xstarted l ++ e_pend (y_m y')).
Proof.
  induction h as [|o h IH]; intros y; [apply Permutation_refl|]. cbn [y_run].
  destruct (step y o) as [y1 l1] eqn:Es. specialize (IH y1). destruct (run y1 h) as [y2 l2].
  rewrite xstarted_app. cbn [ysubmitted flat_map]. fold (ysubmitted h).
  cut (Permutation ((match o with YIssue c | YInit c => [c] | _ => [] end) ++ e_pend (y_m y)) (xstarted l1 ++ e_pend (y_m y1))).
  { intros P. rewrite <- !app_assoc. rewrite (Permutation_app_swap_app _ (ysubmitted h)). rewrite P.
    rewrite (Permutation_app_swap_app (ysubmitted h)). rewrite IH. apply Permutation_refl. }
  assert (Hm : forall y0 o', y_m y0 = y_m y -> m_step sends opens epat chk rtag ask idn y0 o' = (y1, l1) ->
     match o' with PReset _ => False | _ => True end ->
     Permutation ((match o' with PIssue c | PInit c => [c] | _ => [] end) ++ e_pend (y_m y)) (xstarted l1 ++ e_pend (y_m y1))).
  { intros y0 o' Ey. unfold m_step. rewrite Ey. destruct (xstep (y_m y) o') as [m os] eqn:Em. intros Q Hr. injection Q as <- <-.
    cbn [set_m y_m]. destruct o' as [c|c|n| | |r|i|i|b]; cbn [x_step] in Em; try tauto.
    - injection Em as <- <-. reflexivity.
    - injection Em as <- <-. cbn [x_set_pend e_pend]. rewrite Permutation_app_comm. reflexivity.
    - destruct (nth_error (e_pend (y_m y)) n) as [c|] eqn:En; injection Em as <- <-; [|reflexivity].
      cbn [x_issue x_set_pend e_pend app xstarted]. apply nth_split_perm. exact En.
    - destruct (e_wtask (y_m y)), (e_cur (y_m y)), (e_q (y_m y)); try (injection Em as <- <-; reflexivity).
      destruct (x_choose _ _ _ _) as [t id]. unfold x_go in Em. destruct (sends _ _); injection Em as <- <-; reflexivity.
    - destruct (e_wtask (y_m y)), (e_cur (y_m y)) as [[[c t] [|e l]]|]; try (injection Em as <- <-; reflexivity).
      unfold x_go in Em. destruct l; injection Em as <- <-; reflexivity.
    - destruct (e_rtask (y_m y)); try (injection Em as <- <-; reflexivity). unfold x_resp in Em. destruct (0 <? _)%Z; injection Em as <- <-; reflexivity.
    - destruct (nth_error _ i) as [x|]; [|injection Em as <- <-; reflexivity].
      destruct (x_task x), (x_cur x), (x_cmdq x); try (injection Em as <- <-; reflexivity).
      unfold x_ctx in Em. destruct (Nat.leb _ _); injection Em as <- <-; reflexivity.
    - destruct (nth_error _ i) as [x|]; [|injection Em as <- <-; reflexivity].
      destruct (x_task x), (x_cur x) as [[[c bid] got]|], (x_respq x); try (injection Em as <- <-; reflexivity).
      destruct (_ && _); [|injection Em as <- <-; reflexivity].
      unfold x_ctx in Em. destruct (Nat.leb _ _); injection Em as <- <-; reflexivity. }
  destruct o as [c|c|n| | | |i|i|k|k| | | |f]; cbn [y_step] in Es;
    try (apply (Hm y _ eq_refl) in Es; [exact Es|exact I]);
    try (injection Es as <- <-; try destruct k; reflexivity).
  - destruct (e_wtask (y_m y)); try (injection Es as <- <-; reflexivity). destruct (next_send (y_m y)) as [e|]; [|injection Es as <- <-; reflexivity].
    destruct (q_room _); [|injection Es as <- <-; reflexivity].
    apply Hm in Es; [exact Es| |exact I]. unfold set_fwd. destruct (kind e); reflexivity.
  - destruct (e_rtask (y_m y)), (ch_snk (y_b y)) as [|r q]; try (injection Es as <- <-; reflexivity).
    apply Hm in Es; [exact Es|reflexivity|exact I].
  - destruct (act (y_s y)) as [k|r s|s|]; try (injection Es as <- <-; reflexivity).
    + destruct (ch_snk (fwd y k)); injection Es as <- <-; [reflexivity|]. destruct k; reflexivity.
    + destruct (q_room _); injection Es as <- <-; reflexivity.
Qed.

(** no operation is left: the master is idle *)
Lemma axi_idle s0 h : let '(y, l) := run (sys_init s0) h in
  length (xcompleted l) = length (xstarted l) -> e_inflight (y_m y) = 0%Z /\ e_idle (y_m y) = true.
Proof.
  clear Hwait Hemit Htau Hswt pot wt swt.
  pose proof (y_run_m sends opens epat chk rtag ask idn kind act sin s0 h) as M. destruct (run (sys_init s0) h) as [y l].
  destruct M as (hm & M1 & M2). pose proof (pinv_run sends opens epat chk rtag ask idn hm) as P. rewrite M1 in P.
  destruct P as (_ & P2 & P3 & P4). intros Hl. apply Permutation_length in P2. rewrite !app_length in P2. unfold done_ops in P2. rewrite map_length in P2.
  unfold zlen in P3. assert (e_inflight (y_m y) = 0%Z) by lia. split; auto. rewrite P4, H. reflexivity.
Qed.
End Live.
