(** The AXI systems (M_sys.v, M_axisys.v) with another numbering of the contexts. *)
From Coq Require Import ZArith Lia List Bool Permutation.
From Coq Require Import ZifyBool ZifyNat.
From Verif Require Import Py M_axi M_liteeng M_axieng P_liteeng P_axitag P_ren M_sys S_sys M_litesys S_litesys M_axisys S_axisys M_literw S_live P_clk P_clkrw.
Import ListNotations.
Open Scope Z_scope.

Section Ax.
Context {C E R S : Type}.
Variable sends : C -> Z -> list E.
Variable opens : E -> bool.
Variable epat : E -> list bool.
Variable chk : bool -> R -> bool.
Variable rtag : R -> Z.
Variable ask : C -> option Z.
Variable idn : Z.
Variable kind : E -> bool.
Variable act : S -> sact R S.
Variable sin : S -> E -> S.
Notation xstep := (x_step sends opens epat chk rtag ask idn).
Notation ystep := (y_step sends opens epat chk rtag ask idn kind act sin).
Notation yrun := (y_run sends opens epat chk rtag ask idn kind act sin).

Definition wm (s : xeng C E R) (m : mgr C R) : xeng C E R := x_mgr s m (e_act s) (e_inflight s) (e_idle s).

Lemma x_ctx_upd (s : xeng C E R) i x c bid got cmdq respq act' :
  x_ctx s i x c bid got cmdq respq act' =
  let b := Nat.leb (length (snd c)) (length got) in
  let x' := {| x_tag := x_tag x; x_cmdq := cmdq; x_cur := if b then None else Some (c, bid, got); x_respq := respq; x_task := x_task x |} in
  (x_mgr s (upd (e_mgr s) i x' b) act' (if b then e_inflight s - 1 else e_inflight s) (if b then (if e_inflight s - 1 =? 0 then true else e_idle s) else e_idle s),
   if b then [XDone (fst c) bid got] else []).
Proof. unfold x_ctx, upd. cbv zeta. destruct (Nat.leb (length (snd c)) (length got)); reflexivity. Qed.

(** the task of a context goes on in both *)
Lemma upd_sim m1 m2 t i j (x' : ctx C R) b : msim m1 m2 -> In (t, i) (m_map m1) -> In (t, j) (m_map m2) ->
  x_tag x' = Some t -> x_task x' <> TNone -> (b = true -> x_cur x' = None /\ x_task x' <> TCrash) ->
  match x_cur x' with Some (_, bid, _) => bid = Some t | None => True end ->
  msim (upd m1 i x' b) (upd m2 j x' b) /\ keeps m1 (upd m1 i x' b) /\ keeps m2 (upd m2 j x' b).
Proof.
  intros (W1 & W2 & Q1 & Q2 & V) Hi Hj H1 H2 H3 H4.
  destruct (upd_view m1 t i x' b W1 Q1 Hi H1 H2 H3 H4) as (A1 & A2 & A3 & A4), (upd_view m2 t j x' b W2 Q2 Hj H1 H2 H3 H4) as (B1 & B2 & B3 & B4).
  split; [|split]; auto. split; [|split; [|split; [|split]]]; auto. intros u. rewrite A4, B4. now apply upv_ext.
Qed.

(** no step of a context that does not belong to a tag *)
Lemma unmapped_get (s : xeng C E R) i : mwf (e_mgr s) -> mapped (e_mgr s) i = false -> xstep s (PCGet i) = (s, []) /\ xstep s (PCResp i) = (s, []).
Proof.
  intros W H. cbn [x_step]. destruct (nth_error (m_ctxs (e_mgr s)) i) as [x|] eqn:En; [|auto].
  destruct (unmapped_idle _ i x W H En) as (_ & _ & _ & E1 & E2 & E3). rewrite E1, E2. destruct (x_task x); auto.
Qed.

Definition is_cop (o : xop C R) : Prop := match o with PCGet _ | PCResp _ | PReset _ => True | _ => False end.
Lemma x_plain (s : xeng C E R) m o : msim (e_mgr s) m -> ~ is_cop o -> let '(s', os) := xstep s o in
  exists m', xstep (wm s m) o = (wm s' m', os) /\ msim (e_mgr s') m' /\ keeps (e_mgr s) (e_mgr s') /\ keeps m m'.
Proof.
  intros HM Ho. pose proof HM as (W1 & W2 & Q1 & Q2 & V). assert (Hsame : exists m', (wm s m, @nil (xout C E R)) = (wm s m', []) /\ msim (e_mgr s) m' /\ keeps (e_mgr s) (e_mgr s) /\ keeps m m') by (exists m; auto using keeps_refl).
  destruct o as [c|c|n| | |r|i|i|b]; try (exfalso; apply Ho; exact I); cbn [x_step].
  - exists m. auto using keeps_refl.
  - exists m. auto using keeps_refl.
  - change (e_pend (wm s m)) with (e_pend s). destruct (nth_error (e_pend s) n); [|exact Hsame]. exists m. auto using keeps_refl.
  - change (e_wtask (wm s m)) with (e_wtask s). change (e_cur (wm s m)) with (e_cur s). change (e_q (wm s m)) with (e_q s).
    destruct (e_wtask s); try exact Hsame. destruct (e_cur s); try exact Hsame. destruct (e_q s) as [|c q]; try exact Hsame.
    change (x_choose ask idn (wm s m) c) with (x_choose ask idn s c). destruct (x_choose ask idn s c) as [t id']. unfold x_go.
    destruct (sends c t) as [|e l].
    + exists (start_cmd m t (c, flat_map epat [])). split; [reflexivity|]. split; [now apply start_cmd_sim|]. split; now apply start_cmd_view.
    + exists m. auto using keeps_refl.
  - change (e_wtask (wm s m)) with (e_wtask s). change (e_cur (wm s m)) with (e_cur s).
    destruct (e_wtask s); try exact Hsame. destruct (e_cur s) as [[[c t] [|e l]]|]; try exact Hsame. unfold x_go.
    destruct l as [|e' l].
    + exists (start_cmd m t (c, flat_map epat (sends c t))). split; [reflexivity|]. split; [now apply start_cmd_sim|]. split; now apply start_cmd_view.
    + exists m. auto using keeps_refl.
  - change (e_rtask (wm s m)) with (e_rtask s). destruct (e_rtask s); try exact Hsame. unfold x_resp. change (e_act (wm s m)) with (e_act s).
    destruct (0 <? e_act s (rtag r)).
    + exists (put_resp m (rtag r) r). split; [reflexivity|]. split; [now apply put_resp_sim|]. split; now apply put_resp_view.
    + exists m. auto using keeps_refl.
Qed.

Lemma x_ctxstep (s : xeng C E R) m t i j o o' : msim (e_mgr s) m -> In (t, i) (m_map (e_mgr s)) -> In (t, j) (m_map m) -> X m j = X (e_mgr s) i ->
  (o = PCGet i /\ o' = PCGet j \/ o = PCResp i /\ o' = PCResp j) ->
  let '(s', os) := xstep s o in
  exists m', xstep (wm s m) o' = (wm s' m', os) /\ msim (e_mgr s') m' /\ keeps (e_mgr s) (e_mgr s') /\ keeps m m'.
Proof.
  intros HM Hi Hj HX Ho. pose proof HM as (W1 & W2 & Q1 & Q2 & V). assert (Hsame : exists m', (wm s m, @nil (xout C E R)) = (wm s m', []) /\ msim (e_mgr s) m' /\ keeps (e_mgr s) (e_mgr s) /\ keeps m m') by (exists m; auto using keeps_refl).
  pose proof (in_nth _ t i W1 Hi) as N1. pose proof (in_nth _ t j W2 Hj) as N2. rewrite HX in N2.
  destruct (wf_map _ W1 _ _ Hi) as (T1 & T2 & T3).
  assert (G : forall c bid got cmdq respq act', bid = Some t -> x_task (X (e_mgr s) i) = TRun ->
    let '(s', os) := x_ctx s i (X (e_mgr s) i) c bid got cmdq respq act' in
    exists m', x_ctx (wm s m) j (X (e_mgr s) i) c bid got cmdq respq act' = (wm s' m', os) /\ msim (e_mgr s') m' /\ keeps (e_mgr s) (e_mgr s') /\ keeps m m').
  { intros c bid got cmdq respq act' Hb Hr. rewrite !x_ctx_upd. cbv zeta. set (b := Nat.leb _ _). set (x' := {| x_tag := _ |}).
    exists (upd m j x' b). split; [reflexivity|]. cbn [e_mgr x_mgr]. apply (upd_sim (e_mgr s) m t); auto; cbn.
    - intros ->. split; [reflexivity|congruence].
    - destruct b; auto. }
  destruct Ho as [[-> ->]|[-> ->]]; cbn [x_step]; change (e_mgr (wm s m)) with m; rewrite N1, N2.
  - destruct (x_task (X (e_mgr s) i)) eqn:Et; try exact Hsame. destruct (x_cur (X (e_mgr s) i)); try exact Hsame. destruct (x_cmdq (X (e_mgr s) i)) as [|c q]; try exact Hsame.
    change (e_act (wm s m)) with (e_act s). apply G; auto.
  - destruct (x_task (X (e_mgr s) i)) eqn:Et; try exact Hsame. destruct (x_cur (X (e_mgr s) i)) as [[[c bid] got]|] eqn:Ec; try exact Hsame.
    destruct (x_respq (X (e_mgr s) i)) as [|r q]; try exact Hsame. change (e_act (wm s m)) with (e_act s). destruct (_ && _); [apply G; auto|].
    set (x' := {| x_tag := _ |}). exists (upd m j x' false). split; [reflexivity|]. cbn [e_mgr x_mgr]. change (mgr_set (e_mgr s) i x') with (upd (e_mgr s) i x' false).
    apply (upd_sim (e_mgr s) m t); auto; cbn; try discriminate.
Qed.

(** ** a half *)
Definition wmy (y : sys C E R S) (m : mgr C R) : sys C E R S := set_m y (wm (y_m y) m).
Definition ren (y : sys C E R S) (m : mgr C R) (o : yop C S) : list (yop C S) :=
  match o with YCGet i => map YCGet (tr_idx (e_mgr (y_m y)) m i) | YCResp i => map YCResp (tr_idx (e_mgr (y_m y)) m i) | o => [o] end.
Notation ymgr y := (e_mgr (y_m y)).

Lemma y_plain y m p : msim (ymgr y) m -> ~ is_cop p -> let '(y', os) := m_step sends opens epat chk rtag ask idn y p in
  exists m', m_step sends opens epat chk rtag ask idn (wmy y m) p = (wmy y' m', os) /\ msim (ymgr y') m' /\ keeps (ymgr y) (ymgr y') /\ keeps m m'.
Proof.
  intros H Hp. unfold m_step. pose proof (x_plain (y_m y) m p H Hp) as K. change (y_m (wmy y m)) with (wm (y_m y) m). destruct (xstep (y_m y) p) as [s' os].
  destruct K as (m' & K & K2). exists m'. rewrite K. split; [reflexivity|exact K2].
Qed.
Lemma ren_step y m o : msim (ymgr y) m -> let '(y', os) := ystep y o in
  exists m', yrun (wmy y m) (ren y m o) = (wmy y' m', os) /\ msim (ymgr y') m' /\ keeps (ymgr y) (ymgr y') /\ keeps m m'.
Proof.
  intros H. pose proof H as (W1 & W2 & _).
  assert (Hcop : forall i o1 o2 p1, o1 = m_step sends opens epat chk rtag ask idn y (p1 i) -> (p1 = PCGet /\ o2 = YCGet \/ p1 = PCResp /\ o2 = YCResp) -> let '(y', os) := o1 in
    exists m', yrun (wmy y m) (map o2 (tr_idx (ymgr y) m i)) = (wmy y' m', os) /\ msim (ymgr y') m' /\ keeps (ymgr y) (ymgr y') /\ keeps m m').
  { intros i o1 o2 p1 E1 Ho. destruct (mapped (ymgr y) i) eqn:Em.
    - apply mapped_in in Em. destruct Em as (t & Hi). destruct (tr_mapped _ _ t i H Hi) as (j & Hj & HX & ->).
      pose proof (x_ctxstep (y_m y) m t i j (p1 i) (p1 j) H Hi Hj HX) as K. cbn [map]. rewrite yrun_one.
      assert (E2 : ystep (wmy y m) (o2 j) = m_step sends opens epat chk rtag ask idn (wmy y m) (p1 j)) by (destruct Ho as [[-> ->]|[-> ->]]; reflexivity).
      rewrite E2. unfold m_step in *. change (y_m (wmy y m)) with (wm (y_m y) m). subst o1. destruct (xstep (y_m y) (p1 i)) as [s' os].
      destruct K as (m' & K & K2); [destruct Ho as [[-> _]|[-> _]]; auto|]. exists m'. rewrite K. split; [reflexivity|exact K2].
    - rewrite (tr_unmapped _ _ i W1 Em). cbn [map y_run]. destruct (unmapped_get (y_m y) i W1 Em) as [U1 U2]. unfold m_step in E1.
      assert (U : xstep (y_m y) (p1 i) = (y_m y, [])) by (destruct Ho as [[-> _]|[-> _]]; auto). rewrite U in E1. subst o1.
      exists m. split; [destruct y; reflexivity|]. auto using keeps_refl. }
  assert (Hsame : exists m', (wmy y m, @nil (xout C E R)) = (wmy y m', []) /\ msim (ymgr y) m' /\ keeps (ymgr y) (ymgr y) /\ keeps m m') by (exists m; auto using keeps_refl).
  destruct o as [c|c|n| | | |i|i|k|k| | | |f]; cbn [ren]; try rewrite yrun_one; cbn [y_step];
    try (apply y_plain; [exact H|cbn; tauto]);
    try exact Hsame; try (exists m; split; [reflexivity|auto using keeps_refl]; fail).
  - change (y_m (wmy y m)) with (wm (y_m y) m). change (e_wtask (wm (y_m y) m)) with (e_wtask (y_m y)). change (next_send (wm (y_m y) m)) with (next_send (y_m y)).
    destruct (e_wtask (y_m y)); try exact Hsame. destruct (next_send (y_m y)) as [e|]; try exact Hsame.
    replace (fwd (wmy y m) (kind e)) with (fwd y (kind e)) by (destruct (kind e); reflexivity). destruct (q_room (ch_src (fwd y (kind e)))); [|exact Hsame].
    set (y1 := set_fwd y (kind e) (ch_push (fwd y (kind e)) e)). replace (set_fwd (wmy y m) (kind e) _) with (wmy y1 m) by (unfold y1; destruct (kind e); reflexivity).
    assert (Hm : y_m y1 = y_m y) by (unfold y1; destruct (kind e); reflexivity). rewrite <- Hm in H.
    pose proof (y_plain y1 m PSend H ltac:(cbn; tauto)) as K. rewrite Hm in K. exact K.
  - change (e_rtask (y_m (wmy y m))) with (e_rtask (y_m y)). change (y_b (wmy y m)) with (y_b y). destruct (e_rtask (y_m y)); try exact Hsame. destruct (ch_snk (y_b y)) as [|r q]; try exact Hsame.
    exact (y_plain (set_b y (ch_pop (y_b y) q)) m (PResp r) H ltac:(cbn; tauto)).
  - apply (Hcop i _ YCGet PCGet); auto.
  - apply (Hcop i _ YCResp PCResp); auto.
  - exists m. split; [destruct k; reflexivity|]. destruct k; auto using keeps_refl.
  - exists m. split; [destruct k; reflexivity|]. destruct k; auto using keeps_refl.
  - change (y_s (wmy y m)) with (y_s y). change (y_b (wmy y m)) with (y_b y). destruct (act (y_s y)) as [k|r s|s|]; try exact Hsame.
    + replace (fwd (wmy y m) k) with (fwd y k) by (destruct k; reflexivity). destruct (ch_snk (fwd y k)); [exact Hsame|]. exists m. split; [destruct k; reflexivity|]. destruct k; auto using keeps_refl.
    + destruct (q_room (ch_src (y_b y))); [|exact Hsame]. exists m. split; [reflexivity|auto using keeps_refl].
    + exists m. split; [reflexivity|auto using keeps_refl].
Qed.
Lemma ren_all (P : yop C S -> Prop) y m o : (forall o, internal o -> P o) -> P o -> Forall P (ren y m o).
Proof.
  intros HP H. destruct o; cbn [ren]; try (constructor; auto; fail); apply Forall_map; apply Forall_forall; intros j _; apply HP; exact I.
Qed.
Lemma ren_submitted y m o : ysubmitted (ren y m o) = ysubmitted [o].
Proof. destruct o; try reflexivity; cbn [ren]; induction (tr_idx (ymgr y) m i); cbn; auto. Qed.
End Ax.
