(** C74: pause generators. *)
From Coq Require Import ZArith List Bool.
From Verif Require Import Py M_stream S_stream M_axisframe M_axis S_axis S_axisrun M_pgen S_pgen P_pgen.
Import ListNotations.
Open Scope Z_scope.

Definition src_clk {A} (o : sop A) : bool := match o with SEdge _ => true | _ => false end.
Definition src_ip {A} (o : sop A) : bool := match o with SPause _ => true | _ => false end.
Definition snk_clk {A} (o : kev A) : bool := match o with KClkE _ _ => true | _ => false end.
Definition snk_ip {A} (o : kev A) : bool := match o with KOp (KPause _) => true | _ => false end.
Definition snk_setp {A} (b : bool) : kev A := KOp (KPause b).
Definition asrc_clk (o : aop) : bool := match o with AEdge _ => true | _ => false end.
Definition asrc_ip (o : aop) : bool := match o with APause _ => true | _ => false end.
Definition asnk_clk (o : zev) : bool := match o with ZClkE _ _ => true | _ => false end.
Definition asnk_ip (o : zev) : bool := match o with ZOp (ZPause _) => true | _ => false end.
Definition asnk_setp (b : bool) : zev := ZOp (ZPause b).
Definition apb_clk (o : pop) : bool := match o with PEdge => true | _ => false end.
Definition apb_ip (o : pop) : bool := match o with PSet _ => true | _ => false end.

Lemma src_keep {A} hr (s : src A) o : src_ip o = false -> s_pause (src_step hr s o) = s_pause s.
Proof.
  destruct o as [x|b|n| |[]|r]; try discriminate; intros _; cbn [src_step]; auto; [now destruct (src_full s)|]. unfold src_edge. destruct (s_task s); auto.
  destruct (_ || _); auto. destruct (s_q s); auto. now destruct (negb (s_pause s)).
Qed.
Lemma snk_keep {A} hr (s : snk A) o : snk_ip o = false -> k_pause (kev_step hr s o) = k_pause s.
Proof.
  destruct o as [o|v d|]; [destruct o as [b|n| | |[]|]|intros _|]; try discriminate; auto; try (intros _; cbn; now destruct (k_q s)).
  cbn [kev_step]. unfold snk_edge. now destruct (k_task (snk_run s)).
Qed.
Lemma asrc_keep c s o : asrc_ip o = false -> a_pause (asrc_step c s o) = a_pause s.
Proof.
  destruct o as [t f|b|lb lf| |[]|r]; try discriminate; intros _; cbn [asrc_step]; auto; [now destruct (asrc_full s)|]. unfold asrc_edge. destruct (a_task s); auto.
  destruct (_ || _); auto. assert (HF : forall s1, asrc_fetch s = Ok s1 -> a_pause s1 = a_pause s).
  { unfold asrc_fetch. destruct (ftrue (a_cur s)); [intros s1 [= <-]; auto|]. destruct (a_q s) as [|[t f] q]; [intros s1 [= <-]; auto|]. destruct (normalize f); intros s1 E; [now injection E as <-|discriminate]. }
  destruct (asrc_fetch s) as [s1|]; [|reflexivity]. specialize (HF s1 eq_refl). destruct (a_cur s1) as [[[t f] fo]|]; [|exact HF].
  destruct (_ && _); [|exact HF]. unfold asrc_drive. now destruct (drive_beat c f fo) as [[b fo'] fin].
Qed.
Lemma asnk_keep c s o : asnk_ip o = false -> z_pause (zev_step c s o) = z_pause s.
Proof.
  destruct o as [o|v b|]; [destruct o as [b|lb lf|r| |[]|]|intros _|]; try discriminate; auto.
  - intros _. cbn. unfold asnk_recv. destruct r; destruct (z_q s); auto; try (destruct (read_all _ _ _); reflexivity). now destruct (z_readq s).
  - cbn [zev_step]. unfold asnk_edge. destruct (z_task (asnk_run s)); auto. destruct (_ && v); [|reflexivity]. now destruct (rx_beat c _ b).
Qed.
Lemma apb_keep (s : bool) o : apb_ip o = false -> pop_step s o = s.
Proof. now destruct o. Qed.

(** ** the generator is followed cycle by cycle, whatever other generators there were before *)
Theorem C74_follows :
  (forall A hr, follows (src_step (A := A) hr) s_pause src_clk src_ip SPause) /\
  (forall A hr, follows (kev_step (A := A) hr) k_pause snk_clk snk_ip snk_setp) /\
  (forall c, follows (asrc_step c) a_pause asrc_clk asrc_ip APause) /\
  (forall c, follows (zev_step c) z_pause asnk_clk asnk_ip asnk_setp) /\
  follows pop_step (fun p => p) apb_clk apb_ip PSet.
Proof.
  split; [|split; [|split; [|split]]].
  - intros A hr. apply all_follows; auto. apply src_keep.
  - intros A hr. apply all_follows; auto. apply snk_keep.
  - intros c. apply all_follows; auto. apply asrc_keep.
  - intros c. apply all_follows; auto. apply asnk_keep.
  - apply all_follows; auto. apply apb_keep.
Qed.
Print Assumptions C74_follows.

(** a source with a first generator, replaced after an edge by one that yields 0 1 1 and ends; edges find its values, a task that runs first is one ahead *)
Definition g_of (l : list bool) : gen := fun i => nth_error l i.
Definition c74_h0 : list (gop (sop Z)) := [GSet (Some (fun _ => Some true)); GOp (SSend 5); GClk false (SEdge true)].
Definition c74_h : list (gop (sop Z)) := [GRun; GOp (SSend 6); GClk false (SEdge true); GClk false (SEdge true); GClk true (SEdge true); GClk false (SEdge true); GClk false (SEdge true)].
Example C74_follows_ex :
  let '(p, os0) := pg_run SPause pg_init c74_h0 in
  let s := fold_left (src_step true) os0 src_init in
  s_pause s = true /\ no_set c74_h /\ Forall (well src_clk src_ip false) c74_h /\
  edges (src_step true) s_pause src_clk s (snd (pg_run SPause p (GSet (Some (g_of [false; true; true])) :: c74_h))) = [false; true; true; true; true].
Proof. vm_compute. repeat split; repeat constructor; intros; discriminate. Qed.

(** ** an assignment of the user to pause holds until the next edge *)
Theorem C74_generator_wins :
  (forall A hr, wins (src_step (A := A) hr) s_pause src_clk src_ip SPause) /\
  (forall A hr, wins (kev_step (A := A) hr) k_pause snk_clk snk_ip snk_setp) /\
  (forall c, wins (asrc_step c) a_pause asrc_clk asrc_ip APause) /\
  (forall c, wins (zev_step c) z_pause asnk_clk asnk_ip asnk_setp) /\
  wins pop_step (fun p => p) apb_clk apb_ip PSet.
Proof.
  split; [|split; [|split; [|split]]].
  - intros A hr. apply all_wins; auto. apply src_keep.
  - intros A hr. apply all_wins; auto. apply snk_keep.
  - intros c. apply all_wins; auto. apply asrc_keep.
  - intros c. apply all_wins; auto. apply asnk_keep.
  - apply all_wins; auto. apply apb_keep.
Qed.
Print Assumptions C74_generator_wins.
Example C74_generator_wins_ex :
  let h := [GClk false (SEdge true); GOp (SPause false); GOp (SPause true)] in
  let go l := s_pause (fold_left (src_step true) (snd (pg_run SPause pg_init (GSet (Some (g_of [true; true; false])) :: l))) (src_init (A := Z))) in
  Forall (well src_clk (src_ip (A := Z)) true) h /\ go h = true /\ go (removelast h) = false /\ go (h ++ [GClk true (SEdge true)]) = false.
Proof. vm_compute. repeat split; repeat constructor; intros; discriminate. Qed.

(** ** clear_pause_generator(): from then on only the user assigns to pause *)
Theorem C74_cleared : (forall A, cleared (SPause (A := A))) /\ (forall A, cleared (snk_setp (A := A))) /\ cleared APause /\ cleared asnk_setp /\ cleared PSet.
Proof. split; [|split; [|split; [|split]]]; intros; apply all_cleared. Qed.
Print Assumptions C74_cleared.

(** ... so that a component stays paused for good if the generator's last value was true: a source never sends, a sink never becomes ready *)
Theorem C74_clear_unpauses_refuted :
  (exists h0 : list (gop (sop Z)), forall n,
     let os := snd (pg_run SPause pg_init (h0 ++ GSet None :: repeat (GClk false (SEdge true)) n)) in
     let s := fold_left (src_step true) os src_init in s_q s = [7] /\ s_valid s = false) /\
  (exists h0 : list (gop (kev Z)), forall n,
     let os := snd (pg_run snk_setp pg_init (h0 ++ GSet None :: repeat (GClk false (KClkE true 9)) n)) in
     let k := fold_left (kev_step true) os (snk_init (-1)) in k_q k = [] /\ k_ready k = false).
Proof.
  split.
  - exists [GSet (Some (g_of [true])); GRun; GOp (SSend 7)]. intros n.
    assert (E : snd (pg_run SPause pg_init ([GSet (Some (g_of [true])); GRun; GOp (SSend 7)] ++ GSet None :: repeat (GClk false (SEdge true)) n)) = SPause true :: SSend 7 :: repeat (SEdge true) n).
    { cbn. pose proof (none_run (SPause (A := Z)) (repeat (GClk false (SEdge true)) n) false) as H. rewrite (surjective_pairing (pg_run _ _ _)). cbn [snd]. rewrite H.
      - do 2 f_equal. induction n; cbn; auto. f_equal. apply IHn. intros _. clear. apply none_run. clear. induction n; auto.
      - clear. induction n; auto. }
    cbv zeta. rewrite E. cbn [fold_left]. set (s := src_step true (src_step true src_init (SPause true)) (SSend 7)).
    assert (Hs : s_q s = [7] /\ s_valid s = false /\ s_pause s = true /\ s_task s = TEdge) by (repeat split). clearbody s. clear E. revert s Hs.
    induction n as [|n IH]; intros s (H1 & H2 & H3 & H4); cbn [repeat fold_left]; [auto|]. apply IH. cbn [src_step]. unfold src_edge. rewrite H1, H2, H3, H4. cbn. auto.
  - exists [GSet (Some (g_of [true])); GRun]. intros n.
    assert (E : snd (pg_run snk_setp pg_init ([GSet (Some (g_of [true])); GRun] ++ GSet None :: repeat (GClk false (KClkE true 9)) n)) = KOp (KPause true) :: repeat (KClkE true 9) n).
    { cbn. pose proof (none_run (snk_setp (A := Z)) (repeat (GClk false (KClkE true 9)) n) false) as H. rewrite (surjective_pairing (pg_run _ _ _)). cbn [snd]. rewrite H.
      - f_equal. induction n; cbn; auto. f_equal. apply IHn. intros _. clear. apply none_run. clear. induction n; auto.
      - clear. induction n; auto. }
    cbv zeta. rewrite E. cbn [fold_left]. set (k := kev_step true (snk_init (-1)) (KOp (KPause true))).
    assert (Hk : k_q k = [] /\ k_ready k = false /\ k_pause k = true /\ match k_task k with KEdge _ false | KDead => False | _ => True end) by (repeat split). clearbody k. clear E. revert k Hk.
    induction n as [|n IH]; intros k (H1 & H2 & H3 & H4); cbn [repeat fold_left]; [auto|]. apply IH. cbn [kev_step]. unfold snk_edge, snk_run. cbn [k_task k_q k_ready k_pause k_limit k_wake].
    rewrite H1, H2, H3. destruct (k_task k) as [| |nl|nl ps|]; cbn; try tauto; rewrite ?H1, ?H2, ?H3; unfold st_full; cbn; rewrite ?andb_false_r; cbn; auto.
    + destruct (_ || true) eqn:X; [|now rewrite orb_true_r in X]. cbn. destruct (k_wake k); auto.
    + destruct (_ || true) eqn:X; [|now rewrite orb_true_r in X]. cbn. destruct nl; auto.
    + destruct ps; [|tauto]. destruct (_ || true) eqn:X; [|now rewrite orb_true_r in X]. cbn. destruct nl; auto.
Qed.
Print Assumptions C74_clear_unpauses_refuted.
Example C74_cleared_ex :
  snd (pg_run SPause pg_init [GSet (Some (fun i => Some (Nat.even i))); GClk false (SEdge true); GClk false (SEdge true); GSet None; GClk true (SEdge true); GOp (SPause false); GClk false (SEdge true)]) =
  [SPause true; SEdge true; SPause false; SEdge true; SPause true; SEdge true; SPause false; SEdge (A := Z) true].
Proof. vm_compute. reflexivity. Qed.
