(** AXI stream components: stability (C37), bounds (C39), readiness (C40), monitors (C41), delivery
    (C45), tx_complete (C46), counters (C47), byte reads (C49). *)
From Coq Require Import ZArith Lia List Bool Permutation.
From Coq Require Import ZifyBool ZifyNat.
From Verif Require Import Py M_stream M_axisframe M_axis S_axis S_axisrun P_axisframe P_axis P_axischan T_axisframe.
Import ListNotations.
Open Scope Z_scope.

Definition abus := {| x_lanes := 2; x_bsize := 8; x_ready := true; x_last := true; x_keep := true; x_id := true; x_dest := false; x_user := false |}.
Definition aframe d := {| f_ba := true; f_data := d; f_keep := None; f_id := SInt 3; f_dest := SNone; f_user := SNone |}.

(* ------------------------------------------------------------------ *)
(** * C37 *)

Theorem C37_axis_source_stable : forall c s o, a_valid s = true ->
  o <> AReset true -> (forall r, o = AEdge r -> x_ready c = true /\ r = false) ->
  a_valid (asrc_step c s o) = true /\ a_beat (asrc_step c s o) = a_beat s.
Proof.
  intros c s o Hv Hr He. destruct o as [t f|b|lb lf| |b|r]; cbn [asrc_step]; auto.
  - destruct (asrc_full s); auto.
  - destruct b; [congruence|]. auto.
  - destruct (He r eq_refl) as [H1 ->]. unfold asrc_edge. destruct (a_task s); auto. rewrite H1, Hv. auto.
Qed.
Print Assumptions C37_axis_source_stable.

(** until a clock edge with ready, whatever the user does in the meantime *)
Theorem C37_axis_source_stable_history : forall c s ops, x_ready c = true -> a_valid s = true ->
  Forall (fun o => o <> AReset true /\ o <> AEdge true) ops ->
  let s' := fold_left (asrc_step c) ops s in a_valid s' = true /\ a_beat s' = a_beat s.
Proof.
  intros c s ops Hc Hv H. revert s Hv. induction H as [|o ops [H1 H2] _ IH]; intros s Hv; cbn [fold_left]; [auto|].
  destruct (C37_axis_source_stable c s o Hv H1) as [E1 E2].
  - intros [|] ->; [congruence|auto].
  - cbv zeta in *. destruct (IH _ E1) as [E3 E4]. rewrite E4. auto.
Qed.
Print Assumptions C37_axis_source_stable_history.

Example C37_axis_example :
  let s := fold_left (asrc_step abus) [ASend 1 (aframe [10; 20; 30]); AEdge false] (asrc_init (-1) (-1)) in
  a_valid s = true /\ b_data (a_beat s) = 10 + 256 * 20 /\ b_last (a_beat s) = false /\
  b_data (a_beat (fold_left (asrc_step abus) [AEdge true] s)) = 30 /\ b_keep (a_beat (fold_left (asrc_step abus) [AEdge true] s)) = 1.
Proof. vm_compute. repeat split. Qed.

(* ------------------------------------------------------------------ *)
(** * C39 *)

Lemma zev_ind (P : asnk -> Prop) c : forall l k, P k -> (forall e k, In e l -> P k -> P (zev_step c k e)) -> P (zev_run c k l).
Proof.
  induction l as [|e l IH]; intros k Hk Hs; [exact Hk|]. apply IH; [apply Hs; [now left|auto]|]. intros e' k' Hi. apply Hs. now right.
Qed.

Theorem C39_axis_sink_bound : forall c limb L l, x_ready c = true -> 0 < L ->
  (forall a b, ~ In (ZOp (ZLimits a b)) l) ->
  let k := zev_run c (asnk_init limb L) l in
  zlen (z_q k) <= L + 1 /\ (z_ready k = true -> zlen (z_q k) <= L).
Proof.
  intros c limb L l Hr HL Hn. cbv zeta.
  enough (H : zbound L (zev_run c (asnk_init limb L) l)) by (destruct H; tauto).
  apply zev_ind.
  - split; [reflexivity|]. split; [split; reflexivity|]. cbn. change (zlen (@nil frame)) with 0. split; lia.
  - intros e k Hi Hk. destruct e as [o|v b|]; cbn [zev_step].
    + apply zbound_step; auto. intros x y ->. exact (Hn _ _ Hi).
    + now apply zbound_edge.
    + exact Hk.
Qed.
Print Assumptions C39_axis_sink_bound.

(** the bound L + 1 is reached, for every limit: the limit is exceeded by one frame *)
Lemma fill_step c k b : x_ready c = true -> x_last c = true -> b_last b = true -> 0 < z_limf k -> z_limb k <= 0 ->
  z_pause k = false -> z_task k = KEdge false false -> z_ready k = true -> snk_counts k -> zlen (z_q k) <= z_limf k ->
  let k' := asnk_edge c k true b in
  zlen (z_q k') = zlen (z_q k) + 1 /\ z_limf k' = z_limf k /\ z_limb k' = z_limb k /\ z_pause k' = false /\
  (zlen (z_q k') <= z_limf k -> z_task k' = KEdge false false /\ z_ready k' = true).
Proof.
  destruct k as [q p rq ob of lb lf ps w t r]. cbn [z_limf z_limb z_pause z_task z_ready z_q]. intros Hr Hl Hb HL HB -> -> -> [C1 C2] Hq. cbv zeta. cbn [z_occf z_occb z_q] in C1, C2.
  unfold asnk_edge. cbn [asnk_run z_task z_ready z_part]. rewrite Hr. cbn [negb orb andb]. unfold rx_beat. rewrite Hl, Hb. cbn [negb orb].
  cbn [asnk_run z_q z_limf z_limb z_pause z_task z_ready z_occf z_occb]. rewrite zlen_app. change (zlen [_]) with 1.
  split; [reflexivity|]. do 3 (split; [reflexivity|]). intros Hle.
  assert (E : forall x, occ_full lb lf x (of + 1) = false).
  { intros x. unfold occ_full. assert (E1 : (0 <? lb) = false) by lia. rewrite E1. cbn [andb].
    assert (E2 : (0 <? lf) && (lf <? of + 1) = false) by lia. now rewrite E2. }
  rewrite E. cbn. auto.
Qed.

Theorem C39_axis_sink_bound_reached : forall c L, x_ready c = true -> x_last c = true -> 0 < L ->
  exists l, (forall a b, ~ In (ZOp (ZLimits a b)) l) /\ zlen (z_q (zev_run c (asnk_init (-1) L) l)) = L + 1.
Proof.
  intros c L Hr Hl HL.
  pose (bt := {| b_data := 0; b_keep := 1; b_id := 0; b_dest := 0; b_user := 0; b_last := true |}).
  assert (H : forall n, Z.of_nat n <= L -> let k := zev_run c (asnk_init (-1) L) (ZClkE false bt :: ZWakeE :: ZOp ZRun :: repeat (ZClkE true bt) n) in
    zlen (z_q k) = Z.of_nat n /\ z_limf k = L /\ z_limb k = -1 /\ z_pause k = false /\ z_task k = KEdge false false /\ z_ready k = true /\ snk_counts k).
  { induction n as [|n IH]; intros Hn.
    - cbv zeta. unfold zev_run. cbn [repeat fold_left zev_step]. unfold asnk_edge. cbn [asnk_run asnk_init z_task z_ready].
      rewrite Hr. cbn. assert (E : (L <? 0) = false) by lia. rewrite E, andb_false_r. cbn. split; [reflexivity|]. split; [reflexivity|]. repeat split.
    - specialize (IH ltac:(lia)). cbv zeta in *.
      replace (ZClkE false bt :: ZWakeE :: ZOp ZRun :: repeat (ZClkE true bt) (S n)) with
              ((ZClkE false bt :: ZWakeE :: ZOp ZRun :: repeat (ZClkE true bt) n) ++ [ZClkE true bt]).
      2:{ cbn [app]. do 3 f_equal. clear. induction n as [|n IH]; cbn; [reflexivity|]. now rewrite IH. }
      unfold zev_run in *. rewrite fold_left_app. set (k := fold_left (zev_step c) _ (asnk_init (-1) L)) in *.
      destruct IH as (I1 & I2 & I3 & I4 & I5 & I6 & I7). cbn [fold_left zev_step].
      destruct (fill_step c k bt Hr Hl eq_refl ltac:(lia) ltac:(lia) I4 I5 I6 I7 ltac:(lia)) as (F1 & F2 & F3 & F4 & F5).
      destruct (F5 ltac:(lia)) as [F6 F7]. repeat (split; [first [assumption|lia|congruence]|]). now apply snk_counts_edge. }
  exists (ZClkE false bt :: ZWakeE :: ZOp ZRun :: repeat (ZClkE true bt) (Z.to_nat L) ++ [ZClkE true bt]). split.
  - intros a b Hi. cbn in Hi. destruct Hi as [E|[E|[E|Hi]]]; try discriminate. apply in_app_or in Hi. destruct Hi as [Hi|[Hi|[]]]; [apply repeat_spec in Hi|]; discriminate.
  - specialize (H (Z.to_nat L) ltac:(lia)). cbv zeta in H.
    change (ZClkE false bt :: ZWakeE :: ZOp ZRun :: repeat (ZClkE true bt) (Z.to_nat L) ++ [ZClkE true bt]) with
           ((ZClkE false bt :: ZWakeE :: ZOp ZRun :: repeat (ZClkE true bt) (Z.to_nat L)) ++ [ZClkE true bt]).
    unfold zev_run in *. rewrite fold_left_app. set (k := fold_left (zev_step c) _ (asnk_init (-1) L)) in *.
    destruct H as (I1 & I2 & I3 & I4 & I5 & I6 & I7). cbn [fold_left zev_step].
    destruct (fill_step c k bt Hr Hl eq_refl ltac:(lia) ltac:(lia) I4 I5 I6 I7 ltac:(lia)) as (F1 & _). lia.
Qed.
Print Assumptions C39_axis_sink_bound_reached.

Example C39_axis_example :
  let bt := {| b_data := 5; b_keep := 1; b_id := 0; b_dest := 0; b_user := 0; b_last := true |} in
  let k := zev_run abus (asnk_init (-1) 2) (repeat (ZClkE true bt) 9) in
  zlen (z_q k) = 3 /\ z_ready k = false.
Proof. vm_compute. split; reflexivity. Qed.

(* ------------------------------------------------------------------ *)
(** * C40 *)

Theorem C40_axis_sink_ready_partial : forall c limb limf l v1 b1 v2 b2, x_ready c = true ->
  (forall a b, ~ In (ZOp (ZLimits a b)) l) -> ~ In (ZOp ZClear) l ->
  let k := zev_run c (asnk_init limb limf) l in
  z_task k <> KDead -> z_pause k = false -> asnk_full k = false ->
  let k1 := asnk_edge c k v1 b1 in let k2 := asnk_edge c k1 v2 b2 in
  z_ready k = true \/ z_ready k1 = true \/ z_ready k2 = true.
Proof.
  intros c limb limf l v1 b1 v2 b2 Hr Hn Hcl. cbv zeta.
  assert (Hw : zawake (zev_run c (asnk_init limb limf) l)).
  { apply zev_ind; [exact I|]. intros e k Hi Hk. destruct e as [o|v b|]; cbn [zev_step].
    - apply zawake_step; auto; [intros ->; auto|]. intros x y ->. exact (Hn _ _ Hi).
    - now apply zawake_edge.
    - now apply zawake_wake. }
  revert Hw. generalize (zev_run c (asnk_init limb limf) l). clear - Hr.
  unfold zawake, asnk_full. intros k. destruct k as [q p rq ob of lb lf ps w t r]. cbn [z_pause z_ready z_q z_limb z_limf z_task z_occb z_occf].
  intros Hw Hd -> Hf. destruct r; [now left|right].
  unfold asnk_edge. destruct t as [| |null|null pp|]; cbn; rewrite ?Hr; try congruence; cbn; rewrite ?Z.add_0_r, ?Hf; cbn; auto.
  - destruct pp; cbn; rewrite ?Z.add_0_r, ?Hf; cbn; [right|left; reflexivity].
    rewrite ?orb_true_r. cbn. rewrite ?Z.add_0_r, ?Hf. cbn. rewrite ?Z.add_0_r, ?Hf. reflexivity.
  - destruct (Hw eq_refl); congruence.
Qed.
Print Assumptions C40_axis_sink_ready_partial.

(** false after clear(): a full sink that sleeps is not woken *)
Theorem C40_axis_sink_ready_refuted : exists l,
  let k := zev_run abus (asnk_init (-1) 1) l in
  In (ZOp ZClear) l /\ (forall a b, ~ In (ZOp (ZLimits a b)) l) /\
  z_task k <> KDead /\ z_pause k = false /\ asnk_full k = false /\ z_q k = [] /\
  forall bs, z_ready (zev_run abus k (map (ZClkE true) bs)) = false.
Proof.
  pose (bt := {| b_data := 5; b_keep := 1; b_id := 0; b_dest := 0; b_user := 0; b_last := true |}).
  exists [ZClkE true bt; ZClkE true bt; ZClkE true bt; ZClkE true bt; ZOp ZClear]. cbv zeta.
  split; [cbn; auto 6|]. split; [intros a b; cbn; intuition discriminate|]. 
  set (k := zev_run _ _ _). assert (E : z_task k = KSleep /\ z_ready k = false) by (split; reflexivity).
  split; [destruct E; congruence|]. split; [reflexivity|]. split; [reflexivity|]. split; [reflexivity|].
  intros bs. revert E. generalize k. clear k. induction bs as [|d ds IH]; intros k [E1 E2]; [exact E2|].
  unfold zev_run in *. cbn [map fold_left zev_step]. apply IH. unfold asnk_edge. cbn [asnk_run z_task]. rewrite E1. cbn. rewrite E1. auto.
Qed.
Print Assumptions C40_axis_sink_ready_refuted.

Example C40_axis_example :
  let bt := {| b_data := 5; b_keep := 1; b_id := 0; b_dest := 0; b_user := 0; b_last := true |} in
  let k := zev_run abus (asnk_init (-1) 1) [ZClkE true bt; ZClkE true bt; ZClkE true bt; ZClkE true bt; ZOp (ZRecv (RRecv true))] in
  z_ready k = false /\ z_task k <> KDead /\ asnk_full k = false /\ z_ready (asnk_edge abus k true bt) = true.
Proof. vm_compute. repeat split. discriminate. Qed.

(* ------------------------------------------------------------------ *)
(** * C41 *)

(** a monitor turns exactly the transferred beats into frames, whatever happens on the wires *)
Theorem C41_axis_monitor_exact : forall c v r b ops,
  Forall (fun o => o <> NClear /\ o <> NReset true) ops ->
  let '(transferred, received, _, m) := amon_trace c (amon_init v r b) ops in
  reassemble c None transferred = (n_part m, received ++ n_q m).
Proof.
  intros c v r b ops H. pose proof (amon_conserve c ops (amon_init v r b)) as C.
  destruct (amon_trace c (amon_init v r b) ops) as [[[seen got] rd] m].
  assert (E : let '(p, fs) := reassemble c (n_part (amon_init v r b)) seen in n_part m = p /\ n_q (amon_init v r b) ++ fs = got ++ n_q m).
  { apply C.
    - eapply Forall_impl; [|exact H]. intros o [H1 H2]. destruct o as [| | |[|]| |]; cbn; congruence.
    - split; [discriminate|]. split; [reflexivity|discriminate]. }
  cbn [amon_init n_part n_q app] in E. destruct (reassemble c None seen) as [p fs]. destruct E as [-> ->]. reflexivity.
Qed.
Print Assumptions C41_axis_monitor_exact.

Example C41_axis_example :
  let b0 := {| b_data := 5; b_keep := 3; b_id := 1; b_dest := 0; b_user := 0; b_last := false |} in
  let b1 := {| b_data := 6; b_keep := 1; b_id := 1; b_dest := 0; b_user := 0; b_last := true |} in
  let '(transferred, received, _, m) := amon_trace abus (amon_init false false b0)
    [NClk; NClk; NSig true false b0; NClk; NSig true true b0; NClk; NSig false true b1; NClk; NClk; NSig true true b1; NClk; NRecv (RRecv false)] in
  transferred = [b0; b1] /\ map f_data received = [[5; 0; 6; 0]] /\ n_q m = [].
Proof. vm_compute. repeat split. Qed.

(* ------------------------------------------------------------------ *)
(** * C45 *)

(** operations that are not clear() and not the start of a reset, and whose frames normalize *)
Definition ac_keeps (o : acop) : Prop :=
  o <> ACSrc AClear /\ o <> ACSrc (AReset true) /\ o <> ACSnk ZClear /\ o <> ACSnk (ZReset true) /\
  forall t f, o = ACSrc (ASend t f) -> frame_ok f.

Lemma ac_keeps_quiet o : ac_keeps o -> acquiet o = true /\ acop_norm o.
Proof.
  intros (H1 & H2 & H3 & H4 & H5). destruct o as [[t f|b|lb lf| |[|]|r]|[b|lb lf|r| |[|]|]|]; cbn; try congruence; auto.
  split; auto. destruct (normalize_spec f (H5 t f eq_refl)) as (g & E & _). eauto.
Qed.

(** Every history: the frames received are, in order, what a receiver makes of a prefix of the
    non-empty frames sent. *)
Theorem C45_prefix : forall c slb slf klb klf ops, cfg_ok c -> x_last c = true ->
  Forall ac_keeps ops ->
  let '(sent, received, h) := achan_trace c (achan_init slb slf klb klf) ops in
  exists rest, Forall2 (received_as c) (filter nonempty (map snd sent)) (received ++ z_q (ac_snk h) ++ rest).
Proof.
  intros c slb slf klb klf ops Hc Hl H.
  pose proof (achan_conserve c Hc ops (achan_init slb slf klb klf)) as C.
  assert (Hsent : let '(sent, _, _) := achan_trace c (achan_init slb slf klb klf) ops in Forall norm_ok sent).
  { clear C. generalize (achan_init slb slf klb klf). induction H as [|o ops Ho _ IH]; intros h; cbn [achan_trace]; [constructor|].
    specialize (IH (achan_step c h o)). destruct (achan_trace c (achan_step c h o) ops) as [[sent got] h']. apply Forall_app. split; [|exact IH].
    destruct (ac_keeps_quiet o Ho) as [_ Hn]. destruct o as [[t f|b|lb lf| |b|r]|o|]; try constructor. destruct (asrc_full (ac_src h)); [constructor|]. constructor; [exact Hn|constructor]. }
  destruct (achan_trace c (achan_init slb slf klb klf) ops) as [[sent got] h].
  destruct C as (_ & acc & E & G).
  - eapply Forall_impl; [|exact H]. apply ac_keeps_quiet.
  - split; [|split; [discriminate|split; [reflexivity|discriminate]]].
    split; [discriminate|]. split; [exact I|]. split; [constructor|]. auto.
  - cbn [achan_init ac_src ac_snk asrc_init asnk_init wire a_valid pend a_cur a_q rem flat_map app z_part z_q] in E, G.
    destruct (reassemble_frames c Hc sent Hl Hsent) as (rs & R1 & R2).
    assert (E' : flat_map (nb c) sent = acc ++ wire (ac_src h) ++ pend c (ac_src h)) by exact E.
    rewrite E', reassemble_app in R1. destruct (reassemble c None acc) as [p fs]. destruct G as [G1 G2]. rewrite G2 in R1.
    destruct (reassemble c p (wire (ac_src h) ++ pend c (ac_src h))) as [p2 f2]. injection R1 as _ <-.
    exists f2. now rewrite app_assoc.
Qed.
Print Assumptions C45_prefix.

(** If the source has nothing left on the wires or in its queue, everything was delivered. *)
Theorem C45_complete : forall c slb slf klb klf ops, cfg_ok c -> x_last c = true ->
  Forall ac_keeps ops ->
  let '(sent, received, h) := achan_trace c (achan_init slb slf klb klf) ops in
  asrc_is_idle (ac_src h) = true ->
  Forall2 (received_as c) (filter nonempty (map snd sent)) (received ++ z_q (ac_snk h)).
Proof.
  intros c slb slf klb klf ops Hc Hl H.
  pose proof (achan_conserve c Hc ops (achan_init slb slf klb klf)) as C.
  assert (Hsent : let '(sent, _, _) := achan_trace c (achan_init slb slf klb klf) ops in Forall norm_ok sent).
  { clear C. generalize (achan_init slb slf klb klf). induction H as [|o ops Ho _ IH]; intros h; cbn [achan_trace]; [constructor|].
    specialize (IH (achan_step c h o)). destruct (achan_trace c (achan_step c h o) ops) as [[sent got] h']. apply Forall_app. split; [|exact IH].
    destruct (ac_keeps_quiet o Ho) as [_ Hn]. destruct o as [[t f|b|lb lf| |b|r]|o|]; try constructor. destruct (asrc_full (ac_src h)); [constructor|]. constructor; [exact Hn|constructor]. }
  destruct (achan_trace c (achan_init slb slf klb klf) ops) as [[sent got] h].
  destruct C as ((Hs & _) & acc & E & G).
  - eapply Forall_impl; [|exact H]. apply ac_keeps_quiet.
  - split; [|split; [discriminate|split; [reflexivity|discriminate]]].
    split; [discriminate|]. split; [exact I|]. split; [constructor|]. auto.
  - intros Hidle. cbn [achan_init ac_src ac_snk asrc_init asnk_init wire a_valid pend a_cur a_q rem flat_map app z_part z_q] in E, G.
    destruct (reassemble_frames c Hc sent Hl Hsent) as (rs & R1 & R2).
    assert (E' : flat_map (nb c) sent = acc ++ wire (ac_src h) ++ pend c (ac_src h)) by exact E.
    assert (Ew : wire (ac_src h) ++ pend c (ac_src h) = []).
    { unfold asrc_is_idle in Hidle. destruct Hs as (_ & Hcur & _ & Ha). destruct (a_q (ac_src h)) eqn:Eq; [|discriminate].
      apply negb_true_iff in Hidle. destruct (Ha Hidle) as [A1 A2]. unfold wire, pend. rewrite A1, Eq, (rem_false c) by auto. reflexivity. }
    rewrite Ew, app_nil_r in E'. rewrite E' in R1. rewrite R1 in G. destruct G as [_ <-]. exact R2.
Qed.
Print Assumptions C45_complete.

Example C45_example :
  let ops := [ACSrc (ASend 1 (aframe [1; 2; 3])); ACSrc (ASend 2 (aframe [])); ACClk; ACClk; ACSrc (APause true); ACClk; ACClk; ACSrc (APause false); ACSnk (ZPause true);
              ACClk; ACClk; ACSrc (ASend 3 (aframe [4; 5])); ACClk; ACSnk (ZPause false); ACClk; ACClk; ACClk; ACClk; ACClk; ACSnk (ZRecv (RRecv true)); ACClk] in
  let '(sent, received, h) := achan_trace abus (achan_init (-1) (-1) (-1) (-1)) ops in
  map fst sent = [1; 2; 3] /\ map cdata received = [[1; 2; 3]] /\ map cdata (z_q (ac_snk h)) = [[4; 5]] /\ asrc_is_idle (ac_src h) = true.
Proof. vm_compute. repeat split. Qed.

(* ------------------------------------------------------------------ *)
(** * C46 *)

(** For every history of sends, clears, resets, pauses and edges: the tags of the frames sent are exactly
    the tags completed, the tag of the frame being sent, the tags in the queue and tags of empty
    frames that were dropped.  So with distinct tags no tx_complete fires twice, and when the
    source is idle exactly the non-empty frames are complete. *)
Theorem C46_tx_complete_partial : forall c lb lf ops,
  Forall (fun o => forall t f, o = ASend t f -> frame_ok f) ops ->
  let '(sent, _, s) := asrc_trace c (asrc_init lb lf) ops in
  (NoDup (map fst sent) -> NoDup (a_done s)) /\
  (forall t f, In (t, f) sent -> f_data f <> [] -> NoDup (map fst sent) -> asrc_is_idle s = true -> In t (a_done s)) /\
  (forall t, In t (a_done s) -> In t (map fst sent)).
Proof.
  intros c lb lf ops H. pose proof (tag_conserve c ops (asrc_init lb lf)) as C.
  destruct (asrc_trace c (asrc_init lb lf) ops) as [[sent acc] s].
  destruct C as ((T1 & T2 & T3) & drop & D1 & D2 & D3).
  - split; [reflexivity|]. split; [constructor|]. reflexivity.
  - eapply Forall_impl; [|exact H]. intros o Ho. destruct o; cbn; auto. destruct (normalize_spec f (Ho tag f eq_refl)) as (g & E & _). eauto.
  - cbn [asrc_init a_done cur_tag a_cur a_q map app] in D2, D3. change (Permutation (map fst sent) (a_done s ++ cur_tag s ++ map fst (a_q s) ++ map fst drop)) in D3.
    split; [|split].
    + intros Hnd. rewrite D3 in Hnd. clear -Hnd. induction (a_done s) as [|x l IH]; [constructor|]. cbn in Hnd. inversion Hnd; subst.
      constructor; [|auto]. intros Hi. apply H1. apply in_or_app. now left.
    + intros t f Hi Hd Hnd Hidle. assert (Ht : In t (a_done s ++ cur_tag s ++ map fst (a_q s) ++ map fst drop)).
      { rewrite <- D3. now apply (in_map fst _ (t, f)). }
      unfold asrc_is_idle in Hidle. destruct (a_q s); [|discriminate]. apply negb_true_iff in Hidle. rewrite (T3 Hidle) in Ht. cbn [app map] in Ht.
      apply in_app_or in Ht. destruct Ht as [Ht|Ht]; [exact Ht|exfalso]. apply in_map_iff in Ht. destruct Ht as ((t' & f') & E & Hdr). cbn in E. subst t'.
      rewrite Forall_forall in D1. pose proof (D1 _ Hdr) as Hempty. cbn in Hempty. specialize (D2 _ Hdr). cbn in D2.
      assert (f = f'); [|congruence]. clear -Hnd Hi D2. induction sent as [|[x g] l IH]; [destruct Hi|]. cbn in Hnd. inversion Hnd; subst.
      destruct Hi as [E|Hi], D2 as [E2|D2]; try congruence; auto.
      * injection E as -> ->. exfalso. apply H1. now apply (in_map fst _ (t, f')).
      * injection E2 as -> ->. exfalso. apply H1. now apply (in_map fst _ (t, f)).
    + intros t Ht. eapply Permutation_in; [symmetry; exact D3|]. apply in_or_app. now left.
Qed.
Print Assumptions C46_tx_complete_partial.

Lemma asrc_inv_all c ops : cfg_ok c -> Forall (fun o => forall t f, o = ASend t f -> frame_ok f) ops ->
  forall s, asrc_inv s -> asrc_inv (fold_left (asrc_step c) ops s).
Proof.
  intros Hc H. induction H as [|o ops Ho _ IH]; intros s Hs; [exact Hs|]. cbn [fold_left]. apply IH.
  assert (Hn : op_norm o) by (destruct o; cbn; auto; destruct (normalize_spec f (Ho tag f eq_refl)) as (g & E & _); eauto).
  destruct (aquiet o) eqn:Eq; [now apply asrc_step_inv|]. destruct Hs as (Hv & Hcur & Hq & Ha).
  destruct o as [| | | |[|]|]; try discriminate; cbn [asrc_step].
  - split; [exact Hv|]. split; [exact Hcur|]. split; [constructor|exact Ha].
  - split; [discriminate|]. split; [exact I|]. split; [exact Hq|]. auto.
Qed.

(** nothing fires before the last beat of the frame is driven (or clear/reset): a clock edge adds at most
    one tag, and only when it drives a beat with tlast *)
Theorem C46_fires_with_last_beat : forall c lb lf ops r, cfg_ok c ->
  Forall (fun o => forall t f, o = ASend t f -> frame_ok f) ops ->
  let s := fold_left (asrc_step c) ops (asrc_init lb lf) in
  let s' := asrc_step c s (AEdge r) in
  a_done s' = a_done s \/ exists t, a_done s' = a_done s ++ [t] /\ a_valid s' = true /\ b_last (a_beat s') = true.
Proof.
  intros c lb lf ops r Hc H. cbv zeta.
  assert (Hi : asrc_inv (asrc_init lb lf)) by (split; [discriminate|split; [exact I|split; [constructor|auto]]]).
  pose proof (asrc_inv_all c ops Hc H _ Hi) as (Hv & Hcur & Hq & Ha). set (s := fold_left (asrc_step c) ops (asrc_init lb lf)) in *.
  cbn [asrc_step]. unfold asrc_edge. destruct (a_task s); auto. destruct (_ || _); auto.
  assert (Ef : forall s1, asrc_fetch s = Ok s1 -> a_done s1 = a_done s).
  { unfold asrc_fetch. intros s1. destruct (ftrue (a_cur s)); [congruence|]. destruct (a_q s) as [|[t f] q]; [congruence|].
    destruct (normalize f); [|discriminate]. cbn. intros E. injection E as <-. reflexivity. }
  destruct (fetch_spec c s Hcur Hq) as (s1 & E & _ & Hc1 & _). rewrite E. specialize (Ef s1 E).
  destruct (a_cur s1) as [[[t g] fo]|]; [|left; exact Ef]. destruct ((0 <? zlen (f_data g)) && negb (a_pause s1)) eqn:Ed; [|left; exact Ef].
  apply andb_true_iff in Ed. destruct Ed as [Ed _]. cbn [cur_ok] in Hc1. unfold asrc_drive.
  pose proof (drive_beat_spec c Hc g fo ltac:(lia)) as D. destruct (drive_beat c g fo) as [[b fo'] fin]. destruct D as (_ & _ & D & _).
  destruct fin; cbn; rewrite Ef; [right; eauto|left; reflexivity].
Qed.
Print Assumptions C46_fires_with_last_beat.

(** the frame set is exhausted by clock edges: false for empty frames, whose tx_complete never fires *)
Theorem C46_empty_frame_refuted : exists f, frame_ok f /\ forall n,
  let s := fold_left (asrc_step abus) (ASend 1 f :: repeat (AEdge true) n) (asrc_init (-1) (-1)) in
  a_done s = [] /\ (n <> O -> a_q s = [] /\ asrc_is_idle s = true /\ a_idle s = true).
Proof.
  exists (aframe []). split; [repeat split; discriminate|]. intros n. cbv zeta. cbn [fold_left].
  set (s0 := asrc_step abus (asrc_init (-1) (-1)) (ASend 1 (aframe []))).
  destruct n as [|n]; [split; [reflexivity|congruence]|]. cbn [repeat fold_left].
  set (s1 := asrc_step abus s0 (AEdge true)).
  assert (E : fold_left (asrc_step abus) (repeat (AEdge true) n) s1 = s1).
  { induction n as [|n IH]; [reflexivity|]. cbn [repeat fold_left]. replace (asrc_step abus s1 (AEdge true)) with s1 by reflexivity. exact IH. }
  rewrite E. repeat split.
Qed.
Print Assumptions C46_empty_frame_refuted.

Example C46_example :
  let '(sent, _, s) := asrc_trace abus (asrc_init (-1) (-1))
     [ASend 1 (aframe [1; 2; 3]); ASend 2 (aframe [4]); ASend 3 (aframe [5; 6]); AEdge true; AEdge true; AEdge false; AEdge true; AClear; AReset true] in
  map fst sent = [1; 2; 3] /\ a_done s = [1; 2; 3].
Proof. vm_compute. split; reflexivity. Qed.

(* ------------------------------------------------------------------ *)
(** * C47 *)

Theorem C47_source_counters : forall c lb lf ops,
  let s := fold_left (asrc_step c) ops (asrc_init lb lf) in
  a_occf s = zlen (a_q s) /\ a_occb s = bytes_of (map snd (a_q s)).
Proof.
  intros c lb lf ops. cbv zeta. change (src_counts (fold_left (asrc_step c) ops (asrc_init lb lf))).
  assert (H : src_counts (asrc_init lb lf)) by (split; reflexivity). revert H. generalize (asrc_init lb lf).
  induction ops as [|o ops IH]; intros s H; [exact H|]. cbn. apply IH. now apply src_counts_step.
Qed.
Print Assumptions C47_source_counters.

Theorem C47_sink_counters : forall c lb lf l,
  let k := zev_run c (asnk_init lb lf) l in z_occf k = zlen (z_q k) /\ z_occb k = bytes_of (z_q k).
Proof.
  intros c lb lf l. cbv zeta. change (snk_counts (zev_run c (asnk_init lb lf) l)). apply zev_ind; [split; reflexivity|].
  intros e k _ Hk. destruct e as [o|v b|]; cbn [zev_step]; [now apply snk_counts_step|now apply snk_counts_edge|exact Hk].
Qed.
Print Assumptions C47_sink_counters.

Theorem C47_monitor_counters : forall c v r b ops,
  let m := fold_left (amon_step c) ops (amon_init v r b) in n_occf m = zlen (n_q m) /\ n_occb m = bytes_of (n_q m).
Proof.
  intros c v r b ops. cbv zeta. change (mon_counts (fold_left (amon_step c) ops (amon_init v r b))).
  assert (H : mon_counts (amon_init v r b)) by (split; reflexivity). revert H. generalize (amon_init v r b).
  induction ops as [|o ops IH]; intros s H; [exact H|]. cbn. apply IH. now apply mon_counts_step.
Qed.
Print Assumptions C47_monitor_counters.

Example C47_example :
  let s := fold_left (asrc_step abus) [ASend 1 (aframe [1; 2; 3]); ASend 2 (aframe [4]); ASend 3 (aframe [5; 6]); AEdge true] (asrc_init (-1) (-1)) in
  a_occf s = 2 /\ a_occb s = 3.
Proof. vm_compute. split; reflexivity. Qed.

(* ------------------------------------------------------------------ *)
(** * C49 *)

(** reading bytes (read, read_nowait with any count): what was read, then what is still buffered, is the kept data
    of all frames that arrived, in order; and every frame that arrives can be compacted *)
Theorem C49_reads_lose_nothing : forall c lb lf l,
  (forall cp, ~ In (ZOp (ZRecv (RRecv cp))) l) -> ~ In (ZOp ZClear) l ->
  let '(arrived, read, k) := zev_trace c (asnk_init lb lf) l in
  concat (map cdata arrived) = read ++ z_readq k ++ concat (map cdata (z_q k)).
Proof.
  intros c lb lf l H1 H2. pose proof (reads_conserve c l (asnk_init lb lf)) as C.
  destruct (zev_trace c (asnk_init lb lf) l) as [[arr rd] k]. apply C. apply Forall_forall. intros e He.
  destruct e as [[b|a b|[cp| |n]| |b|]|v b|]; cbn; auto; exfalso; first [exact (H1 _ He)|exact (H2 He)].
Qed.
Print Assumptions C49_reads_lose_nothing.

Theorem C49_arrivals_compact : forall c lb lf l,
  let '(arrived, _, _) := zev_trace c (asnk_init lb lf) l in
  Forall (fun f => exists g, compact f = Ok g /\ cdata f = f_data g) arrived.
Proof.
  intros c lb lf l.
  assert (H : forall k, (forall f, z_part k = Some f -> rx_ok c f) ->
     let '(arrived, _, _) := zev_trace c k l in Forall (rx_ok c) arrived).
  { induction l as [|e l IH]; intros k Hk; cbn [zev_trace]; [constructor|].
    assert (Hs : (forall f, z_part (zev_step c k e) = Some f -> rx_ok c f) /\
       Forall (rx_ok c) (match e with ZClkE _ _ => skipn (length (z_q k)) (z_q (zev_step c k e)) | _ => [] end)).
    { destruct e as [o|v b|]; cbn [zev_step].
      - split; [|constructor]. destruct o as [b|a b|r| |b|]; cbn [asnk_step]; auto.
        + destruct (Bool.eqb _ _); auto.
        + destruct (recv_task k r) as [_ ->]. exact Hk.
        + destruct b; auto. discriminate.
        + cbn. destruct (z_task k); auto; discriminate.
      - assert (Hr : forall f, match z_task k with KStart => None | _ => z_part k end = Some f -> rx_ok c f) by (destruct (z_task k); auto; discriminate).
        unfold asnk_edge. destruct (z_task (asnk_run k)) eqn:Et; cbn [asnk_run z_part z_q]; rewrite ?skipn_all; auto.
        pose proof (rx_beat_ok c _ b Hr) as Hb.
        destruct ((negb (x_ready c) || z_ready (asnk_run k)) && v).
        + destruct (rx_beat c (match z_task k with KStart => None | _ => z_part k end) b) as [p fs]. cbn [asnk_run z_part z_q].
          rewrite skipn_app, skipn_all, Nat.sub_diag. exact Hb.
        + cbn [asnk_run z_part z_q]. rewrite app_nil_r, skipn_all. auto.
      - split; [exact Hk|constructor]. }
    destruct Hs as [Hs1 Hs2]. specialize (IH _ Hs1). destruct (zev_trace c (zev_step c k e) l) as [[arr rd] k']. apply Forall_app. auto. }
  specialize (H (asnk_init lb lf) ltac:(discriminate)). destruct (zev_trace c (asnk_init lb lf) l) as [[arr rd] k].
  eapply Forall_impl; [|exact H]. intros f Hf. destruct (rx_ok_compact c f Hf) as (g & E). exists g. split; [exact E|]. unfold cdata. now rewrite E.
Qed.
Print Assumptions C49_arrivals_compact.

Example C49_example :
  let bt d kp := {| b_data := d; b_keep := kp; b_id := 0; b_dest := 0; b_user := 0; b_last := true |} in
  let '(arrived, read, k) := zev_trace abus (asnk_init (-1) (-1))
     [ZClkE true (bt 0 3); ZClkE true (bt 258 3); ZClkE true (bt 1027 2); ZOp (ZRecv (RRead 1)); ZClkE true (bt 5 1); ZOp (ZRecv (RRead 1)); ZOp (ZRecv (RRead (-1)))] in
  length arrived = 3%nat /\ read = [2; 1; 4; 5] /\ z_readq k = [] /\ z_q k = [].
Proof. vm_compute. repeat split. Qed.
