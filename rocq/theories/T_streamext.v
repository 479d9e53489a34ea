(** More about the stream components: wait() and idle() of the sources (C42), full() (C47), read counts (C49). *)
From Coq Require Import ZArith Lia List Bool.
From Coq Require Import ZifyBool ZifyNat.
From Verif Require Import Py M_stream S_stream P_stream T_stream M_axisframe M_axis S_axis S_axisrun P_axisframe P_axis P_axischan P_axislive T_axisframe T_axis.
Import ListNotations.
Open Scope Z_scope.

(** ** C42: StreamSource *)
(** Every history, with clear() and resets: whenever idle() is true a wait() returns. *)
Theorem C42_idle_implies_wait : forall A hr (ops : list (sop A)),
  let s := fold_left (src_step hr) ops src_init in src_is_idle s = true -> s_idle s = true.
Proof.
  intros A hr ops. cbv zeta. unfold src_is_idle.
  enough (H : forall s : src A, (s_q s = [] -> s_active s = false -> s_idle s = true) ->
     let s' := fold_left (src_step hr) ops s in s_q s' = [] -> s_active s' = false -> s_idle s' = true).
  { specialize (H src_init (fun _ _ => eq_refl)). cbv zeta in H. destruct (s_q (fold_left (src_step hr) ops src_init)); [|discriminate].
    intros E. apply H; [reflexivity|]. now apply negb_true_iff. }
  induction ops as [|o ops IH]; intros s Hs; cbn [fold_left]; [exact Hs|]. apply IH.
  destruct o as [x|b|n| |[|]|r]; cbn [src_step]; try exact Hs.
  - destruct (src_full s); [exact Hs|]. cbn. intros E. now apply app_eq_nil in E.
  - reflexivity.
  - cbn. intros ->. reflexivity.
  - unfold src_edge. destruct (s_task s); try exact Hs. destruct (_ || _); [|exact Hs].
    destruct (s_q s); [reflexivity|]. destruct (negb (s_pause s)); cbn; discriminate.
Qed.
Print Assumptions C42_idle_implies_wait.

(** the converse fails: after clear() a wait() returns while an item is still offered on the wires *)
Theorem C42_wait_after_clear_refuted : exists ops : list (sop Z),
  let '(sent, accepted, s) := src_trace true src_init ops in
  s_idle s = true /\ src_is_idle s = false /\ s_valid s = true /\ accepted = [] /\ s_data s = Some 7.
Proof. exists [SSend 7; SEdge false; SClear]. repeat split. Qed.
Print Assumptions C42_wait_after_clear_refuted.

(** ** C42: AxiStreamSource *)
Definition as_keeps (o : aop) : Prop := o <> AClear /\ o <> AReset true /\ forall t f, o = ASend t f -> frame_ok f.
Lemma as_keeps_quiet o : as_keeps o -> aquiet o = true /\ op_norm o.
Proof.
  intros (H1 & H2 & H3). destruct o as [t f|b|lb lf| |[|]|r]; cbn; try congruence; auto.
  split; auto. destruct (normalize_spec f (H3 t f eq_refl)) as (g & E & _). eauto.
Qed.

(** what idle_event says *)
Definition idle_ok (s : asrc) : Prop := a_idle s = true -> a_q s = [] /\ a_valid s = false /\ ftrue (a_cur s) = false.
Lemma idle_ok_edge c s r : asrc_inv s -> idle_ok s -> idle_ok (asrc_edge c s r).
Proof.
  intros (Hv & Hcur & Hq & Ha) Hi. unfold asrc_edge. destruct (a_task s); try exact Hi. destruct (_ || _); [|exact Hi].
  destruct (fetch_spec c s Hcur Hq) as (s1 & E1 & _ & Hc1 & _ & Ev & _).
  assert (Hi1 : a_idle s1 = true -> a_q s1 = [] /\ ftrue (a_cur s1) = false).
  { revert E1. unfold asrc_fetch. destruct (ftrue (a_cur s)) eqn:Ef.
    - injection 1 as <-. intros E. apply Hi in E as (_ & _ & E). congruence.
    - destruct (a_q s) as [|[t f] q] eqn:Eq.
      + injection 1 as <-. intros E. now apply Hi in E as (? & _ & ?).
      + destruct (normalize f); [|discriminate]. injection 1 as <-. cbn. intros E. apply Hi in E as (E & _). congruence. }
  rewrite E1.
  assert (Hh : idle_ok (asrc_hold s1)).
  { unfold idle_ok, asrc_hold. cbn [a_idle a_q a_valid a_cur]. destruct (ftrue (a_cur s1)) eqn:Ef, (a_q s1) eqn:Eq; cbn; auto.
    - intros E. apply Hi1 in E as [_ E]. congruence.
    - intros E. apply Hi1 in E as [E _]. congruence.
    - intros E. apply Hi1 in E as [E _]. congruence. }
  destruct (a_cur s1) as [[[t g] fo]|] eqn:Ec; [|exact Hh]. destruct ((0 <? zlen (f_data g)) && _) eqn:Ed; [|exact Hh].
  unfold asrc_drive, idle_ok. destruct (drive_beat c g fo) as [[b fo'] fin]. cbn [a_idle]. intros E. apply Hi1 in E as [_ E].
  cbn in E. lia.
Qed.
Lemma idle_ok_trace c ops : cfg_ok c -> Forall as_keeps ops -> forall s, asrc_inv s -> idle_ok s ->
  idle_ok (snd (asrc_trace c s ops)).
Proof.
  intros Hc H. induction H as [|o ops Ho _ IH]; intros s Hs Hi; cbn [asrc_trace]; [exact Hi|].
  pose proof (as_keeps_quiet o Ho) as [K1 K2]. specialize (IH (asrc_step c s o) (asrc_step_inv c Hc s o K1 K2 Hs)).
  assert (Hi' : idle_ok (asrc_step c s o)).
  { destruct o as [t f|b|lb lf| |[|]|r]; try discriminate; cbn [asrc_step]; try exact Hi; [|now apply idle_ok_edge].
    destruct (asrc_full s); [exact Hi|]. unfold idle_ok. cbn. discriminate. }
  specialize (IH Hi'). destruct (asrc_trace c (asrc_step c s o) ops) as [[sent acc] s']. exact IH.
Qed.

(** With any receiver, absent clear() and reset: if wait() returns or idle() is true then the beats accepted are exactly
    those of the frames sent, in order. *)
Theorem C42_axis_idle_means_done : forall c lb lf ops, cfg_ok c -> Forall as_keeps ops ->
  let '(sent, accepted, s) := asrc_trace c (asrc_init lb lf) ops in
  a_idle s = true \/ asrc_is_idle s = true ->
  exists gs, Forall2 (fun f g => normalize f = Ok g) (map snd sent) gs /\ accepted = flat_map (frame_beats c) gs.
Proof.
  intros c lb lf ops Hc H.
  assert (Hn : let '(sent, _, _) := asrc_trace c (asrc_init lb lf) ops in Forall norm_ok sent).
  { generalize (asrc_init lb lf). induction H as [|o ops Ho _ IH]; intros s; cbn [asrc_trace]; [constructor|].
    specialize (IH (asrc_step c s o)). destruct (asrc_trace c (asrc_step c s o) ops) as [[sent acc] s']. apply Forall_app. split; [|exact IH].
    destruct (as_keeps_quiet o Ho) as [_ Hn]. destruct o; try constructor. destruct (asrc_full s); [constructor|]. constructor; [exact Hn|constructor]. }
  assert (Hi : asrc_inv (asrc_init lb lf)) by (split; [discriminate|split; [exact I|split; [constructor|auto]]]).
  pose proof (asrc_conserve c Hc ops (asrc_init lb lf)) as C. pose proof (idle_ok_trace c ops Hc H (asrc_init lb lf) Hi) as W.
  destruct (asrc_trace c (asrc_init lb lf) ops) as [[sent acc] s]. cbn [snd] in W.
  destruct C as [(Hv & Hcur & Hq & Ha) E]; [eapply Forall_impl; [|exact H]; apply as_keeps_quiet|exact Hi|].
  assert (W' : idle_ok s) by (apply W; unfold idle_ok; cbn; auto).
  cbn [asrc_init wire a_valid pend a_cur a_q rem flat_map app] in E. change (flat_map (nb c) sent = acc ++ wire s ++ pend c s) in E.
  intros Hid. assert (Ew : wire s ++ pend c s = []).
  { assert (K : a_q s = [] /\ a_valid s = false /\ ftrue (a_cur s) = false).
    { destruct Hid as [Hid|Hid]; [now apply W'|]. unfold asrc_is_idle in Hid. destruct (a_q s); [|discriminate].
      apply negb_true_iff in Hid. destruct (Ha Hid). auto. }
    destruct K as (K1 & K2 & K3). unfold wire, pend. rewrite K1, K2, (rem_false c) by auto. reflexivity. }
  rewrite Ew, app_nil_r in E. rewrite <- E. clear - Hn. induction Hn as [|[t f] l [g Hg] _ (gs & G1 & G2)]; [exists []; split; constructor|].
  exists (g :: gs). cbn [map snd flat_map] in *. split; [constructor; auto|]. rewrite <- G2. unfold nb at 1. cbn [snd]. now rewrite Hg.
Qed.
Print Assumptions C42_axis_idle_means_done.

(** every history, with clear() and resets: whenever idle() is true a wait() returns *)
Theorem C42_axis_idle_implies_wait : forall c lb lf ops, cfg_ok c ->
  Forall (fun o => forall t f, o = ASend t f -> frame_ok f) ops ->
  let s := fold_left (asrc_step c) ops (asrc_init lb lf) in asrc_is_idle s = true -> a_idle s = true.
Proof.
  intros c lb lf ops Hc H. cbv zeta.
  assert (Hi : asrc_inv (asrc_init lb lf)) by (split; [discriminate|split; [exact I|split; [constructor|auto]]]).
  enough (K : forall s, asrc_inv s -> (a_q s = [] -> a_active s = false -> a_idle s = true) ->
     let s' := fold_left (asrc_step c) ops s in a_q s' = [] -> a_active s' = false -> a_idle s' = true).
  { specialize (K _ Hi (fun _ _ => eq_refl)). cbv zeta in K. unfold asrc_is_idle. destruct (a_q (fold_left (asrc_step c) ops (asrc_init lb lf))); [|discriminate].
    intros E. apply K; [reflexivity|]. now apply negb_true_iff. }
  clear Hi. induction H as [|o ops Ho _ IH]; intros s Hi Hs; cbn [fold_left]; [exact Hs|].
  apply IH; [exact (asrc_inv_all c [o] Hc (Forall_cons _ Ho (Forall_nil _)) s Hi)|]. destruct Hi as (Hv & Hcur & Hq & Ha).
  destruct o as [t f|b|xb xf| |[|]|r]; cbn [asrc_step]; try exact Hs.
  - destruct (asrc_full s); [exact Hs|]. cbn. intros E. now apply app_eq_nil in E.
  - reflexivity.
  - cbn. intros ->. reflexivity.
  - unfold asrc_edge. destruct (a_task s); try exact Hs. destruct (_ || _); [|exact Hs].
    destruct (fetch_spec c s Hcur Hq) as (s1 & E1 & _ & _ & _ & _ & _ & _ & _ & Hf1 & Hf2 & Hf3 & Hf4). rewrite E1.
    assert (Hh : a_q (asrc_hold s1) = [] -> a_active (asrc_hold s1) = false -> a_idle (asrc_hold s1) = true).
    { unfold asrc_hold. cbn [a_q a_active a_idle]. intros -> ->. reflexivity. }
    destruct (a_cur s1) as [[[t g] fo]|] eqn:Ec; [|exact Hh]. destruct ((0 <? zlen (f_data g)) && _) eqn:Ed; [|exact Hh].
    unfold asrc_drive. destruct (drive_beat c g fo) as [[b fo'] fin]. cbn [a_q a_active a_idle]. intros _ Ea. exfalso.
    specialize (Hf2 Ea). destruct (Ha Hf2) as [_ Hfc]. destruct (Hf4 ltac:(cbn; lia)); congruence.
Qed.
Print Assumptions C42_axis_idle_implies_wait.

(** a frame that cannot be normalized (C43) ends the task: idle() is true and no wait() returns any more *)
Theorem C42_axis_wait_hangs_refuted : exists f ops,
  let s := fold_left (asrc_step abus) ops (asrc_init (-1) (-1)) in
  ops = [ASend 1 f; AEdge true] /\ asrc_is_idle s = true /\
  forall rs, a_idle (fold_left (asrc_step abus) (map AEdge rs) s) = false.
Proof.
  pose (f := {| f_ba := true; f_data := [1; 2]; f_keep := None; f_id := SList []; f_dest := SNone; f_user := SNone |}).
  exists f, [ASend 1 f; AEdge true]. cbv zeta. split; [reflexivity|]. split; [vm_compute; reflexivity|].
  set (s := fold_left _ _ _). assert (E : a_task s = TDead /\ a_idle s = false) by (vm_compute; auto). clearbody s.
  intros rs. revert s E. induction rs as [|r rs IH]; intros s [E1 E2]; [exact E2|]. cbn [map fold_left asrc_step]. apply IH.
  unfold asrc_edge. rewrite E1. auto.
Qed.
Print Assumptions C42_axis_wait_hangs_refuted.

Example C42_axis_nontrivial :
  let '(sent, accepted, s) := asrc_trace abus (asrc_init (-1) (-1))
    [ASend 1 (aframe [1; 2; 3]); ASend 2 (aframe [4]); AEdge true; APause true; AEdge true; AEdge true; APause false; AEdge true; AEdge false; AEdge true; AEdge true] in
  map fst sent = [1; 2] /\ length accepted = 3%nat /\ a_idle s = true /\ asrc_is_idle s = true.
Proof. vm_compute. repeat split. Qed.

(** ** C47: full() *)
(** full() compares what is in the queue with the limits: strictly more bytes or frames than the limit; a limit that is not positive
    does not count *)
Theorem C47_full : forall c lb lf ops l,
  let s := fold_left (asrc_step c) ops (asrc_init lb lf) in let k := zev_run c (asnk_init lb lf) l in
  (asrc_full s = true <-> (0 < a_limb s < bytes_of (map snd (a_q s))) \/ (0 < a_limf s < zlen (a_q s))) /\
  (asnk_full k = true <-> (0 < z_limb k < bytes_of (z_q k)) \/ (0 < z_limf k < zlen (z_q k))).
Proof.
  intros c lb lf ops l. cbv zeta. destruct (C47_source_counters c lb lf ops) as [E1 E2]. destruct (C47_sink_counters c lb lf l) as [E3 E4].
  cbv zeta in *. unfold asrc_full, asnk_full, occ_full. rewrite E1, E2, E3, E4.
  split; repeat match goal with |- context [if ?b then _ else _] => destruct b eqn:? end; intuition lia.
Qed.
Print Assumptions C47_full.
Example C47_full_example :
  let s n := fold_left (asrc_step abus) (map (fun f => ASend 0 (aframe f)) (firstn n [[1; 2; 3]; [4]; [5]; [6; 7]])) (asrc_init 4 3) in
  map (fun n => asrc_full (s n)) [1; 2; 3; 4]%nat = [false; false; true; true] /\ zlen (a_q (s 4%nat)) = 3.
Proof. vm_compute. split; reflexivity. Qed.

(** ** C49: how much a read returns *)
(** read_nowait(count) of the sink and of the monitor returns the first [count] of the bytes that arrived and were not read yet
    (all of them if there are fewer or count is negative) and leaves the rest *)
Theorem C49_read_counts : forall k m n,
  let avail := z_readq k ++ concat (map cdata (z_q k)) in let availm := n_readq m ++ concat (map cdata (n_q m)) in
  (exists r, snd (asnk_recv k (RRead n)) = RBytes r /\
     r ++ z_readq (fst (asnk_recv k (RRead n))) = avail /\ z_q (fst (asnk_recv k (RRead n))) = [] /\
     zlen r = if n <? 0 then zlen avail else Z.min n (zlen avail)) /\
  (exists r, snd (amon_recv m (RRead n)) = RBytes r /\
     r ++ n_readq (fst (amon_recv m (RRead n))) = availm /\ n_q (fst (amon_recv m (RRead n))) = [] /\
     zlen r = if n <? 0 then zlen availm else Z.min n (zlen availm)).
Proof.
  assert (K : forall rq q n, zlen (snd (read_all rq q n)) = if n <? 0 then zlen (rq ++ concat (map cdata q)) else Z.min n (zlen (rq ++ concat (map cdata q)))).
  { intros rq q n. unfold read_all, zlen. cbn [snd]. rewrite firstn_length. destruct (n <? 0) eqn:E; lia. }
  intros k m n. cbv zeta. split.
  - unfold asnk_recv. pose proof (read_all_app (z_readq k) (z_q k) n) as H. specialize (K (z_readq k) (z_q k) n).
    destruct (read_all (z_readq k) (z_q k) n) as [rq r]. exists r. split; [reflexivity|]. cbn [snd fst] in *. destruct (z_q k); cbn; auto.
  - unfold amon_recv. pose proof (read_all_app (n_readq m) (n_q m) n) as H. specialize (K (n_readq m) (n_q m) n).
    destruct (read_all (n_readq m) (n_q m) n) as [rq r]. exists r. split; [reflexivity|]. cbn [snd fst] in *. auto.
Qed.
Print Assumptions C49_read_counts.
Example C49_read_counts_example :
  let rx d kp := {| f_ba := true; f_data := d; f_keep := Some kp; f_id := SList []; f_dest := SList []; f_user := SList [] |} in
  let k := {| z_q := [rx [3; 9; 4] [1; 0; 1]; rx [5] [1]]; z_part := None; z_readq := [1; 2]; z_occb := 3; z_occf := 2; z_limb := -1; z_limf := -1;
              z_pause := false; z_wake := false; z_task := KSleep; z_ready := true |} in
  map (fun n => snd (asnk_recv k (RRead n))) [-1; 0; 3; 9] = [RBytes [1; 2; 3; 4; 5]; RBytes []; RBytes [1; 2; 3]; RBytes [1; 2; 3; 4; 5]].
Proof. vm_compute. reflexivity. Qed.

(** ** C45: delivery *)
Lemma alive_snk_step c k o : (forall a b, o <> ZLimits a b) -> z_limb (asnk_step c k o) = z_limb k /\ z_limf (asnk_step c k o) = z_limf k.
Proof.
  intros H. destruct o as [b|lb lf|r| |b|]; cbn [asnk_step]; auto.
  - now destruct (Bool.eqb _ _).
  - now destruct (H lb lf).
  - unfold asnk_recv. destruct r; [destruct (z_q k); auto|destruct (z_q k), (z_readq k); auto|destruct (read_all _ _ _); destruct (z_q k); auto].
  - now destruct b.
Qed.
Lemma trace_live c ops : cfg_ok c -> Forall ac_keeps ops -> (forall a b, ~ In (ACSnk (ZLimits a b)) ops) -> forall h,
  achan_inv c h -> alive (ac_src h) -> z_limb (ac_snk h) <= 0 -> z_limf (ac_snk h) <= 0 -> (x_ready c = true -> zawake (ac_snk h)) ->
  let h' := snd (achan_trace c h ops) in
  achan_inv c h' /\ alive (ac_src h') /\ z_limb (ac_snk h') <= 0 /\ z_limf (ac_snk h') <= 0 /\ (x_ready c = true -> zawake (ac_snk h')).
Proof.
  intros Hc H. induction H as [|o ops Ho _ IH]; intros Hl h H1 H2 H3 H4 H5; cbn [achan_trace snd]; [auto 6|].
  destruct (ac_keeps_quiet o Ho) as [K1 K2]. specialize (IH (fun a b Hi => Hl a b (or_intror Hi)) (achan_step c h o) (achan_step_inv c Hc h o K1 K2 H1)).
  destruct (achan_trace c (achan_step c h o) ops) as [[sent got] h']. cbn [snd] in *. destruct o as [o|o|].
  - assert (E : ac_snk (achan_step c h (ACSrc o)) = ac_snk h) by now destruct o.
    rewrite E in IH. apply IH; auto. cbn [acquiet acop_norm] in *.
    assert (K : alive (asrc_step c (ac_src h) o)) by (apply alive_step; auto; apply H1). destruct o; auto.
  - cbn [achan_step ac_src ac_snk] in IH. assert (Hz : forall a b, o <> ZLimits a b) by (intros a b ->; apply (Hl a b); now left).
    destruct (alive_snk_step c (ac_snk h) o Hz) as [E1 E2]. rewrite E1, E2 in IH. apply IH; auto. intros Hr. apply zawake_step; auto.
    intros ->. discriminate.
  - apply IH.
    + rewrite clk_src. apply alive_edge; auto. apply H1.
    + apply (clk_snk c (fun k => z_limb k <= 0)); auto. unfold asnk_edge. destruct (z_task (asnk_run (ac_snk h))); auto.
      match goal with |- context [let '(x, y) := ?e in _] => destruct e as [p fs] end. exact H3.
    + apply (clk_snk c (fun k => z_limf k <= 0)); auto. unfold asnk_edge. destruct (z_task (asnk_run (ac_snk h))); auto.
      match goal with |- context [let '(x, y) := ?e in _] => destruct e as [p fs] end. exact H4.
    + intros Hr. apply (clk_snk c zawake); [intros k; apply zawake_wake|]. apply zawake_edge; auto.
Qed.

(** From every reached state (any pauses, sends, receives before), with an unlimited sink: once neither side is paused, enough clock
    edges leave the source idle with every non-empty frame delivered. *)
Theorem C45_delivery : forall c slb slf klb klf ops, cfg_ok c -> x_last c = true -> klb <= 0 -> klf <= 0 ->
  Forall ac_keeps ops -> (forall a b, ~ In (ACSnk (ZLimits a b)) ops) ->
  let '(sent, received, h) := achan_trace c (achan_init slb slf klb klf) ops in
  a_pause (ac_src h) = false -> z_pause (ac_snk h) = false ->
  exists N, forall n, (N <= n)%nat -> let h' := aclocks c n h in
    asrc_is_idle (ac_src h') = true /\ Forall2 (received_as c) (filter nonempty (map snd sent)) (received ++ z_q (ac_snk h')).
Proof.
  intros c slb slf klb klf ops Hc Hl K1 K2 H Hn.
  assert (H0 : achan_inv c (achan_init slb slf klb klf)).
  { split; [|split; [discriminate|split; [reflexivity|discriminate]]]. split; [discriminate|]. split; [exact I|]. split; [constructor|]. auto. }
  pose proof (trace_live c ops Hc H Hn (achan_init slb slf klb klf) H0) as T.
  assert (Hcl : forall n, Forall ac_keeps (ops ++ repeat ACClk n)).
  { intros n. apply Forall_app. split; auto. apply Forall_forall. intros o Ho. apply repeat_spec in Ho. subst o. repeat split; discriminate. }
  assert (Happ : forall n, achan_trace c (achan_init slb slf klb klf) (ops ++ repeat ACClk n) =
     let '(sent, received, h) := achan_trace c (achan_init slb slf klb klf) ops in (sent, received, aclocks c n h)).
  { intros n. generalize (achan_init slb slf klb klf). clear. induction ops as [|o ops IH]; intros h; cbn [app achan_trace].
    - revert h. induction n as [|n IH]; intros h; [reflexivity|]. cbn [repeat achan_trace]. rewrite IH. now rewrite aclocks_S.
    - rewrite IH. now destruct (achan_trace c (achan_step c h o) ops) as [[sent got] h']. }
  assert (Cn : forall n, _) by (intros n; exact (C45_complete c slb slf klb klf (ops ++ repeat ACClk n) Hc Hl (Hcl n))).
  destruct (achan_trace c (achan_init slb slf klb klf) ops) as [[sent got] h]. cbn [snd] in T. intros P1 P2.
  destruct T as (T1 & T2 & T3 & T4 & T5); auto; [split; [discriminate|discriminate]|intros; exact I|].
  destruct (clocks_deliver c Hc h) as [N HN]; [unfold Lv, knolim; auto 10|].
  exists N. intros n Hn'. cbv zeta. specialize (HN n Hn'). split; [exact HN|]. specialize (Cn n). cbv beta in Cn. rewrite Happ in Cn. exact (Cn HN).
Qed.
Print Assumptions C45_delivery.
Example C45_delivery_nontrivial :
  let ops := [ACSrc (ASend 1 (aframe [1; 2; 3])); ACClk; ACSnk (ZPause true); ACSrc (ASend 2 (aframe [])); ACSrc (ASend 3 (aframe [4; 5])); ACClk; ACClk; ACClk; ACSnk (ZPause false)] in
  let '(sent, received, h) := achan_trace abus (achan_init (-1) (-1) (-1) (-1)) ops in
  received = [] /\ z_q (ac_snk h) = [] /\ asrc_is_idle (ac_src h) = false /\
  map cdata (z_q (ac_snk (aclocks abus 7 h))) = [[1; 2; 3]; [4; 5]] /\ asrc_is_idle (ac_src (aclocks abus 7 h)) = true.
Proof. vm_compute. repeat split. Qed.
