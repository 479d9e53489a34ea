(** C78: the time stamps sim_time_start and sim_time_end of AXI stream frames. *)
From Coq Require Import ZArith List Bool Lia.
From Verif Require Import Py M_stream M_axisframe M_axis M_axislink M_axistime S_axis S_axisrun S_axislink S_axistime P_axislink P_axistime T_axis T_axislink.
Import ListNotations.
Open Scope Z_scope.

(** C78, receivers.  Any history of a link with a source, a sink and a monitor - sends, pauses, limits, receives and reads, clears, common
    resets, clock edges at any times.  The frames that the sink has ever received, in order, are one for one the groups of transfers cut by tlast
    (a reset drops an open group), or the single transfers on a bus without tlast, each with the contents of its group, and its stamps are the times of the first and of the last transfer of
    the group.  The same for the monitor. *)
Theorem C78_received : forall c slb slf klb klf ops, cfg_ok c -> Forall top_ok ops ->
  let '(e, x) := ttrace c (tlink_init slb slf klb klf) ops in
  let k := ac_snk (k_ch (t_l x)) in let m := k_mon (t_l x) in
  (length (rs_q (t_z x)) = length (z_q k) /\ Forall2 (stamped c) (fst (rx_groups c (xfers (ev e)))) (zgot e ++ combine (z_q k) (rs_q (t_z x)))) /\
  (length (rs_q (t_m x)) = length (n_q m) /\ Forall2 (stamped c) (fst (rx_groups c (xfers (ev e)))) (mgot e ++ combine (n_q m) (rs_q (t_m x)))).
Proof.
  intros c slb slf klb klf ops Hc Ho. pose proof (recv_init c Hc slb slf klb klf ops Ho) as H. destruct (ttrace c _ ops) as [e x]. destruct H as [[H1 H2 _] [H3 H4 _]]. auto.
Qed.
Print Assumptions C78_received.

(** Source.  At clock edges with increasing times: each completion has its stamps; those of the completions that are no clear or reset are, in
    order, one for one the groups of beats put on the wires (on a bus without tlast, b_last is
    still the last beat of the frame in the source, as M_axis.drive builds it).  The end is the edge at which the last beat was put there; the start is never later than
    the edge of the first beat, and equal to it if the source is never paused. *)
Theorem C78_sent : forall c slb slf klb klf now ops, cfg_ok c -> Forall top_ok ops -> increasing now ops ->
  let '(e, x) := ttrace c (tlink_init slb slf klb klf) ops in
  length (ss_done (t_s x)) = length (a_done (ac_src (k_ch (t_l x)))) /\
  Forall2 sent_stamped (fst (groups (puts (ev e)))) (transmitted (ss_done (t_s x))) /\
  (never_paused ops -> Forall2 sent_exactly (fst (groups (puts (ev e)))) (transmitted (ss_done (t_s x)))).
Proof.
  intros c slb slf klb klf now ops Hc Ho Hi.
  pose proof (sent_init c Hc false false slb slf klb klf now ops Ho Hi ltac:(discriminate) ltac:(discriminate)) as H1.
  pose proof (fun K => sent_init c Hc true false slb slf klb klf now ops Ho Hi K ltac:(discriminate)) as H2.
  destruct (ttrace c _ ops) as [e x]. destruct H1 as (n & [A _ _ B _] & _). split; [exact A|]. split.
  - clear -B. induction B as [|g p l m (s & E & F & _) _ IH]; constructor; auto. exists s. auto.
  - intros Hp. destruct (H2 (fun _ => Hp)) as (n' & [_ _ _ B' _] & _). clear -B'. induction B' as [|g p l m (s & E & _ & F) _ IH]; constructor; auto.
    unfold sent_exactly. rewrite E, F by reflexivity. reflexivity.
Qed.
Print Assumptions C78_sent.

(** Without resets, whatever the pauses and the back pressure: at most one frame is transmitted and not yet received, and the stamps of the n-th
    transmitted frame are, start and end, strictly before those of the n-th received frame. *)
Theorem C78_before : forall c slb slf klb klf now ops, cfg_ok c -> x_last c = true -> Forall top_ok ops -> increasing now ops -> never_reset ops ->
  let '(e, x) := ttrace c (tlink_init slb slf klb klf) ops in
  let tx := transmitted (ss_done (t_s x)) in let rx := map snd (zgot e ++ combine (z_q (ac_snk (k_ch (t_l x)))) (rs_q (t_z x))) in
  (length rx <= length tx <= S (length rx))%nat /\ Forall2 before (firstn (length rx) tx) rx.
Proof.
  intros c slb slf klb klf now ops Hc Hl Ho Hi Hr.
  pose proof (sent_init c Hc false true slb slf klb klf now ops Ho Hi ltac:(discriminate) (fun _ => Hr)) as H1.
  pose proof (recv_init c Hc slb slf klb klf ops Ho) as H2. destruct (ttrace c _ ops) as [e x]. destruct H1 as (n & A & B). destruct H2 as [[_ H2 _] _]. rewrite (rx_groups_last c _ Hl) in H2.
  cbv zeta. rewrite map_length. exact (before_run c false _ _ _ n _ A (B eq_refl) H2).
Qed.
Print Assumptions C78_before.

(** Example: two lanes; frame 1 (three beats) meets back pressure, frame 2 a pause of the source; then a reset in frame 3, and frame 4. *)
Definition time_ops : list top :=
  [TOp None (LSrc (ASend 1 (aframe [1; 2; 3; 4; 5]))); TClk 10; TOp None (LSnk (ZPause true)); TClk 20; TClk 30; TOp None (LSnk (ZPause false)); TClk 40; TClk 50; TClk 60; TClk 70;
   TOp None (LSrc (APause true)); TOp None (LSrc (ASend 2 (aframe [6; 7; 8]))); TClk 80; TClk 90; TOp None (LSrc (APause false)); TClk 100; TClk 110; TClk 120;
   TOp None (LSnk (ZRecv (RRecv true)))].
Definition time_rst : list top :=
  [TOp (Some 7) (LSrc (ASend 3 (aframe [9; 10; 11]))); TOp None (LSrc (ASend 4 (aframe [12; 13; 14]))); TClk 130; TClk 140; TOp None (LRst true); TClk 150;
   TOp None (LRst false); TClk 160; TClk 170; TClk 180; TOp (Some 7) (LSrc (ASend 5 (aframe [15; 16; 17]))); TOp None (LSrc AClear)].
Lemma time_ops_ok : Forall top_ok time_ops.
Proof.
  unfold time_ops. repeat (constructor; [first [exact I|cbn [top_ok]; split; [discriminate|]; split; [discriminate|]; split; [discriminate|];
    intros t f E; try discriminate; injection E as _ <-; repeat split; discriminate]|]). constructor.
Qed.
Lemma time_ops_inc : increasing 0 time_ops. Proof. cbn. lia. Qed.
Example C78_nontrivial :
  (let '(e, x) := ttrace abus (tlink_init (-1) (-1) (-1) (-1)) time_ops in
   map (fun p => (cdata (fst p), snd p)) (zgot e) = [([1; 2; 3; 4; 5], (20, 60))] /\ map cdata (z_q (ac_snk (k_ch (t_l x)))) = [[6; 7; 8]] /\ rs_q (t_z x) = [(110, 120)] /\
   rs_q (t_m x) = [(20, 60); (110, 120)] /\ ss_done (t_s x) = [(Some 10, Some 50); (Some 80, Some 110)] /\
   map (map fst) (fst (groups (xfers (ev e)))) = [[20; 50; 60]; [110; 120]] /\ map (map fst) (fst (groups (puts (ev e)))) = [[10; 20; 50]; [100; 110]]) /\
  (let '(e, x) := ttrace abus (tlink_init (-1) (-1) (-1) (-1)) (time_ops ++ time_rst) in
   map cdata (z_q (ac_snk (k_ch (t_l x)))) = [[6; 7; 8]; [12; 13; 14]] /\ rs_q (t_m x) = [(20, 60); (110, 120); (170, 180)] /\
   ss_done (t_s x) = [(Some 10, Some 50); (Some 80, Some 110); (Some 130, Some 140); (Some 160, Some 170); (Some 7, None)]).
Proof. vm_compute. repeat split. Qed.

(** the first part on a bus without tlast: each transfer is a frame with one time *)
Definition nobus := {| x_lanes := 2; x_bsize := 8; x_ready := true; x_last := false; x_keep := true; x_id := true; x_dest := false; x_user := false |}.
Example C78_no_tlast :
  let '(e, x) := ttrace nobus (tlink_init (-1) (-1) (-1) (-1)) time_ops in
  map (fun p => (cdata (fst p), snd p)) (zgot e) = [([1; 2], (20, 20))] /\ map cdata (z_q (ac_snk (k_ch (t_l x)))) = [[3; 4]; [5]; [6; 7]; [8]] /\
  rs_q (t_z x) = [(50, 50); (60, 60); (110, 110); (120, 120)] /\ rs_q (t_m x) = [(20, 20); (50, 50); (60, 60); (110, 110); (120, 120)] /\
  ss_done (t_s x) = [(Some 10, Some 50); (Some 80, Some 110)].
Proof. vm_compute. repeat split. Qed.

(** README 314-315 ("simulation time of first transfer cycle of frame", "of last transfer cycle of frame") is false of the frames that the source
    gives back: the stamps are no times of transfers; with a paused source the start is not even the time at which the first beat appears
    on the wires; and a frame can have both stamps although its last transfer never takes place. *)
Theorem C78_source_refuted :
  (exists ops, Forall top_ok ops /\ increasing 0 ops /\ never_reset ops /\
     let '(e, x) := ttrace abus (tlink_init (-1) (-1) (-1) (-1)) ops in
     exists g g' s t, fst (groups (xfers (ev e))) = [g] /\ fst (groups (puts (ev e))) = [g'] /\ ss_done (t_s x) = [(Some s, Some t)] /\
       s <> first_time g /\ t <> last_time g /\ s <> first_time g') /\
  (exists ops, Forall top_ok ops /\ increasing 0 ops /\
     let '(e, x) := ttrace abus (tlink_init (-1) (-1) (-1) (-1)) ops in
     ss_done (t_s x) = [(Some 10, Some 10)] /\ xfers (ev e) = [None]).
Proof.
  split.
  - exists [TOp None (LSrc (APause true)); TOp None (LSrc (ASend 1 (aframe [1; 2; 3]))); TClk 10; TOp None (LSrc (APause false)); TClk 20; TClk 30; TClk 40].
    split; [|split; [cbn; lia|split]].
    + repeat (constructor; [first [exact I|cbn [top_ok]; split; [discriminate|]; split; [discriminate|]; split; [discriminate|];
        intros t f E; try discriminate; injection E as _ <-; repeat split; discriminate]|]). constructor.
    + intros st H. cbn in H. intuition discriminate.
    + remember (ttrace _ _ _) as r eqn:E. vm_compute in E. subst r. do 4 eexists. do 3 (split; [reflexivity|]). repeat split; discriminate.
  - exists [TOp None (LSrc (ASend 1 (aframe [1; 2]))); TClk 10; TOp None (LRst true)]. split; [|split; [cbn; lia|]].
    + repeat (constructor; [first [exact I|cbn [top_ok]; split; [discriminate|]; split; [discriminate|]; split; [discriminate|];
        intros t f E; try discriminate; injection E as _ <-; repeat split; discriminate]|]). constructor.
    + vm_compute. repeat split.
Qed.
Print Assumptions C78_source_refuted.
