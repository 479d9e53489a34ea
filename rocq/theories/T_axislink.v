(** AXI stream links under resets (C66). *)
From Coq Require Import ZArith Lia List Bool.
From Verif Require Import Py M_stream M_axisframe M_axis M_axislink S_axis S_axisrun S_axislink P_axisframe P_axis P_axischan P_axislive P_axislink T_axis.
Import ListNotations.
Open Scope Z_scope.

(** Every history of sends, receives, reads, pauses, limits, clears, clock edges and assertions and
    releases of the common reset.  Every non-empty frame sent has arrived whole, is lost, or is still
    at the source.  Those that arrived did so in the order sent, each once, and nothing else
    arrived.  Exactly the frame being sent when a reset starts and the frames queued when the source
    is cleared are lost.  Those still at the source are the one being sent (if active) and the queue. *)
Theorem C66_ledger : forall c slb slf klb klf ops, cfg_ok c -> x_last c = true -> Forall lk_ok ops ->
  let '(e, l) := ltrace c (alink_init slb slf klb klf) ops in
  let s := ac_src (k_ch l) in
  exists arrived sending,
    Forall2 (received_as c) arrived (e_got e ++ z_q (ac_snk (k_ch l))) /\
    ledger (filter nonempty (map snd (e_sent e))) arrived (e_lost e) (sending ++ filter nonempty (map snd (a_q s))) /\
    length sending = b2n (a_active s).
Proof.
  intros c slb slf klb klf ops Hc Hl H. pose proof (G_trace c Hc Hl ops _ _ _ H (G_init c slb slf klb klf)) as T.
  destruct (ltrace c (alink_init slb slf klb klf) ops) as [e l]. rewrite none_ljoin in T. destruct T as [_ _ _ (o & arr & S1 & S2 & S3)].
  cbv zeta. exists arr, (olist o). split; [exact S3|]. split; [exact S2|]. destruct S1 as [_ ->]. now destruct o.
Qed.
Print Assumptions C66_ledger.

(** A monitor on the same bus and reset reports exactly the frames that the sink receives. *)
Theorem C66_monitor_agrees : forall c slb slf klb klf ops, cfg_ok c -> x_last c = true -> Forall lk_ok ops ->
  let '(e, l) := ltrace c (alink_init slb slf klb klf) ops in
  e_mon e ++ n_q (k_mon l) = e_got e ++ z_q (ac_snk (k_ch l)).
Proof.
  intros c slb slf klb klf ops Hc Hl H. pose proof (G_trace c Hc Hl ops _ _ _ H (G_init c slb slf klb klf)) as T.
  destruct (ltrace c (alink_init slb slf klb klf) ops) as [e l]. rewrite none_ljoin in T. now destruct T.
Qed.
Print Assumptions C66_monitor_agrees.

(** After any history in which the sink is unlimited and never cleared: once the reset is released and
    nobody is paused, enough clock edges deliver everything that was not lost. *)
Theorem C66_recovers : forall c slb slf klb klf ops, cfg_ok c -> x_last c = true -> klb <= 0 -> klf <= 0 ->
  Forall lk_ok ops -> (forall a b, ~ In (LSnk (ZLimits a b)) ops) -> ~ In (LSnk ZClear) ops ->
  held false ops = false ->
  let '(e, l) := ltrace c (alink_init slb slf klb klf) ops in
  a_pause (ac_src (k_ch l)) = false -> z_pause (ac_snk (k_ch l)) = false ->
  exists N, forall n, (N <= n)%nat -> let l' := lclocks c n l in
    asrc_is_idle (ac_src (k_ch l')) = true /\
    exists arrived, Forall2 (received_as c) arrived (e_got e ++ z_q (ac_snk (k_ch l'))) /\
      ledger (filter nonempty (map snd (e_sent e))) arrived (e_lost e) [].
Proof.
  intros c slb slf klb klf ops Hc Hl K1 K2 H HL HZ Hh.
  pose proof (G_trace c Hc Hl ops _ _ _ H (G_init c slb slf klb klf)) as T. rewrite Hh in T.
  pose proof (lwake_trace c ops (alink_init slb slf klb klf) HL HZ) as W.
  destruct (ltrace c (alink_init slb slf klb klf) ops) as [e l]. rewrite none_ljoin in T. cbn [snd] in W. intros P1 P2.
  destruct W as (W1 & W2 & W3); [split; [exact K1|]; split; [exact K2|]; intros; exact I|].
  pose proof T as [[Hs [S1 S2] _ Hr] _ _ _]. cbn [rst_ok] in Hr. destruct Hr as (R1 & R2 & R3).
  assert (HLv : Lv c (k_ch l)).
  { split; [split; [exact Hs|split; [exact R2|split; [intros; apply S1; auto|exact S2]]]|]. unfold knolim. auto 10. }
  destruct (clocks_deliver c Hc (k_ch l) HLv) as [N HN].
  exists N. intros n Hn. cbv zeta. specialize (HN n Hn). rewrite <- lclocks_ch in HN. split; [exact HN|].
  pose proof (G_trace c Hc Hl (repeat LClk n) e false l) as T2. rewrite lclocks_trace, ljoin_none in T2.
  destruct T2 as [_ _ _ (o & arr & Q1 & Q2 & Q3)]; [|exact T|].
  - apply Forall_forall. intros x Hx. apply repeat_spec in Hx. subst x. repeat split; discriminate.
  - exists arr. split; [exact Q3|]. unfold asrc_is_idle in HN. unfold queued in Q2. destruct (a_q (ac_src (k_ch (lclocks c n l)))); [|discriminate].
    apply negb_true_iff in HN. destruct Q1 as [_ Q1]. rewrite HN in Q1. destruct o; [discriminate|]. exact Q2.
Qed.
Print Assumptions C66_recovers.

(** A reset in the middle of frame 1 with frame 2 queued: frame 1 is lost, frames 2 and 3 arrive;
    later a clear loses frame 5 behind the frame being sent. *)
Definition link_ops : list lop :=
  [LSrc (ASend 1 (aframe [1; 2; 3; 4; 5])); LSrc (ASend 2 (aframe [6; 7; 8])); LClk; LClk; LClk; LRst true; LClk;
   LSrc (ASend 3 (aframe [9])); LClk; LRst false; LClk; LSnk (ZPause true); LClk; LSrc (APause true); LClk; LSnk (ZPause false); LSrc (APause false);
   LClk; LClk; LClk; LClk; LClk; LClk; LSnk (ZRecv (RRecv true)); LMon (NRecv (RRecv true)); LMon (NRecv (RRecv false));
   LSrc (ASend 4 (aframe [10; 11; 12])); LSrc (ASend 5 (aframe [13])); LClk; LClk; LSrc AClear; LSrc (ASend 6 (aframe [14]))].
Lemma link_ops_ok : Forall lk_ok link_ops.
Proof.
  unfold link_ops. repeat (constructor; [split; [discriminate|]; split; [discriminate|]; split; [discriminate|];
    intros t f E; try discriminate; injection E as _ <-; repeat split; discriminate|]). constructor.
Qed.
Example C66_link_nontrivial :
  let '(e, l) := ltrace abus (alink_init (-1) (-1) (-1) (-1)) link_ops in
  map fst (e_sent e) = [1; 2; 3; 4; 5; 6] /\ map cdata (e_got e) = [[6; 7; 8]] /\ map cdata (z_q (ac_snk (k_ch l))) = [[9]] /\
  map cdata (e_mon e) = [[6; 7; 8]; [9]] /\ n_q (k_mon l) = [] /\ e_lost e = 2%nat /\ a_done (ac_src (k_ch l)) = [1; 2; 3; 4; 5] /\
  a_active (ac_src (k_ch l)) = true /\ held false link_ops = false /\
  map cdata (z_q (ac_snk (k_ch (lclocks abus 8 l)))) = [[9]; [10; 11; 12]; [14]].
Proof. vm_compute. repeat split. Qed.

(** Resetting only the source: the sink joins the head of one frame with the next frame.  Resetting only
    the sink: the tail of a frame arrives as a frame. *)
Theorem C66_single_reset_refuted :
  (exists ops r, let '(e, l) := ltrace abus (alink_init (-1) (-1) (-1) (-1)) ops in
     Forall (fun o => lk_ok o \/ exists b, o = LSrc (AReset b)) ops /\
     In r (z_q (ac_snk (k_ch l))) /\ forall t f, In (t, f) (e_sent e) -> ~ received_as abus f r) /\
  (exists ops r, let '(e, l) := ltrace abus (alink_init (-1) (-1) (-1) (-1)) ops in
     Forall (fun o => lk_ok o \/ exists b, o = LSnk (ZReset b)) ops /\
     In r (z_q (ac_snk (k_ch l))) /\ forall t f, In (t, f) (e_sent e) -> ~ received_as abus f r).
Proof.
  set (rx d := {| f_ba := true; f_data := d; f_keep := Some (map (fun x => if x =? 0 then 0 else 1) d); f_id := SList (map (fun _ => 3) d); f_dest := SList []; f_user := SList [] |}).
  split.
  - exists ([LSrc (ASend 1 (aframe [1; 2; 3; 4; 5; 6])); LSrc (ASend 2 (aframe [7; 8])); LClk; LClk; LSrc (AReset true); LSrc (AReset false)] ++ repeat LClk 5), (rx [1; 2; 7; 8]).
    vm_compute. split; [|split].
    + repeat (constructor; [first [right; eexists; reflexivity|left; split; [discriminate|]; split; [discriminate|]; split; [discriminate|];
        intros t f E; try discriminate; injection E as _ <-; repeat split; discriminate]|]). constructor.
    + auto.
    + intros t f [E|[E|[]]]; injection E as <- <-; intros (g & E1 & E2); vm_compute in E1; injection E1 as <-; vm_compute in E2; discriminate.
  - exists ([LSrc (ASend 1 (aframe [1; 2; 3; 4; 5; 6])); LClk; LClk; LClk; LSnk (ZReset true); LSnk (ZReset false)] ++ repeat LClk 8), (rx [5; 6]).
    vm_compute. split; [|split].
    + repeat (constructor; [first [right; eexists; reflexivity|left; split; [discriminate|]; split; [discriminate|]; split; [discriminate|];
        intros t f E; try discriminate; injection E as _ <-; repeat split; discriminate]|]). constructor.
    + auto.
    + intros t f [E|[]]; injection E as <- <-; intros (g & E1 & E2); vm_compute in E1; injection E1 as <-; vm_compute in E2; discriminate.
Qed.
Print Assumptions C66_single_reset_refuted.
