(** C54: the read path of a master connected to a slave, under every schedule; both paths with a target others change. *)
From Coq Require Import ZArith Lia List Bool.
From Coq Require Import ZifyBool ZifyNat.
From Verif Require Import Py S_flat M_sparse S_sparse P_sparse M_memory P_memory M_axi S_axi P_axi P_axislave P_axiop P_axicomp P_axiram
  M_liteeng M_axieng S_axieng P_axieng P_axiattr T_axieng M_sys S_sys P_sys P_syswr P_sysrd T_sys.
Import ListNotations.
Open Scope Z_scope.

(** C54.  AxiMaster - AxiSlave, any target (it may raise, return short data, change by itself), any read operations, any schedule
    h, possibly unfinished.  [A]: the operations in issue order with their IDs.  There are, for each operation, the calls of the target
    made for it and the responses given to it ([fetched]: one call per container the range touches, in ascending order; read() returns each byte
    as that call returned it, 0 for a byte the call did not return, and SLVERR exactly if a call raised) such that
    - the calls made so far are the first calls of the operations in issue order;
    - for each ID the operations completed so far are the first ones issued, each with its own responses;
    - all calls of a completed operation (and of the operations issued before it) have been made;
    - if no task or channel can run, everything was called and everything has completed. *)
Theorem C54_read_system : forall T (tr : T -> Z -> Z -> T * res (list Z)) c idn t0 h, 0 < idn -> Forall rothers h ->
  let '(y, l) := rsys_run c idn (log_read tr) (m_lanes c) (t0, []) h in
  let A := assigned op_id idn 0 (xstarted l) in
  let log := snd (rs_target (y_s y)) in
  Forall (fun p => read_legal (m_lanes c) (fst p)) A ->
  xcrashed l = false /\
  (forall d, In d (xcompleted l) -> exists u, snd (fst d) = Some u) /\
  exists ex, Forall2 (fetched c) A ex /\ is_prefix log (concat (map snd ex)) /\
    (forall u, exists k, (k <= length (with_tag u A))%nat /\
       completed_on u l = combine (firstn k (with_tag u A)) (firstn k (map fst (on_tag u A ex)))) /\
    (forall i o u, nth_error A i = Some (o, u) -> rc_len (snd o) <> 0 ->
       (length (with_tag u (firstn i A)) < length (completed_on u l))%nat ->
       is_prefix (concat (map snd (firstn (S i) ex))) log) /\
    (quiescent (rsys_step c idn (log_read tr) (m_lanes c)) y -> log = concat (map snd ex) /\ e_pend (y_m y) = [] /\
       forall u, completed_on u l = combine (with_tag u A) (map fst (on_tag u A ex))).
Proof.
  intros T tr c idn t0 h Hi Hh.
  pose proof (rsys_main tr c (fun f => exists g, f = rs_poke (fun tl => (g (fst tl), snd tl))) (fun f H => H) idn Hi t0 h) as M.
  assert (Hp : Forall (P_sys.poke_ok (C := rop) (fun f => exists g, f = rs_poke (fun tl : T * list rcall => (g (fst tl), snd tl)))) h).
  { eapply Forall_impl; [|exact Hh]. intros [ | | | | | | | | | | | | | ]; cbn; tauto. }
  specialize (M Hp). destruct (rsys_run _ _ _ _ _ h) as [y l]. cbv zeta in *. unfold rlog in *. intros HA.
  destruct (M HA) as (M1 & M2 & ex & es & o & more & rest & sN & _ & _ & _ & _ & M3 & M4 & M5 & M6 & M7).
  split; auto. split; auto. exists ex. auto 8.
Qed.
Print Assumptions C54_read_system.

(** C54 without others: the results of the calls are the target's, in this order from its initial state. *)
Theorem C54_read_calls : forall T (tr : T -> Z -> Z -> T * res (list Z)) c idn t0 h, 0 < idn -> Forall no_poke h ->
  let '(y, l) := rsys_run c idn (log_read tr) (m_lanes c) (t0, []) h in
  let A := assigned op_id idn 0 (xstarted l) in
  let '(t, log) := rs_target (y_s y) in
  Forall (fun p => read_legal (m_lanes c) (fst p)) A ->
  rreplays tr t0 log t /\
  exists ex tN, Forall2 (fetched c) A ex /\ is_prefix log (concat (map snd ex)) /\ rreplays tr t0 (concat (map snd ex)) tN /\
    (forall u, exists k, (k <= length (with_tag u A))%nat /\
       completed_on u l = combine (firstn k (with_tag u A)) (firstn k (map fst (on_tag u A ex)))) /\
    (quiescent (rsys_step c idn (log_read tr) (m_lanes c)) y -> log = concat (map snd ex) /\ e_pend (y_m y) = [] /\
       forall u, completed_on u l = combine (with_tag u A) (map fst (on_tag u A ex))).
Proof.
  intros T tr c idn t0 h Hi Hh.
  pose proof (rsys_main tr c nopk (fun f (H : nopk f) => match H with end) idn Hi t0 h) as M.
  assert (Hp : Forall (P_sys.poke_ok (C := rop) nopk) h).
  { eapply Forall_impl; [|exact Hh]. intros [ | | | | | | | | | | | | | ]; cbn; tauto. }
  specialize (M Hp). destruct (rsys_run _ _ _ _ _ h) as [y l]. cbv zeta in *. unfold rlog in *.
  destruct (rs_target (y_s y)) as [t log] eqn:Et. intros HA.
  destruct (M HA) as (M1 & M2 & ex & es & o & more & rest & sN & T0 & T1 & T2 & EN & M3 & M4 & M5 & M6 & M7).
  destruct (rtrace_replays tr c _ _ _ _ T1) as (lg & Hlg & Hrep). unfold rlog in Hlg. rewrite Et in Hlg, Hrep. cbn in Hlg, Hrep. subst lg.
  split; [exact Hrep|].
  destruct (rtrace_replays tr c _ _ _ _ T2) as (lg & Hlg & Hrep2). unfold rlog in Hlg. rewrite EN in Hlg.
  rewrite Et in Hlg, Hrep2. cbn [fst snd] in *. exists ex, (fst (rs_target sN)). split; auto. split; auto. split; [|auto].
  rewrite Hlg. eapply rreplays_app; eauto.
Qed.
Print Assumptions C54_read_calls.

Lemma rreplays_flat {T} L lo hi phi (inv : T -> Prop) view tw tr : flat_target L lo hi phi inv view tw tr ->
  forall l t t', inv t -> Forall (fun e : rcall => lo <= fst (fst e) /\ fst (fst e) + L <= hi /\ fst (fst e) mod L = 0 /\ snd (fst e) = L) l ->
  rreplays tr t l t' -> Forall (word_of L phi (view t)) l.
Proof.
  intros Hft l. induction l as [|[[a n] r] l IH]; intros t t' Hi Hr Hrep; [constructor|].
  apply Forall_cons_iff in Hr as [(R1 & R2 & R3 & R4) Hr']. cbn [fst snd] in *. subst n.
  destruct (ft_read _ _ _ _ _ _ _ _ Hft t a Hi R1 R2 R3) as (t1 & E & Hi1 & Hv1).
  cbn [rreplays] in Hrep. rewrite E in Hrep. cbn [fst snd] in Hrep. destruct Hrep as [<- Hrep]. constructor.
  - eexists. split; [reflexivity|]. split; [|reflexivity]. apply Forall_forall. intros b Hb. apply in_map_iff in Hb. destruct Hb as (x & <- & _). apply (ft_bytes _ _ _ _ _ _ _ _ Hft). exact Hi.
  - specialize (IH _ _ Hi1 Hr' Hrep). eapply Forall_impl; [|exact IH]. intros e (d & K1 & K2 & K3). exists d. split; auto. split; auto. rewrite K3.
    apply map_ext. intros x. apply Hv1.
Qed.

(** C54 for memory.  A target that stores bytes, nobody writes: every read() returns OKAY and the bytes of the memory. *)
Theorem C54_read_memory : forall T L lo hi phi (inv : T -> Prop) view tw tr,
  flat_target L lo hi phi inv view tw tr -> lo mod L = 0 -> hi mod L = 0 ->
  forall c idn t0 h, m_lanes c = L -> 0 < idn -> inv t0 -> Forall no_poke h ->
  let '(y, l) := rsys_run c idn (log_read tr) L (t0, []) h in
  let A := assigned op_id idn 0 (xstarted l) in
  Forall (fun p => read_legal L (fst p) /\ lo <= rc_addr (snd (fst p)) < hi /\ rc_addr (snd (fst p)) + rc_len (snd (fst p)) <= hi) A ->
  exists rss,
    Forall2 (fun p rs => Forall (fun r => r_id r = snd p) rs /\ read_returns c (fst p) (snd p) rs =
       Some (map (fun x => view t0 (phi x)) (zrange (rc_addr (snd (fst p))) (rc_addr (snd (fst p)) + rc_len (snd (fst p)))), OKAY)) A rss /\
    (forall u, exists k, (k <= length (with_tag u A))%nat /\
       completed_on u l = combine (firstn k (with_tag u A)) (firstn k (on_tag u A rss))) /\
    (quiescent (rsys_step c idn (log_read tr) L) y -> e_pend (y_m y) = [] /\
       forall u, completed_on u l = combine (with_tag u A) (on_tag u A rss)).
Proof.
  intros T L lo hi phi inv view tw tr Hft Hlo Hhi c idn t0 h HL Hi Ht Hh. subst L.
  pose proof (C54_read_calls T tr c idn t0 h Hi Hh) as M.
  destruct (rsys_run c idn (log_read tr) (m_lanes c) (t0, []) h) as [y l]. cbv zeta in *.
  set (A := assigned op_id idn 0 (xstarted l)) in *. destruct (rs_target (y_s y)) as [t log]. intros HA.
  assert (HA1 : Forall (fun p => read_legal (m_lanes c) (fst p)) A) by (eapply Forall_impl; [|exact HA]; intros p (H & _); exact H).
  destruct (M HA1) as (_ & ex & tN & HF & _ & HrepN & Hcomp & Hq).
  assert (Hrg : Forall (fun e : rcall => lo <= fst (fst e) /\ fst (fst e) + m_lanes c <= hi /\ fst (fst e) mod m_lanes c = 0 /\ snd (fst e) = m_lanes c) (concat (map snd ex))).
  { clear - HF HA Hlo Hhi. induction HF as [|[o u] [rs cs] A ex (_ & H & _) HF IH]; [constructor|]. cbn [map concat snd]. inversion HA as [|? ? (H1 & H2 & H3) HR']; subst.
    apply Forall_app. split; [|auto]. cbn [fst snd] in *. destruct H1 as (HG & _ & HA0 & Hl).
    pose proof (read_calls_range _ (snd o) lo hi HG HA0 Hl Hlo Hhi H2 H3) as K. rewrite <- H, Forall_map in K. exact K. }
  pose proof (rreplays_flat _ _ _ _ _ _ _ _ Hft _ _ _ Ht Hrg HrepN) as HW.
  assert (Hlen : length ex = length A) by (clear - HF; induction HF; cbn; congruence).
  assert (Hon : forall u, on_tag u A (map fst ex) = map fst (on_tag u A ex)) by (intros u; rewrite <- combine_on_tag by auto; reflexivity).
  exists (map fst ex). split; [|split].
  - clear - HF HA1 HW. induction HF as [|[o u] [rs cs] A ex HX HF IH]; [constructor|]. cbn [map concat snd fst] in *. inversion HA1; subst. apply Forall_app in HW as [HW1 HW2].
    constructor; [|auto]. cbn [fst snd] in *. split; [apply HX|]. apply (fetched_mem c phi o u rs cs (fun _ => view t0)); auto.
    intros k e Hk. rewrite Forall_forall in HW1. apply HW1. eapply nth_error_In; eauto.
  - intros u. rewrite Hon. apply Hcomp.
  - intros Hqq. destruct (Hq Hqq) as (_ & Hpe & Hall). split; [exact Hpe|]. intros u. rewrite Hon. apply Hall.
Qed.
Print Assumptions C54_read_memory.

(** C52 with a target that others change at any time (C52_write_system without the replay of the calls). *)
Theorem C54_write_system_shared : forall T (tw : T -> Z -> list Z -> T * res unit) c idn t0 h, 0 < idn -> Forall wothers h ->
  let '(y, l) := wsys_run c idn (log_write tw) (m_lanes c) true (t0, []) h in
  let A := assigned op_id idn 0 (xstarted l) in
  let log := snd (ws_target (y_s y)) in
  Forall (fun p => write_legal (m_lanes c) (fst p)) A ->
  xcrashed l = false /\
  (forall d, In d (xcompleted l) -> exists u, snd (fst d) = Some u) /\
  exists ex, Forall2 (written c) A ex /\ is_prefix log (concat (map snd ex)) /\
    (forall u, exists k, (k <= length (with_tag u A))%nat /\
       completed_on u l = combine (firstn k (with_tag u A)) (firstn k (map fst (on_tag u A ex)))) /\
    (forall i o u, nth_error A i = Some (o, u) -> wc_data (snd o) <> [] ->
       (length (with_tag u (firstn i A)) < length (completed_on u l))%nat ->
       is_prefix (concat (map snd (firstn (S i) ex))) log) /\
    (quiescent (wsys_step c idn (log_write tw) (m_lanes c) true) y -> log = concat (map snd ex) /\ e_pend (y_m y) = [] /\
       forall u, completed_on u l = combine (with_tag u A) (map fst (on_tag u A ex))).
Proof.
  intros T tw c idn t0 h Hi Hh.
  pose proof (wsys_main tw c (fun f => exists g, f = ws_poke (fun tl => (g (fst tl), snd tl))) (fun f H => H) idn Hi t0 h) as M.
  assert (Hp : Forall (P_sys.poke_ok (C := wop) (fun f => exists g, f = ws_poke (fun tl : T * list call => (g (fst tl), snd tl)))) h).
  { eapply Forall_impl; [|exact Hh]. intros [ | | | | | | | | | | | | | ]; cbn; tauto. }
  specialize (M Hp). destruct (wsys_run _ _ _ _ _ _ h) as [y l]. cbv zeta in *. unfold wlog in *. intros HA.
  destruct (M HA) as (M1 & M2 & ex & es & o & more & rest & sN & _ & _ & _ & _ & M3 & M4 & M5 & M6 & M7).
  split; auto. split; auto. exists ex. auto 8.
Qed.
Print Assumptions C54_write_system_shared.

(** ** examples: two reads with two IDs (narrow, over two bursts; unaligned) on a target whose third call raises and whose memory
    somebody changes in the middle *)
Definition ex_read (n : Z) (id : option Z) (a len sz : Z) : rop :=
  (n, id, {| rc_addr := a; rc_len := len; rc_burst := INCR; rc_size := sz; rc_side := ex_side |}).
Definition ex_rops : list rop := [ex_read 1 None 3 6 1; ex_read 2 (Some 7) 1 2 2].
Definition ex_rt (s : Z * Z) (a n : Z) : (Z * Z) * res (list Z) :=
  ((fst s + 1, snd s), if fst s =? 2 then Err KeyError else Ok (map (fun x => snd s + x) (zrange a (a + n)))).
Definition ex_rround {S} : list (yop rop S) :=
  [YStart 0; YGet; YSend; YLoad true; YXfer true; YSlave; YLoadB; YXferB; YRecv; YCGet 2; YCGet 1; YCGet 0;
   YCResp 2; YCResp 1; YCResp 0].
Definition ex_rsched (n m : nat) : list (yop rop (rslv ((Z * Z) * list rcall))) :=
  map YInit ex_rops ++ concat (repeat ex_rround n) ++ [YPoke (rs_poke (fun tl => ((fun s => (fst s, 50)) (fst tl), snd tl)))] ++ concat (repeat ex_rround m).
Definition ex_rsys n m := rsys_run ex_cfg 4 (log_read ex_rt) 4 ((0, 10), []) (ex_rsched n m).
Example C54_nontrivial :
  let '(y, l) := ex_rsys 7 60 in
  (map (fun d => (fst (fst (fst (fst d))), snd (fst d), read_returns ex_cfg (fst (fst d)) (match snd (fst d) with Some u => u | None => 0 end) (snd d))) (xcompleted l),
   map (fun e => (fst e, rfailed e)) (snd (rs_target (y_s y)))) =
  ([(1, Some 0, Some ([13; 14; 15; 0; 0; 58], SLVERR)); (2, Some 7, Some ([51; 52], OKAY))],
   [(0, 4, false); (4, 4, false); (4, 4, true); (8, 4, false); (0, 4, false)]).
Proof. vm_compute. reflexivity. Qed.
Example C54_nontrivial_hyp : Forall (read_legal 4) ex_rops /\ Forall rothers (ex_rsched 7 60) /\
  let '(y, l) := ex_rsys 7 60 in quiescent (rsys_step ex_cfg 4 (log_read ex_rt) 4) y.
Proof.
  split; [|split].
  - repeat constructor; cbn; try lia; try (exists 2; lia).
  - unfold ex_rsched. repeat (apply Forall_app; split); try (apply Forall_concat, Forall_forall; intros r Hr; apply repeat_spec in Hr; subst r); repeat constructor.
    cbn. exists (fun s => (fst s, 50)). reflexivity.
  - assert (E : exists yl, yl = ex_rsys 7 60) by eauto. destruct E as [[y l] E]. rewrite <- E. vm_compute in E. injection E as -> _.
    intros o Ho. destruct o; cbn in Ho; try contradiction; try (vm_compute; reflexivity).
    + destruct n; reflexivity.
    + destruct i as [|[|[|[|i]]]]; reflexivity.
    + destruct i as [|[|[|[|i]]]]; reflexivity.
    + destruct k; reflexivity.
    + destruct k; reflexivity.
Qed.
(** a RAM *)
Example C54_nontrivial_ram :
  let m := fst (ram_write (sm_init 16) 2 [1;2;3;4;5;6;7;8;9;10]) in
  let '(y, l) := rsys_run ex_cfg 4 (log_read ram_read) 4 (m, []) (map YInit ex_rops ++ concat (repeat ex_rround 60)) in
  map (fun d => read_returns ex_cfg (fst (fst d)) (match snd (fst d) with Some u => u | None => 0 end) (snd d)) (xcompleted l) =
  [Some ([2; 3; 4; 5; 6; 7], OKAY); Some ([0; 1], OKAY)].
Proof. vm_compute. reflexivity. Qed.
