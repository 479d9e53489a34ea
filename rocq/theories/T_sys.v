(** C52: a master connected to a slave, under every schedule. *)
From Coq Require Import ZArith Lia List Bool.
From Coq Require Import ZifyBool ZifyNat.
From Verif Require Import Py S_flat M_sparse S_sparse P_sparse M_memory P_memory M_axi S_axi P_axi P_axislave P_axiop P_axicomp P_axiram
  M_liteeng M_axieng S_axieng P_axieng P_axiattr T_axieng M_sys S_sys P_sys P_syswr.
Import ListNotations.
Open Scope Z_scope.

(** C52.  AxiMaster - AxiSlave, any target (it may raise), any operations, any schedule h of the user, the tasks and the
    channels, possibly unfinished.  [A]: the operations in issue order with their IDs.  There are, for each operation, the calls
    made for it and the responses given to it ([written]) such that
    - the calls made so far are the first calls of the operations in issue order, with the target's results;
    - for each ID the operations completed so far are the first ones issued, each with its own responses;
    - all calls of a completed operation with data (and of the operations issued before it) have been made;
    - if no task or channel can run, everything was called and everything has completed. *)
Theorem C52_write_system : forall T (tw : T -> Z -> list Z -> T * res unit) c idn t0 h, 0 < idn -> Forall no_poke h ->
  let '(y, l) := wsys_run c idn (log_write tw) (m_lanes c) true (t0, []) h in
  let A := assigned op_id idn 0 (xstarted l) in
  let '(t, log) := ws_target (y_s y) in
  Forall (fun p => write_legal (m_lanes c) (fst p)) A ->
  xcrashed l = false /\
  (forall d, In d (xcompleted l) -> exists u, snd (fst d) = Some u) /\
  exists ex tN, Forall2 (written c) A ex /\ is_prefix log (concat (map snd ex)) /\ replays tw t0 log t /\
    replays tw t0 (concat (map snd ex)) tN /\
    (forall u, exists k, (k <= length (with_tag u A))%nat /\
       completed_on u l = combine (firstn k (with_tag u A)) (firstn k (map fst (on_tag u A ex)))) /\
    (forall i o u, nth_error A i = Some (o, u) -> wc_data (snd o) <> [] ->
       (length (with_tag u (firstn i A)) < length (completed_on u l))%nat ->
       is_prefix (concat (map snd (firstn (S i) ex))) log) /\
    (quiescent (wsys_step c idn (log_write tw) (m_lanes c) true) y ->
       log = concat (map snd ex) /\ e_pend (y_m y) = [] /\
       forall u, completed_on u l = combine (with_tag u A) (map fst (on_tag u A ex))).
Proof. intros T tw c idn t0 h Hi Hh. exact (wsys_main0 tw c idn t0 h Hi Hh). Qed.
Print Assumptions C52_write_system.

(** bytes of the operations, in issue order *)
Definition op_bytes_of (A : list (wop * Z)) : list (Z * Z) :=
  flat_map (fun p => addressed (wc_addr (snd (fst p))) (wc_data (snd (fst p)))) A.

Lemma written_bytes c A ex : Forall2 (written c) A ex -> existsb failed (concat (map snd ex)) = false ->
  calls_bytes (concat (map snd ex)) = op_bytes_of A.
Proof.
  induction 1 as [|[o u] [rs cs] A ex (_ & _ & _ & _ & H & _) HF IH]; [reflexivity|]. cbn [map concat snd op_bytes_of flat_map fst].
  rewrite existsb_app, calls_bytes_app. intros Hf. apply orb_false_iff in Hf as [F1 F2]. rewrite (H F1). f_equal. now apply IH.
Qed.
Lemma written_ok c A ex : Forall2 (written c) A ex -> Forall (call_ok (m_lanes c)) (concat (map snd ex)).
Proof.
  induction 1 as [|[o u] [rs cs] A ex (_ & _ & H & _) HF IH]; [constructor|]. cbn [map concat snd]. now apply Forall_app.
Qed.
Lemma written_range c lo hi A ex : Forall2 (written c) A ex ->
  Forall (fun p : wop * Z => lo <= wc_addr (snd (fst p)) /\ wc_addr (snd (fst p)) + zlen (wc_data (snd (fst p))) <= hi) A ->
  Forall (fun p => lo <= fst p < hi) (calls_bytes (concat (map snd ex))).
Proof.
  induction 1 as [|[o u] [rs cs] A ex (_ & _ & _ & H & _) HF IH]; [constructor|]. cbn [map concat snd]. intros HR. inversion HR as [|? ? [R1 R2] HR']; subst.
  rewrite calls_bytes_app. apply Forall_app. split; [|auto]. apply Forall_forall. intros p Hp. apply H in Hp. apply in_addressed in Hp.
  cbn [fst snd] in *. lia.
Qed.
Lemma written_okay c A ex : Forall2 (written c) A ex -> existsb failed (concat (map snd ex)) = false ->
  Forall2 (fun p rs => Forall (fun b => b_id b = snd p) rs /\ write_returns c (fst p) (snd p) rs = Some OKAY) A (map fst ex).
Proof.
  induction 1 as [|[o u] [rs cs] A ex (H1 & H2 & _) HF IH]; [constructor|]. cbn [map concat snd]. rewrite existsb_app. intros Hf.
  apply orb_false_iff in Hf as [F1 F2]. constructor; [|auto]. rewrite F1 in H2. auto.
Qed.

(** C52 for memory.  A target that stores bytes: at every moment of every run the memory is the initial memory updated with a
    prefix of the bytes of the operations, in issue order; all operations return OKAY; the bytes of completed operations (and of those issued before
    them) are in the prefix; if no task or channel can run, all bytes are. *)
Theorem C52_write_memory : forall T L lo hi phi (inv : T -> Prop) view tw tr,
  flat_target L lo hi phi inv view tw tr ->
  forall c idn t0 h, m_lanes c = L -> 0 < idn -> inv t0 -> Forall no_poke h ->
  let '(y, l) := wsys_run c idn (log_write tw) L true (t0, []) h in
  let A := assigned op_id idn 0 (xstarted l) in
  Forall (fun p => write_legal L (fst p) /\ lo <= wc_addr (snd (fst p)) /\
                   wc_addr (snd (fst p)) + zlen (wc_data (snd (fst p))) <= hi) A ->
  exists rss bytes,
    Forall2 (fun p rs => Forall (fun b => b_id b = snd p) rs /\ write_returns c (fst p) (snd p) rs = Some OKAY) A rss /\
    is_prefix bytes (op_bytes_of A) /\
    view (fst (ws_target (y_s y))) =f put phi (view t0) bytes /\
    (forall u, exists k, (k <= length (with_tag u A))%nat /\
       completed_on u l = combine (firstn k (with_tag u A)) (firstn k (on_tag u A rss))) /\
    (forall i o u, nth_error A i = Some (o, u) -> wc_data (snd o) <> [] ->
       (length (with_tag u (firstn i A)) < length (completed_on u l))%nat ->
       is_prefix (op_bytes_of (firstn (S i) A)) bytes) /\
    (quiescent (wsys_step c idn (log_write tw) L true) y ->
       bytes = op_bytes_of A /\ e_pend (y_m y) = [] /\
       forall u, completed_on u l = combine (with_tag u A) (on_tag u A rss)).
Proof.
  intros T L lo hi phi inv view tw tr Hft c idn t0 h HL Hi Ht Hh. subst L.
  pose proof (C52_write_system T tw c idn t0 h Hi Hh) as M.
  destruct (wsys_run c idn (log_write tw) (m_lanes c) true (t0, []) h) as [y l]. cbv zeta in *.
  set (A := assigned op_id idn 0 (xstarted l)) in *. destruct (ws_target (y_s y)) as [t log]. intros HA.
  assert (HA1 : Forall (fun p => write_legal (m_lanes c) (fst p)) A) by (eapply Forall_impl; [|exact HA]; intros p (H & _); exact H).
  destruct (M HA1) as (_ & _ & ex & tN & HF & [more Hpre] & Hrep & HrepN & Hcomp & Hdone & Hq).
  pose proof (written_ok _ _ _ HF) as Hcok. pose proof (written_range c lo hi _ _ HF) as Hrg.
  assert (HA2 : Forall (fun p : wop * Z => lo <= wc_addr (snd (fst p)) /\ wc_addr (snd (fst p)) + zlen (wc_data (snd (fst p))) <= hi) A)
    by (eapply Forall_impl; [|exact HA]; intros p (_ & H); exact H).
  specialize (Hrg HA2).
  destruct (replays_flat _ _ _ _ _ _ _ _ Hft _ _ _ Ht Hcok Hrg HrepN) as (Fall & _ & _).
  rewrite Hpre in Hcok, Hrg. apply Forall_app in Hcok as [Hcok _]. rewrite calls_bytes_app in Hrg. apply Forall_app in Hrg as [Hrg _].
  destruct (replays_flat _ _ _ _ _ _ _ _ Hft _ _ _ Ht Hcok Hrg Hrep) as (_ & _ & Hv).
  assert (Hlen : length ex = length A) by (clear - HF; induction HF; cbn; congruence).
  assert (Hon : forall u, on_tag u A (map fst ex) = map fst (on_tag u A ex)) by (intros u; rewrite <- combine_on_tag by auto; reflexivity).
  exists (map fst ex), (calls_bytes log). split; [now apply written_okay|].
  split; [exists (calls_bytes more); rewrite <- calls_bytes_app, <- Hpre; symmetry; now apply (written_bytes c)|].
  split; [exact Hv|]. split; [intros u; rewrite Hon; apply Hcomp|]. split.
  - intros i o u Hn Hd Hk. destruct (Hdone i o u Hn Hd Hk) as [z Hz]. exists (calls_bytes z). rewrite Hz, calls_bytes_app. f_equal.
    apply (written_bytes c).
    + clear - HF. revert i. induction HF as [|p x A ex Hx HF IH]; intros i; [constructor|]. cbn [firstn]. constructor; auto.
      destruct i; [constructor|]. apply IH.
    + assert (K : existsb failed (concat (map snd ex)) = false) by exact Fall.
      rewrite <- (firstn_skipn (S i) ex), map_app, concat_app, existsb_app in K. now apply orb_false_iff in K.
  - intros Hqq. destruct (Hq Hqq) as (-> & Hpe & Hall). split; [now apply (written_bytes c)|]. split; [exact Hpe|].
    intros u. rewrite Hon. apply Hall.
Qed.
Print Assumptions C52_write_memory.

(** AxiRam of [size] bytes *)
Corollary C52_ram_write : forall size c idn m0 h, 0 < size -> 0 < m_lanes c -> size mod m_lanes c = 0 -> sm_reachable size m0 ->
  0 < idn -> Forall no_poke h ->
  let '(y, l) := wsys_run c idn (log_write ram_write) (m_lanes c) true (m0, []) h in
  let A := assigned op_id idn 0 (xstarted l) in
  Forall (fun p => write_legal (m_lanes c) (fst p)) A ->
  exists rss bytes,
    Forall2 (fun p rs => Forall (fun b => b_id b = snd p) rs /\ write_returns c (fst p) (snd p) rs = Some OKAY) A rss /\
    is_prefix bytes (op_bytes_of A) /\
    peek (fst (ws_target (y_s y))) =f put (fun x => x mod size) (peek m0) bytes /\
    (forall u, exists k, (k <= length (with_tag u A))%nat /\
       completed_on u l = combine (firstn k (with_tag u A)) (firstn k (on_tag u A rss))) /\
    (forall i o u, nth_error A i = Some (o, u) -> wc_data (snd o) <> [] ->
       (length (with_tag u (firstn i A)) < length (completed_on u l))%nat ->
       is_prefix (op_bytes_of (firstn (S i) A)) bytes) /\
    (quiescent (wsys_step c idn (log_write ram_write) (m_lanes c) true) y ->
       bytes = op_bytes_of A /\ e_pend (y_m y) = [] /\
       forall u, completed_on u l = combine (with_tag u A) (on_tag u A rss)).
Proof.
  intros size c idn m0 h Hs HL Hm Hr Hi Hh.
  assert (K : forall A : list (wop * Z), exists hi, Forall (fun p => wc_addr (snd (fst p)) + zlen (wc_data (snd (fst p))) <= hi) A).
  { induction A as [|p A [hi IH]]; [exists 0; constructor|]. exists (Z.max hi (wc_addr (snd (fst p)) + zlen (wc_data (snd (fst p))))).
    constructor; [apply Z.le_max_r|]. eapply Forall_impl; [|exact IH]. intros q Hq. cbv beta in *. etransitivity; [exact Hq|apply Z.le_max_l]. }
  destruct (wsys_run c idn (log_write ram_write) (m_lanes c) true (m0, []) h) as [y l] eqn:E. cbv zeta. intros HA.
  destruct (K (assigned op_id idn 0 (xstarted l))) as [hi Hhi].
  pose proof (C52_write_memory _ (m_lanes c) 0 hi _ _ _ _ _ (ram_flat (m_lanes c) size 0 hi HL Hs Hm) c idn m0 h eq_refl Hi Hr Hh) as M.
  rewrite E in M. cbv zeta in M. apply M. clear M. rewrite Forall_forall in *. intros p Hp. pose proof (HA p Hp) as HH. split; [exact HH|].
  split; [destruct HH as (_ & _ & _ & HH); exact HH|]. now apply Hhi.
Qed.
Print Assumptions C52_ram_write.

(** three overlapping writes, two IDs, on a 16 byte RAM; all tasks and channels in turn *)
Definition ex_cfg : mcfg := {| m_lanes := 4; m_mbl := 2 |}.
Definition ex_write (n : Z) (id : option Z) (a : Z) (d : list Z) (sz : Z) : wop :=
  (n, id, {| wc_addr := a; wc_data := d; wc_burst := INCR; wc_size := sz; wc_side := ex_side; wc_wuser := WInt 0 |}).
Definition ex_ops : list wop :=
  [ex_write 1 None 2 [1;2;3;4;5;6;7;8;9;10;11] 1; ex_write 2 (Some 7) 4 [21;22;23] 2; ex_write 3 None 15 [31;32;33] 2].
Definition ex_round {S} : list (yop wop S) :=
  [YStart 0; YGet; YSend; YLoad true; YLoad false; YXfer true; YXfer false; YSlave; YLoadB; YXferB; YRecv; YCGet 2; YCGet 1; YCGet 0;
   YCResp 2; YCResp 1; YCResp 0].
Definition ex_sched {S} (n : nat) : list (yop wop S) := map YInit ex_ops ++ concat (repeat ex_round n).
Definition ex_sys n := wsys_run ex_cfg 4 (log_write ram_write) 4 true (sm_init 16, []) (ex_sched n).
Example C52_nontrivial :
  let '(y, l) := ex_sys 60 in
  (map (fun d => (fst (fst (fst (fst d))), snd (fst d), map b_resp (snd d))) (xcompleted l),
   map (fun e => (fst (fst e), zlen (snd (fst e)))) (snd (ws_target (y_s y))),
   map (peek (fst (ws_target (y_s y)))) (zrange 0 16)) =
  ([(1, Some 0, [OKAY; OKAY; OKAY]); (2, Some 7, [OKAY]); (3, Some 1, [OKAY])],
   [(2, 2); (4, 2); (6, 2); (8, 2); (10, 2); (12, 1); (4, 3); (15, 1); (16, 2)],
   [32; 33; 1; 2; 21; 22; 23; 6; 7; 8; 9; 10; 11; 0; 0; 31]).
Proof. vm_compute. reflexivity. Qed.
Example C52_nontrivial_hyp : Forall (fun o => write_legal 4 o) ex_ops /\
  let '(y, l) := ex_sys 60 in quiescent (wsys_step ex_cfg 4 (log_write ram_write) 4 true) y.
Proof.
  split.
  - repeat constructor; cbn; try lia; try (exists 2; lia).
  - assert (E : exists yl, yl = ex_sys 60) by eauto. destruct E as [[y l] E]. rewrite <- E. vm_compute in E. injection E as -> _.
    intros o Ho. destruct o; cbn in Ho; try contradiction; try (vm_compute; reflexivity).
    + destruct n; reflexivity.
    + destruct i as [|[|[|[|i]]]]; reflexivity.
    + destruct i as [|[|[|[|i]]]]; reflexivity.
    + destruct k; reflexivity.
    + destruct k; reflexivity.
Qed.
(** the same run stopped early: part of the bytes are stored, nothing has completed *)
Example C52_nontrivial_early :
  let '(y, l) := ex_sys 8 in
  (map (fun d => fst (fst (fst (fst d)))) (xcompleted l), map (peek (fst (ws_target (y_s y)))) (zrange 0 16)) =
  ([], [0; 0; 1; 2; 3; 4; 5; 6; 7; 8; 0; 0; 0; 0; 0; 0]).
Proof. vm_compute. reflexivity. Qed.
