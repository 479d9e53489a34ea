(** C56, C57: an AXI-Lite master connected to an AXI-Lite slave, under every schedule. *)
From Coq Require Import ZArith Lia List Bool.
From Coq Require Import ZifyBool ZifyNat.
From Verif Require Import Py S_flat M_sparse S_sparse P_sparse M_memory P_memory M_axi S_axi P_axi P_axislave P_axiop P_axicomp P_axiram
  M_axil S_axil P_axil M_liteeng S_liteeng P_liteeng M_sys S_sys P_sys P_syswr P_sysrd T_sys T_sysrd
  M_litesys S_litesys P_litesys P_litewr P_literd.
Import ListNotations.
Open Scope Z_scope.

(** C56.  AxiLiteMaster - AxiLiteSlave, any target (it may raise, others may change it at any time), any write operations, any
    schedule h of the user, the tasks and the channels, possibly unfinished.  [A]: the operations in issue order.
    There are, for each operation, the calls made for it and the responses given to it ([lite_written]) such that
    - the calls made so far are the first calls of the operations in issue order;
    - the operations completed so far are the first ones issued, each with its own responses, and all their calls have been made;
    - if no task or channel can run, everything was called and everything has completed. *)
Theorem C56_lite_write_system : forall T (tw : T -> Z -> list Z -> T * res unit) L t0 h, 0 < L -> Forall lwothers h ->
  let '(y, l) := lwsys_run L (log_write tw) true (t0, []) h in
  let A := started l in
  let log := snd (lws_target (u_s y)) in
  Forall lite_write_legal A ->
  exists ex, Forall2 (lite_written L) A ex /\ is_prefix log (concat (map snd ex)) /\
    (exists k, (k <= length A)%nat /\ completed l = combine (firstn k A) (firstn k (map fst ex)) /\
       is_prefix (concat (map snd (firstn k ex))) log) /\
    (uquiescent (lwsys_step L (log_write tw) true) y ->
       log = concat (map snd ex) /\ g_pend (u_m y) = [] /\ completed l = combine A (map fst ex)).
Proof.
  intros T tw L t0 h HL Hh.
  pose proof (lwsys_main tw L HL (fun f => exists g, f = lws_poke (fun tl => (g (fst tl), snd tl))) (fun f H => H) t0 h) as M.
  assert (Hp : Forall (upoke_ok (C := Z * lwcmd) (fun f => exists g, f = lws_poke (fun tl : T * list call => (g (fst tl), snd tl)))) h).
  { eapply Forall_impl; [|exact Hh]. intros [ | | | | | | | | | | | | ]; cbn; tauto. }
  specialize (M Hp). destruct (lwsys_run _ _ _ _ h) as [y l]. cbv zeta in *. unfold llog in *. intros HA.
  destruct (M HA) as (M1 & ex & es & o & more & rest & sN & _ & _ & _ & M3 & M4 & M5 & M6). exists ex. auto.
Qed.
Print Assumptions C56_lite_write_system.

(** C56 without others: the results of the calls are the target's, in this order from its initial state. *)
Theorem C56_lite_write_calls : forall T (tw : T -> Z -> list Z -> T * res unit) L t0 h, 0 < L -> Forall uno_poke h ->
  let '(y, l) := lwsys_run L (log_write tw) true (t0, []) h in
  let A := started l in
  let '(t, log) := lws_target (u_s y) in
  Forall lite_write_legal A ->
  exists ex tN, Forall2 (lite_written L) A ex /\ is_prefix log (concat (map snd ex)) /\ replays tw t0 log t /\
    replays tw t0 (concat (map snd ex)) tN /\
    (exists k, (k <= length A)%nat /\ completed l = combine (firstn k A) (firstn k (map fst ex)) /\
       is_prefix (concat (map snd (firstn k ex))) log) /\
    (uquiescent (lwsys_step L (log_write tw) true) y ->
       log = concat (map snd ex) /\ g_pend (u_m y) = [] /\ completed l = combine A (map fst ex)).
Proof.
  intros T tw L t0 h HL Hh. pose proof (lwsys_main0 tw L t0 h HL Hh) as M.
  destruct (lwsys_run _ _ _ _ h) as [y l]. cbv zeta in *. destruct (lws_target (u_s y)) as [t log]. intros HA. now apply M.
Qed.
Print Assumptions C56_lite_write_calls.

(** bytes of the operations, in issue order *)
Definition lite_op_bytes (A : list (Z * lwcmd)) : list (Z * Z) := flat_map (fun o => addressed (lc_addr (snd o)) (lc_data (snd o))) A.

Lemma lwritten_bytes L A ex : Forall2 (lite_written L) A ex -> existsb failed (concat (map snd ex)) = false ->
  calls_bytes (concat (map snd ex)) = lite_op_bytes A.
Proof.
  induction 1 as [|o [rs cs] A ex (_ & _ & _ & H & _) HF IH]; [reflexivity|]. cbn [map concat snd lite_op_bytes flat_map fst].
  rewrite existsb_app, calls_bytes_app. intros Hf. apply orb_false_iff in Hf as [F1 F2]. rewrite (H F1). f_equal. now apply IH.
Qed.
Lemma lwritten_ok L A ex : Forall2 (lite_written L) A ex -> Forall (call_ok L) (concat (map snd ex)).
Proof.
  induction 1 as [|o [rs cs] A ex (_ & H & _) HF IH]; [constructor|]. cbn [map concat snd]. now apply Forall_app.
Qed.
Lemma lwritten_range L lo hi A ex : Forall2 (lite_written L) A ex ->
  Forall (fun o : Z * lwcmd => lo <= lc_addr (snd o) /\ lc_addr (snd o) + zlen (lc_data (snd o)) <= hi) A ->
  Forall (fun p => lo <= fst p < hi) (calls_bytes (concat (map snd ex))).
Proof.
  induction 1 as [|o [rs cs] A ex (_ & _ & H & _) HF IH]; [constructor|]. cbn [map concat snd]. intros HR. inversion HR as [|? ? [R1 R2] HR']; subst.
  rewrite calls_bytes_app. apply Forall_app. split; [|auto]. apply Forall_forall. intros p Hp. apply H in Hp. apply in_addressed in Hp. lia.
Qed.
Lemma lwritten_okay L A ex : Forall2 (lite_written L) A ex -> existsb failed (concat (map snd ex)) = false ->
  Forall (fun rs => lite_write_resp rs = OKAY) (map fst ex).
Proof.
  induction 1 as [|o [rs cs] A ex (H1 & _) HF IH]; [constructor|]. cbn [map concat snd fst]. rewrite existsb_app. intros Hf.
  apply orb_false_iff in Hf as [F1 F2]. constructor; [|auto]. now rewrite F1 in H1.
Qed.
Lemma forall2_firstn {X Y} (P : X -> Y -> Prop) a b : Forall2 P a b -> forall n, Forall2 P (firstn n a) (firstn n b).
Proof. induction 1 as [|x y a b Hx HF IH]; intros [|n]; cbn; constructor; auto. Qed.

(** C56 for memory.  A target that stores bytes: at every moment of every run the memory is the initial memory updated with a
    prefix of the bytes of the operations, in issue order; all operations return OKAY; the bytes of completed operations are in the prefix; if
    no task or channel can run, all bytes are. *)
Theorem C56_lite_write_memory : forall T L lo hi phi (inv : T -> Prop) view tw tr,
  flat_target L lo hi phi inv view tw tr -> 0 < L ->
  forall t0 h, inv t0 -> Forall uno_poke h ->
  let '(y, l) := lwsys_run L (log_write tw) true (t0, []) h in
  let A := started l in
  Forall (fun o => lite_write_legal o /\ lo <= lc_addr (snd o) /\ lc_addr (snd o) + zlen (lc_data (snd o)) <= hi) A ->
  exists k bytes, (k <= length A)%nat /\
    map fst (completed l) = firstn k A /\ Forall (fun d => lite_write_resp (snd d) = OKAY) (completed l) /\
    is_prefix bytes (lite_op_bytes A) /\ is_prefix (lite_op_bytes (firstn k A)) bytes /\
    view (fst (lws_target (u_s y))) =f put phi (view t0) bytes /\
    (uquiescent (lwsys_step L (log_write tw) true) y ->
       bytes = lite_op_bytes A /\ g_pend (u_m y) = [] /\ map fst (completed l) = A).
Proof.
  intros T L lo hi phi inv view tw tr Hft HL t0 h Ht Hh.
  pose proof (C56_lite_write_calls T tw L t0 h HL Hh) as M.
  destruct (lwsys_run L (log_write tw) true (t0, []) h) as [y l]. cbv zeta in *.
  set (A := started l) in *. destruct (lws_target (u_s y)) as [t log]. intros HA.
  assert (HA1 : Forall lite_write_legal A) by (eapply Forall_impl; [|exact HA]; intros p (H & _); exact H).
  destruct (M HA1) as (ex & tN & HF & [more Hpre] & Hrep & HrepN & (k & Hk & Hcomp & Hdone) & Hq).
  pose proof (lwritten_ok _ _ _ HF) as Hcok. pose proof (lwritten_range L lo hi _ _ HF) as Hrg.
  assert (HA2 : Forall (fun o : Z * lwcmd => lo <= lc_addr (snd o) /\ lc_addr (snd o) + zlen (lc_data (snd o)) <= hi) A)
    by (eapply Forall_impl; [|exact HA]; intros p (_ & H); exact H).
  specialize (Hrg HA2).
  destruct (replays_flat _ _ _ _ _ _ _ _ Hft _ _ _ Ht Hcok Hrg HrepN) as (Fall & _ & _).
  rewrite Hpre in Hcok, Hrg. apply Forall_app in Hcok as [Hcok _]. rewrite calls_bytes_app in Hrg. apply Forall_app in Hrg as [Hrg _].
  destruct (replays_flat _ _ _ _ _ _ _ _ Hft _ _ _ Ht Hcok Hrg Hrep) as (_ & _ & Hv).
  assert (Hlen : length ex = length A) by (clear - HF; induction HF; cbn; congruence).
  pose proof (lwritten_okay _ _ _ HF Fall) as Hokay.
  assert (Hfst : forall (a : list (Z * lwcmd)) (b : list (list resp_t)), length b = length a -> map fst (combine a b) = a).
  { induction a as [|x a IH]; intros [|z b] E; try discriminate; cbn; [reflexivity|]. now rewrite IH by (injection E; auto). }
  exists k, (calls_bytes log). split; [exact Hk|]. split; [|split; [|split; [|split; [|split; [exact Hv|]]]]].
  - rewrite Hcomp. apply Hfst. rewrite !firstn_length, map_length. lia.
  - rewrite Hcomp. apply Forall_forall. intros [o rs] Hin. apply in_combine_r in Hin. rewrite Forall_forall in Hokay. cbn [snd]. apply Hokay.
    rewrite <- (firstn_skipn k (map fst ex)). apply in_or_app. now left.
  - exists (calls_bytes more). rewrite <- calls_bytes_app, <- Hpre. symmetry. now apply (lwritten_bytes L).
  - destruct Hdone as [z Hz]. exists (calls_bytes z). rewrite Hz, calls_bytes_app. f_equal. apply (lwritten_bytes L); [now apply forall2_firstn|].
    assert (K : existsb failed (concat (map snd ex)) = false) by exact Fall.
    rewrite <- (firstn_skipn k ex), map_app, concat_app, existsb_app in K. now apply orb_false_iff in K.
  - intros Hqq. destruct (Hq Hqq) as (-> & Hpe & Hall). split; [now apply (lwritten_bytes L)|]. split; [exact Hpe|].
    rewrite Hall. apply Hfst. now rewrite map_length.
Qed.
Print Assumptions C56_lite_write_memory.

(** AxiLiteRam of [size] bytes *)
Corollary C56_lite_ram_write : forall size L m0 h, 0 < size -> 0 < L -> size mod L = 0 -> sm_reachable size m0 -> Forall uno_poke h ->
  let '(y, l) := lwsys_run L (log_write ram_write) true (m0, []) h in
  let A := started l in
  Forall lite_write_legal A ->
  exists k bytes, (k <= length A)%nat /\
    map fst (completed l) = firstn k A /\ Forall (fun d => lite_write_resp (snd d) = OKAY) (completed l) /\
    is_prefix bytes (lite_op_bytes A) /\ is_prefix (lite_op_bytes (firstn k A)) bytes /\
    peek (fst (lws_target (u_s y))) =f put (fun x => x mod size) (peek m0) bytes /\
    (uquiescent (lwsys_step L (log_write ram_write) true) y ->
       bytes = lite_op_bytes A /\ g_pend (u_m y) = [] /\ map fst (completed l) = A).
Proof.
  intros size L m0 h Hs HL Hm Hr Hh.
  assert (K : forall A : list (Z * lwcmd), exists lo hi, Forall (fun o => lo <= lc_addr (snd o) /\ lc_addr (snd o) + zlen (lc_data (snd o)) <= hi) A).
  { induction A as [|p A (lo & hi & IH)]; [exists 0, 0; constructor|].
    exists (Z.min lo (lc_addr (snd p))), (Z.max hi (lc_addr (snd p) + zlen (lc_data (snd p)))).
    constructor; [lia|]. eapply Forall_impl; [|exact IH]. intros q Hq. cbv beta in *. lia. }
  destruct (lwsys_run L (log_write ram_write) true (m0, []) h) as [y l] eqn:E. cbv zeta. intros HA.
  destruct (K (started l)) as (lo & hi & Hhi).
  pose proof (C56_lite_write_memory _ L lo hi _ _ _ _ _ (ram_flat L size lo hi HL Hs Hm) HL m0 h Hr Hh) as M.
  rewrite E in M. cbv zeta in M. apply M. clear M. rewrite Forall_forall in *. intros p Hp. split; [now apply HA|now apply Hhi].
Qed.
Print Assumptions C56_lite_ram_write.

(** three overlapping writes, unaligned, on a 16 byte RAM; all tasks and channels in turn *)
Definition exl_write (n a : Z) (d : list Z) : Z * lwcmd := (n, {| lc_addr := a; lc_data := d; lc_prot := 2 |}).
Definition exl_ops : list (Z * lwcmd) := [exl_write 1 2 [1;2;3;4;5;6;7;8;9;10;11]; exl_write 2 4 [21;22;23]; exl_write 3 15 [31;32;33]].
Definition exl_round {C S} : list (uop C S) :=
  [UStart 0; UGet; USend; ULoad true; ULoad false; UXfer true; UXfer false; USlave; ULoadB; UXferB; URGet; URecv].
Definition exl_sched {S} (n : nat) : list (uop (Z * lwcmd) S) := map UInit exl_ops ++ concat (repeat exl_round n).
Definition exl_sys n := lwsys_run 4 (log_write ram_write) true (sm_init 16, []) (exl_sched n).
Example C56_nontrivial :
  let '(y, l) := exl_sys 60 in
  (map (fun d => (fst (fst d), snd d)) (completed l),
   map (fun e => (fst (fst e), zlen (snd (fst e)))) (snd (lws_target (u_s y))),
   map (peek (fst (lws_target (u_s y)))) (zrange 0 16)) =
  ([(1, [OKAY; OKAY; OKAY; OKAY]); (2, [OKAY]); (3, [OKAY; OKAY])],
   [(2, 2); (4, 4); (8, 4); (12, 1); (4, 3); (15, 1); (16, 2)],
   [32; 33; 1; 2; 21; 22; 23; 6; 7; 8; 9; 10; 11; 0; 0; 31]).
Proof. vm_compute. reflexivity. Qed.
Example C56_nontrivial_hyp : Forall lite_write_legal exl_ops /\
  let '(y, l) := exl_sys 60 in uquiescent (lwsys_step 4 (log_write ram_write) true) y.
Proof.
  split.
  - repeat constructor; cbn; lia.
  - assert (E : exists yl, yl = exl_sys 60) by eauto. destruct E as [[y l] E]. rewrite <- E. vm_compute in E. injection E as -> _.
    intros o Ho. destruct o; cbn in Ho; try contradiction; try (vm_compute; reflexivity).
    + destruct n; reflexivity.
    + destruct k; reflexivity.
    + destruct k; reflexivity.
Qed.
(** the same run stopped early: part of the bytes are stored, nothing has completed *)
Example C56_nontrivial_early :
  let '(y, l) := exl_sys 8 in
  (map (fun d => fst (fst d)) (completed l), map (peek (fst (lws_target (u_s y)))) (zrange 0 16)) =
  ([], [0; 0; 1; 2; 3; 4; 5; 6; 7; 8; 9; 10; 0; 0; 0; 0]).
Proof. vm_compute. reflexivity. Qed.
(** a target whose third call raises: the operation it belongs to returns SLVERR *)
Definition exl_wt (s : Z * list (Z * list Z)) (a : Z) (d : list Z) : (Z * list (Z * list Z)) * res unit :=
  ((fst s + 1, if fst s =? 2 then snd s else snd s ++ [(a, d)]), if fst s =? 2 then Err KeyError else Ok tt).
Example C56_nontrivial_error :
  let '(y, l) := lwsys_run 4 (log_write exl_wt) true ((0, []), []) (exl_sched 60) in
  (map (fun d => (fst (fst d), lite_write_resp (snd d))) (completed l), snd (fst (lws_target (u_s y)))) =
  ([(1, SLVERR); (2, OKAY); (3, OKAY)], [(2, [1; 2]); (4, [3; 4; 5; 6]); (12, [11]); (4, [21; 22; 23]); (15, [31]); (16, [32; 33])]).
Proof. vm_compute. reflexivity. Qed.

(** C57.  AxiLiteMaster - AxiLiteSlave, any target (it may raise, return short data, others may change it at any time), any read
    operations, any schedule h, possibly unfinished.  There are, for each operation, the calls made for it and the responses given to it
    ([lite_fetched]: one call per bus word the range touches, in ascending order; read() returns each byte as that call returned it, 0 for
    a byte the call did not return, and SLVERR exactly if a call raised) such that
    - the calls made so far are the first calls of the operations in issue order;
    - the operations completed so far are the first ones issued, each with its own responses, and all their calls have been made;
    - if no task or channel can run, everything was called and everything has completed. *)
Theorem C57_lite_read_system : forall T (tr : T -> Z -> Z -> T * res (list Z)) L t0 h, 0 < L -> Forall lrothers h ->
  let '(y, l) := lrsys_run L (log_read tr) (t0, []) h in
  let A := started l in
  let log := snd (lrs_target (u_s y)) in
  Forall lite_read_legal A ->
  exists ex, Forall2 (lite_fetched L) A ex /\ is_prefix log (concat (map snd ex)) /\
    (exists k, (k <= length A)%nat /\ completed l = combine (firstn k A) (firstn k (map fst ex)) /\
       is_prefix (concat (map snd (firstn k ex))) log) /\
    (uquiescent (lrsys_step L (log_read tr)) y ->
       log = concat (map snd ex) /\ g_pend (u_m y) = [] /\ completed l = combine A (map fst ex)).
Proof.
  intros T tr L t0 h HL Hh.
  pose proof (lrsys_main tr L HL (fun f => exists g, f = lrs_poke (fun tl => (g (fst tl), snd tl))) (fun f H => H) t0 h) as M.
  assert (Hp : Forall (upoke_ok (C := Z * lrcmd) (fun f => exists g, f = lrs_poke (fun tl : T * list rcall => (g (fst tl), snd tl)))) h).
  { eapply Forall_impl; [|exact Hh]. intros [ | | | | | | | | | | | | ]; cbn; tauto. }
  specialize (M Hp). destruct (lrsys_run _ _ _ h) as [y l]. cbv zeta in *. unfold lrlog in *. intros HA.
  destruct (M HA) as (M1 & ex & es & o & more & rest & sN & _ & _ & _ & M3 & M4 & M5 & M6). exists ex. auto.
Qed.
Print Assumptions C57_lite_read_system.

(** C57 without others: the results of the calls are the target's, in this order from its initial state. *)
Theorem C57_lite_read_calls : forall T (tr : T -> Z -> Z -> T * res (list Z)) L t0 h, 0 < L -> Forall uno_poke h ->
  let '(y, l) := lrsys_run L (log_read tr) (t0, []) h in
  let A := started l in
  let '(t, log) := lrs_target (u_s y) in
  Forall lite_read_legal A ->
  exists ex tN, Forall2 (lite_fetched L) A ex /\ is_prefix log (concat (map snd ex)) /\ rreplays tr t0 log t /\
    rreplays tr t0 (concat (map snd ex)) tN /\
    (exists k, (k <= length A)%nat /\ completed l = combine (firstn k A) (firstn k (map fst ex)) /\
       is_prefix (concat (map snd (firstn k ex))) log) /\
    (uquiescent (lrsys_step L (log_read tr)) y ->
       log = concat (map snd ex) /\ g_pend (u_m y) = [] /\ completed l = combine A (map fst ex)).
Proof.
  intros T tr L t0 h HL Hh. pose proof (lrsys_main0 tr L t0 h HL Hh) as M.
  destruct (lrsys_run _ _ _ h) as [y l]. cbv zeta in *. destruct (lrs_target (u_s y)) as [t log]. intros HA. now apply M.
Qed.
Print Assumptions C57_lite_read_calls.

(** the bus words of a read lie in the range *)
Lemma lite_read_calls_range L cmd lo hi : 0 < L -> 0 <= lr_len cmd ->
  lo mod L = 0 -> hi mod L = 0 -> lo <= lr_addr cmd < hi -> lr_addr cmd + lr_len cmd <= hi ->
  Forall (fun e => lo <= fst e /\ fst e + L <= hi /\ fst e mod L = 0 /\ snd e = L) (lite_read_calls L cmd).
Proof.
  intros HL Hn Hlo Hhi H1 H2. unfold lite_read_calls. rewrite Forall_map. apply Forall_forall. intros k Hk. apply in_zrange in Hk. cbn [fst snd].
  set (A := lr_addr cmd) in *. set (n := lr_len cmd) in *.
  pose proof (Z.div_mod lo L ltac:(lia)) as E1. pose proof (Z.div_mod hi L ltac:(lia)) as E2. rewrite Hlo in E1. rewrite Hhi in E2.
  assert (Ha : lo / L <= A / L) by (apply Z.div_le_mono; lia).
  assert (Hb : (A + n + L - 1) / L <= hi / L).
  { apply Z.lt_succ_r. apply Z.div_lt_upper_bound; [lia|]. lia. }
  assert (Hc : L * (lo / L) <= L * k) by (apply Z.mul_le_mono_nonneg_l; lia).
  assert (Hd : L * (k + 1) <= L * (hi / L)) by (apply Z.mul_le_mono_nonneg_l; lia).
  split; [lia|]. split; [lia|]. split; [rewrite Z.mul_comm; apply Z.mod_mul; lia|reflexivity].
Qed.

(** a read of words that hold the bytes of m *)
Lemma lfetched_mem L (phi : Z -> Z) o rs cs (g : nat -> flat) : 0 < L -> lite_read_legal o -> lite_fetched L o (rs, cs) ->
  (forall k e, nth_error cs k = Some e -> word_of L phi (g k) e) ->
  lite_read_resp L (snd o) rs =
    (map (fun x => g (Z.to_nat (x / L - lr_addr (snd o) / L)) (phi x)) (zrange (lr_addr (snd o)) (lr_addr (snd o) + lr_len (snd o))), OKAY).
Proof.
  intros HL Hok (H1 & H2 & H3) HW. unfold lite_read_legal in Hok. set (A := lr_addr (snd o)) in *. set (n := lr_len (snd o)) in *.
  assert (HW2 : forall e, In e cs -> exists m0, word_of L phi m0 e).
  { intros e He. apply In_nth_error in He as [k Hk]. eauto. }
  assert (Hf : existsb rfailed cs = false).
  { clear - HW2. induction cs as [|e cs IH]; [reflexivity|]. cbn [existsb]. rewrite IH by (intros; apply HW2; now right). destruct (HW2 e (or_introl eq_refl)) as (m0 & d & E & _).
    unfold rfailed. now rewrite E. }
  assert (Hok2 : Forall rcall_ok cs).
  { apply Forall_forall. intros e He. assert (Hs : snd (fst e) = L).
    { assert (K : In (fst e) (map fst cs)) by (now apply in_map). rewrite H1 in K. unfold lite_read_calls in K. apply in_map_iff in K as (k & <- & _). reflexivity. }
    destruct (HW2 e He) as (m0 & d & E & Hb & Hd). unfold rcall_ok. rewrite E, Hs. split; auto.
    rewrite Hd. unfold zlen. rewrite map_length, zrange_length. lia. }
  rewrite (surjective_pairing (lite_read_resp L (snd o) rs)). rewrite H2, Hf, (H3 Hok2). f_equal.
  apply map_ext_in. intros x Hx. apply in_zrange in Hx. fold A. set (k := x / L - A / L).
  assert (Hk : 0 <= k < (A + n + L - 1) / L - A / L).
  { unfold k. assert (A / L <= x / L) by (apply Z.div_le_mono; lia). assert (x / L < (A + n + L - 1) / L); [|lia].
    apply Z.lt_le_trans with (x / L + 1); [lia|]. rewrite <- (Z.div_add x 1 L) by lia. apply Z.div_le_mono; lia. }
  assert (Hlen : length cs = Z.to_nat ((A + n + L - 1) / L - A / L)).
  { rewrite <- (map_length fst cs), H1. unfold lite_read_calls. fold A n. rewrite map_length, zrange_length. lia. }
  destruct (nth_error cs (Z.to_nat k)) as [e|] eqn:Ek; [|apply nth_error_None in Ek; lia].
  assert (Hz : znth no_call cs k = e) by (unfold znth; now apply nth_error_nth). rewrite Hz.
  assert (Hfe : fst e = (L * (x / L), L)).
  { assert (K : nth_error (map fst cs) (Z.to_nat k) = Some (fst e)) by (now rewrite nth_error_map, Ek). rewrite H1 in K.
    unfold lite_read_calls in K. fold A n in K. rewrite nth_error_map in K.
    destruct (nth_error (zrange _ _) (Z.to_nat k)) as [j|] eqn:Ej; [|discriminate]. injection K as <-.
    apply nth_error_nth with (d := 0) in Ej. unfold zrange in Ej. rewrite zseq_nth in Ej by lia. f_equal. f_equal. unfold k in Ej. lia. }
  destruct (HW _ _ Ek) as (d & E & Hb & Hd). unfold call_byte. rewrite E, Hd, Hfe. cbn [fst].
  pose proof (Z.div_mod x L ltac:(lia)) as Edx. pose proof (Z.mod_pos_bound x L HL) as Hmx.
  fold k. set (w := L * (x / L)) in *. set (f := fun x : Z => g (Z.to_nat k) (phi x)).
  unfold znth. rewrite (nth_indep _ _ (f 0)) by (rewrite map_length, zrange_length; lia).
  rewrite (map_nth f). unfold zrange. rewrite zseq_nth by lia. unfold f. do 2 f_equal. lia.
Qed.

(** C57 for memory.  A target that stores bytes, nobody writes: every read() returns OKAY and the bytes of the memory. *)
Theorem C57_lite_read_memory : forall T L lo hi phi (inv : T -> Prop) view tw tr,
  flat_target L lo hi phi inv view tw tr -> 0 < L -> lo mod L = 0 -> hi mod L = 0 ->
  forall t0 h, inv t0 -> Forall uno_poke h ->
  let '(y, l) := lrsys_run L (log_read tr) (t0, []) h in
  let A := started l in
  Forall (fun o => lite_read_legal o /\ lo <= lr_addr (snd o) < hi /\ lr_addr (snd o) + lr_len (snd o) <= hi) A ->
  exists k, (k <= length A)%nat /\ map fst (completed l) = firstn k A /\
    Forall (fun d => lite_read_resp L (snd (fst d)) (snd d) =
      (map (fun x => view t0 (phi x)) (zrange (lr_addr (snd (fst d))) (lr_addr (snd (fst d)) + lr_len (snd (fst d)))), OKAY)) (completed l) /\
    (uquiescent (lrsys_step L (log_read tr)) y -> g_pend (u_m y) = [] /\ map fst (completed l) = A).
Proof.
  intros T L lo hi phi inv view tw tr Hft HL Hlo Hhi t0 h Ht Hh.
  pose proof (C57_lite_read_calls T tr L t0 h HL Hh) as M.
  destruct (lrsys_run L (log_read tr) (t0, []) h) as [y l]. cbv zeta in *.
  set (A := started l) in *. destruct (lrs_target (u_s y)) as [t log]. intros HA.
  assert (HA1 : Forall lite_read_legal A) by (eapply Forall_impl; [|exact HA]; intros p (H & _); exact H).
  destruct (M HA1) as (ex & tN & HF & _ & _ & HrepN & (k & Hk & Hcomp & _) & Hq).
  assert (Hrg : Forall (fun e : rcall => lo <= fst (fst e) /\ fst (fst e) + L <= hi /\ fst (fst e) mod L = 0 /\ snd (fst e) = L) (concat (map snd ex))).
  { clear - HF HA Hlo Hhi HL. induction HF as [|o [rs cs] A ex (H & _) HF IH]; [constructor|]. cbn [map concat snd]. inversion HA as [|? ? (H1 & H2 & H3) HR']; subst.
    apply Forall_app. split; [|auto]. pose proof (lite_read_calls_range L (snd o) lo hi HL H1 Hlo Hhi H2 H3) as K. rewrite <- H, Forall_map in K. exact K. }
  pose proof (rreplays_flat _ _ _ _ _ _ _ _ Hft _ _ _ Ht Hrg HrepN) as HW.
  assert (Hlen : length ex = length A) by (clear - HF; induction HF; cbn; congruence).
  assert (Hfst : forall (a : list (Z * lrcmd)) (b : list (list lrd)), length b = length a -> map fst (combine a b) = a).
  { induction a as [|x a IH]; intros [|z b] E; try discriminate; cbn; [reflexivity|]. now rewrite IH by (injection E; auto). }
  assert (Hall : Forall (fun d => lite_read_resp L (snd (fst d)) (snd d) =
      (map (fun x => view t0 (phi x)) (zrange (lr_addr (snd (fst d))) (lr_addr (snd (fst d)) + lr_len (snd (fst d)))), OKAY)) (combine A (map fst ex))).
  { clear - HF HA1 HW HL. induction HF as [|o [rs cs] A ex HX HF IH]; [constructor|]. cbn [map concat snd fst combine] in *. inversion HA1; subst. apply Forall_app in HW as [HW1 HW2].
    constructor; [|auto]. cbn [fst snd] in *. apply (lfetched_mem L phi o rs cs (fun _ => view t0)); auto.
    intros j e Hj. rewrite Forall_forall in HW1. apply HW1. eapply nth_error_In; eauto. }
  exists k. split; [exact Hk|]. split; [|split].
  - rewrite Hcomp. apply Hfst. rewrite !firstn_length, map_length. lia.
  - rewrite Hcomp. apply Forall_forall. intros d Hd. rewrite Forall_forall in Hall. apply Hall.
    rewrite <- combine_firstn in Hd. rewrite <- (firstn_skipn k (combine A (map fst ex))). apply in_or_app. now left.
  - intros Hqq. destruct (Hq Hqq) as (_ & Hpe & Hc). split; [exact Hpe|]. rewrite Hc. apply Hfst. now rewrite map_length.
Qed.
Print Assumptions C57_lite_read_memory.

(** two reads on a target whose third call raises and whose memory somebody changes in the middle *)
Definition exl_read (n a len : Z) : Z * lrcmd := (n, {| lr_addr := a; lr_len := len; lr_prot := 2 |}).
Definition exl_rops : list (Z * lrcmd) := [exl_read 1 3 10; exl_read 2 1 2].
Definition exl_rsched (n m : nat) : list (uop (Z * lrcmd) (lrslv ((Z * Z) * list rcall))) :=
  map UInit exl_rops ++ concat (repeat exl_round n) ++ [UPoke (lrs_poke (fun tl => ((fun s => (fst s, 50)) (fst tl), snd tl)))] ++ concat (repeat exl_round m).
Definition exl_rsys n m := lrsys_run 4 (log_read ex_rt) ((0, 10), []) (exl_rsched n m).
Example C57_nontrivial :
  let '(y, l) := exl_rsys 7 60 in
  (map (fun d => (fst (fst d), lite_read_resp 4 (snd (fst d)) (snd d))) (completed l),
   map (fun e => (fst e, rfailed e)) (snd (lrs_target (u_s y)))) =
  ([(1, ([13; 14; 15; 16; 17; 0; 0; 0; 0; 62], SLVERR)); (2, ([51; 52], OKAY))],
   [(0, 4, false); (4, 4, false); (8, 4, true); (12, 4, false); (0, 4, false)]).
Proof. vm_compute. reflexivity. Qed.
Example C57_nontrivial_hyp : Forall lite_read_legal exl_rops /\ Forall lrothers (exl_rsched 7 60) /\
  let '(y, l) := exl_rsys 7 60 in uquiescent (lrsys_step 4 (log_read ex_rt)) y.
Proof.
  split; [|split].
  - unfold exl_rops, lite_read_legal. repeat (apply Forall_cons; [cbn; lia|]). apply Forall_nil.
  - unfold exl_rsched. repeat (apply Forall_app; split); try (apply Forall_concat, Forall_forall; intros r Hr; apply repeat_spec in Hr; subst r); repeat constructor.
    cbn. exists (fun s => (fst s, 50)). reflexivity.
  - assert (E : exists yl, yl = exl_rsys 7 60) by eauto. destruct E as [[y l] E]. rewrite <- E. vm_compute in E. injection E as -> _.
    intros o Ho. destruct o; cbn in Ho; try contradiction; try (vm_compute; reflexivity).
    + destruct n; reflexivity.
    + destruct k; reflexivity.
    + destruct k; reflexivity.
Qed.
