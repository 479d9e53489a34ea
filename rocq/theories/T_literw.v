(** C58: AxiLiteMaster - AxiLiteSlave on one byte-storing target: reads and writes together, under every schedule. *)
From Coq Require Import ZArith Lia List Bool.
From Coq Require Import ZifyBool ZifyNat.
From Verif Require Import Py S_flat M_sparse S_sparse P_sparse M_memory P_memory M_axi S_axi P_axi P_axislave P_axiop P_axicomp P_axiram
  M_axil S_axil P_axil M_liteeng S_liteeng P_liteeng M_sys S_sys P_sys P_syswr P_sysrd T_sys T_sysrd S_axisys P_sysram T_sysram
  M_litesys S_litesys P_litesys P_litewr P_literd T_litesys M_literw S_literw P_literw.
Import ListNotations.
Open Scope Z_scope.

(** C58.  Any schedule of the user, the tasks and the channels of both paths, split at any moment (h1, then h2).  W, R: the
    writes and reads in issue order.  For every byte address x that read number j asks for there is a moment, given by the
    bytes [pts j x] written before it, such that the read returns the memory's byte at that moment, and
    - writes and reads complete in issue order, all with OKAY; the memory always is the initial one with a prefix of the bytes of W in issue order,
      which contains the bytes of all completed writes;
    - the bytes of one bus word are read at the same moment, and the moments are in the order of R and of the addresses;
    - a read started after writes completed sees these writes;
    - a read completed before a write started does not see the write;
    - all complete if no task or channel can run. *)
Theorem C58_memory : forall T L lo hi phi (inv : T -> Prop) view tw tr,
  flat_target L lo hi phi inv view tw tr -> 0 < L -> lo mod L = 0 -> hi mod L = 0 ->
  forall t0 h1 h2, inv t0 -> Forall lx_nopoke (h1 ++ h2) ->
  let '(z1, l1) := lrw_run L tw tr (lrw_init t0) h1 in
  let '(z, l2) := lrw_run L tw tr z1 h2 in
  let l := l1 ++ l2 in let W := lwrites_of l in let R := lreads_of l in
  Forall (lwrite_in lo hi) W -> Forall (lread_in lo hi) R ->
  exists kw kr bytes (pts : nat -> Z -> list (Z * Z)),
    (kw <= length W)%nat /\ map fst (completed (lw_outs l)) = firstn kw W /\
    Forall (fun d => lite_write_resp (snd d) = OKAY) (completed (lw_outs l)) /\
    (kr <= length R)%nat /\ map fst (completed (lr_outs l)) = firstn kr R /\
    (forall j o rs, nth_error (completed (lr_outs l)) j = Some (o, rs) -> lite_read_resp L (snd o) rs =
       (map (fun x => put phi (view t0) (pts j x) (phi x)) (zrange (lr_addr (snd o)) (lr_addr (snd o) + lr_len (snd o))), OKAY)) /\
    is_prefix bytes (lite_op_bytes W) /\ view (lrw_target z) =f put phi (view t0) bytes /\ is_prefix (lite_op_bytes (firstn kw W)) bytes /\
    (forall j x, lreads_byte R j x -> is_prefix (pts j x) bytes) /\
    (forall j x x', lreads_byte R j x -> lreads_byte R j x' -> x / L = x' / L -> pts j x = pts j x') /\
    (forall j x j' x', lreads_byte R j x -> lreads_byte R j' x' -> ((j < j')%nat \/ j = j' /\ x <= x') -> is_prefix (pts j x) (pts j' x')) /\
    (forall j x, lreads_byte R j x -> (length (lreads_of l1) <= j)%nat ->
       is_prefix (lite_op_bytes (map fst (completed (lw_outs l1)))) (pts j x)) /\
    (forall j x, lreads_byte R j x -> (j < length (completed (lr_outs l1)))%nat -> is_prefix (pts j x) (lite_op_bytes (lwrites_of l1))) /\
    ((forall o, lx_internal o -> lx_step L (log_write tw) (log_read tr) cp_w2r cp_r2w z o = (z, [])) ->
       bytes = lite_op_bytes W /\ kw = length W /\ kr = length R).
Proof.
  intros T L lo hi phi inv view tw tr Hft HL Hlo Hhi t0 h1 h2 Ht Hn.
  exact (lram_main lo hi phi inv view tw tr L Hft HL Hlo Hhi t0 Ht h1 h2 Hn).
Qed.
Print Assumptions C58_memory.

(** the write has a byte in a memory cell that the read reads *)
Definition ltouches (phi : Z -> Z) (p : Z * lwcmd) (o : Z * lrcmd) : Prop :=
  exists a x, lc_addr (snd p) <= a < lc_addr (snd p) + zlen (lc_data (snd p)) /\
    lr_addr (snd o) <= x < lr_addr (snd o) + lr_len (snd o) /\ phi a = phi x.

(** Every read started when all writes that touch its cells were completed returns the bytes written, the last of them in issue order for each cell. *)
Theorem C58_read_after_write : forall T L lo hi phi (inv : T -> Prop) view tw tr,
  flat_target L lo hi phi inv view tw tr -> 0 < L -> lo mod L = 0 -> hi mod L = 0 ->
  forall t0 h1 h2, inv t0 -> Forall lx_nopoke (h1 ++ h2) ->
  let '(z1, l1) := lrw_run L tw tr (lrw_init t0) h1 in
  let '(z, l2) := lrw_run L tw tr z1 h2 in
  let l := l1 ++ l2 in let W := lwrites_of l in let R := lreads_of l in
  Forall (lwrite_in lo hi) W -> Forall (lread_in lo hi) R ->
  forall j o rs, nth_error (completed (lr_outs l)) j = Some (o, rs) -> (length (lreads_of l1) <= j)%nat ->
    (forall i p, nth_error W i = Some p -> (i < length (completed (lw_outs l1)))%nat \/ ~ ltouches phi p o) ->
    lite_read_resp L (snd o) rs = (map (fun x => put phi (view t0) (lite_op_bytes W) (phi x)) (zrange (lr_addr (snd o)) (lr_addr (snd o) + lr_len (snd o))), OKAY).
Proof.
  intros T L lo hi phi inv view tw tr Hft HL Hlo Hhi t0 h1 h2 Ht Hn.
  pose proof (C58_memory T L lo hi phi inv view tw tr Hft HL Hlo Hhi t0 h1 h2 Ht Hn) as M.
  pose proof Hn as Hn1. apply Forall_app in Hn1 as [Hn1 _].
  pose proof (C58_memory T L lo hi phi inv view tw tr Hft HL Hlo Hhi t0 h1 [] Ht) as M1. rewrite app_nil_r in M1. specialize (M1 Hn1).
  destruct (lrw_run L tw tr (lrw_init t0) h1) as [z1 l1]. destruct (lrw_run L tw tr z1 h2) as [z l2]. cbn in M1. cbn zeta in *.
  set (l := l1 ++ l2) in *. set (W := lwrites_of l) in *. set (R := lreads_of l) in *. intros HW HR. rewrite app_nil_r in M1.
  assert (HWa : W = lwrites_of l1 ++ lwrites_of l2) by (unfold W, l, lwrites_of; rewrite lw_outs_app; apply started_app).
  assert (HRa : R = lreads_of l1 ++ lreads_of l2) by (unfold R, l, lreads_of; rewrite lr_outs_app; apply started_app).
  destruct M1 as (k1 & _ & _ & _ & K1 & K2 & _); [rewrite HWa in HW; now apply Forall_app in HW|rewrite HRa in HR; now apply Forall_app in HR|].
  destruct (M HW HR) as (kw & kr & bytes & pts & _ & _ & _ & Hkr & Mr & M2 & [mb M3] & _ & _ & M4 & _ & _ & M5 & _).
  intros j o rs Hj Hj1 Hd. rewrite (M2 j o rs Hj). f_equal. apply map_ext_in. intros x Hx. apply in_zrange in Hx.
  assert (HjR : nth_error R j = Some o).
  { assert (E : nth_error (map fst (completed (lr_outs l))) j = Some o) by now rewrite nth_error_map, Hj. rewrite Mr in E.
    rewrite <- (firstn_skipn kr R), nth_error_app1; auto. apply nth_error_Some. congruence. }
  assert (Hrb : lreads_byte R j x) by (exists o; auto).
  set (m := length (completed (lw_outs l1))) in *.
  assert (Em : m = k1). { unfold m. rewrite <- (map_length fst), K2, firstn_length. lia. }
  assert (Efm : map fst (completed (lw_outs l1)) = firstn m W).
  { rewrite K2, HWa, Em, firstn_app. replace (k1 - length (lwrites_of l1))%nat with 0%nat by lia. cbn. now rewrite app_nil_r. }
  assert (Hm : (m <= length W)%nat). { rewrite HWa, app_length. lia. }
  destruct (M5 j x Hrb Hj1) as [q Hq]. rewrite Efm in Hq. destruct (M4 j x Hrb) as [r Hrr].
  assert (E : lite_op_bytes W = lite_op_bytes (firstn m W) ++ lite_op_bytes (skipn m W)).
  { rewrite <- (firstn_skipn m W) at 1. unfold lite_op_bytes. apply flat_map_app. }
  assert (Eq : lite_op_bytes W = pts j x ++ (r ++ mb)) by (rewrite M3, Hrr, <- app_assoc; reflexivity).
  rewrite Eq, put_app. symmetry. apply put_missed. intros p Hp Hphi.
  assert (Hin : In p (lite_op_bytes (skipn m W))).
  { rewrite Hq, <- app_assoc, E in Eq. apply app_inv_head in Eq. rewrite Eq. apply in_or_app. now right. }
  unfold lite_op_bytes in Hin. apply in_flat_map in Hin. destruct Hin as (w & Hw1 & Hw2). apply In_nth_error in Hw1. destruct Hw1 as (i & Hi).
  assert (Hi' : nth_error W (m + i) = Some w). { rewrite <- (firstn_skipn m W) at 1. rewrite nth_error_app2; rewrite firstn_length_le by lia; [|lia]. now replace (m + i - m)%nat with i by lia. }
  destruct (Hd _ _ Hi') as [Hlt|Hno]; [lia|]. apply Hno. destruct p as [a b]. apply in_addressed in Hw2.
  exists a, x. cbn [fst] in *. auto.
Qed.
Print Assumptions C58_read_after_write.

(** the RAM of [size] bytes *)
Corollary C58_ram_read_after_write : forall size L m0 h1 h2, 0 < size -> 0 < L -> size mod L = 0 -> sm_reachable size m0 ->
  Forall lx_nopoke (h1 ++ h2) ->
  let '(z1, l1) := lrw_run L ram_write ram_read (lrw_init m0) h1 in
  let '(z, l2) := lrw_run L ram_write ram_read z1 h2 in
  let l := l1 ++ l2 in let W := lwrites_of l in let R := lreads_of l in
  Forall lite_write_legal W -> Forall lite_read_legal R -> Forall (fun o => 0 <= lc_addr (snd o)) W -> Forall (fun o => 0 <= lr_addr (snd o)) R ->
  forall j o rs, nth_error (completed (lr_outs l)) j = Some (o, rs) -> (length (lreads_of l1) <= j)%nat ->
    (forall i p, nth_error W i = Some p -> (i < length (completed (lw_outs l1)))%nat \/ ~ ltouches (fun x => x mod size) p o) ->
    lite_read_resp L (snd o) rs = (map (fun x => put (fun x => x mod size) (peek m0) (lite_op_bytes W) (x mod size)) (zrange (lr_addr (snd o)) (lr_addr (snd o) + lr_len (snd o))), OKAY).
Proof.
  intros size L m0 h1 h2 Hs HL Hm Hr Hn.
  destruct (lrw_run L ram_write ram_read (lrw_init m0) h1) as [z1 l1] eqn:E1.
  destruct (lrw_run L ram_write ram_read z1 h2) as [z l2] eqn:E2. cbn zeta. intros HW HR HW0 HR0.
  destruct (upper_bound (fun p : Z * lwcmd => lc_addr (snd p) + zlen (lc_data (snd p))) L (lwrites_of (l1 ++ l2)) HL) as (b1 & B1 & B2 & B3).
  destruct (upper_bound (fun p : Z * lrcmd => lr_addr (snd p) + lr_len (snd p)) L (lreads_of (l1 ++ l2)) HL) as (b2 & B4 & B5 & B6).
  assert (Hhi : (b1 + b2) mod L = 0) by (rewrite Z.add_mod, B1, B4 by lia; reflexivity).
  assert (HLn : L <> 0) by lia.
  pose proof (C58_read_after_write _ L 0 (b1 + b2) _ _ _ _ _ (ram_flat L size 0 (b1 + b2) HL Hs Hm) HL (Z.mod_0_l _ HLn) Hhi
    m0 h1 h2 Hr Hn) as M. rewrite E1, E2 in M. cbn zeta in M. apply M; clear M.
  - rewrite Forall_forall in *. intros p Hp. specialize (HW p Hp). specialize (HW0 p Hp). specialize (B3 p Hp). cbv beta in B3, HW0. split; [exact HW|]. lia.
  - rewrite Forall_forall in *. intros p Hp. specialize (HR p Hp). specialize (HR0 p Hp). specialize (B6 p Hp). cbv beta in B6, HR0. split; [exact HR|].
    unfold lite_read_legal in HR. lia.
Qed.
Print Assumptions C58_ram_read_after_write.

(** ** examples: the writes of T_litesys.v, reads started with them and one started when all had completed *)
Definition exl_rw_h1 (n : nat) : list (lxop (sparse * list call) (sparse * list rcall)) :=
  map VW (map UInit exl_ops) ++ map VR (map UInit exl_rops) ++ concat (repeat (map VW exl_round ++ map VR exl_round) n).
Definition exl_rw_h2 (n : nat) : list (lxop (sparse * list call) (sparse * list rcall)) :=
  map VR (map UInit [exl_read 3 0 16]) ++ concat (repeat (map VW exl_round ++ map VR exl_round) n).
Definition exl_rw (n m : nat) :=
  let '(z1, l1) := lrw_run 4 ram_write ram_read (lrw_init (sm_init 16)) (exl_rw_h1 n) in
  let '(z, l2) := lrw_run 4 ram_write ram_read z1 (exl_rw_h2 m) in (z, l1, l2).
Definition exl_show (l : list lxout) := map (fun d => (fst (fst d), lite_read_resp 4 (snd (fst d)) (snd d))) (completed (lr_outs l)).
Example C58_nontrivial :
  let '(z, l1, l2) := exl_rw 60 60 in
  (exl_show l1, map (fun d => fst (fst d)) (completed (lw_outs l1)), exl_show l2) =
  ([(1, ([2; 3; 4; 5; 6; 7; 8; 9; 10; 11], OKAY)); (2, ([0; 1], OKAY))], [1; 2; 3],
   [(3, ([32; 33; 1; 2; 21; 22; 23; 6; 7; 8; 9; 10; 11; 0; 0; 31], OKAY))]).
Proof. vm_compute. reflexivity. Qed.
Example C58_nontrivial_hyp : let '(z, l1, l2) := exl_rw 60 60 in
  Forall lite_write_legal (lwrites_of (l1 ++ l2)) /\ Forall lite_read_legal (lreads_of (l1 ++ l2)) /\
  Forall lx_nopoke (exl_rw_h1 60 ++ exl_rw_h2 60) /\ length (lreads_of l1) = 2%nat /\
  forall i p, nth_error (lwrites_of (l1 ++ l2)) i = Some p -> (i < length (completed (lw_outs l1)))%nat.
Proof.
  assert (E : exists x, x = exl_rw 60 60) by eauto. destruct E as [[[z l1] l2] E]. rewrite <- E.
  assert (E1 : lwrites_of (l1 ++ l2) = exl_ops /\ lreads_of (l1 ++ l2) = exl_rops ++ [exl_read 3 0 16] /\ length (lreads_of l1) = 2%nat /\
    length (completed (lw_outs l1)) = 3%nat)
    by (vm_compute in E; injection E as _ -> ->; vm_compute; repeat split).
  destruct E1 as (E1 & E2 & E3 & E4). rewrite E1, E2, E4. clear E E1 E2. split; [|split; [|split; [|split; [exact E3|]]]].
  - repeat constructor; cbn; lia.
  - unfold exl_rops, lite_read_legal. cbn [app]. repeat (apply Forall_cons; [cbn; lia|]). apply Forall_nil.
  - unfold exl_rw_h1, exl_rw_h2. repeat (apply Forall_app; split); try (apply Forall_concat, Forall_forall; intros r Hr; apply repeat_spec in Hr; subst r); repeat constructor.
  - intros i p Hp. assert (Hne : nth_error exl_ops i <> None) by congruence. apply nth_error_Some in Hne. exact Hne.
Qed.
