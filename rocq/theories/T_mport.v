(** C76: several AXI and AXI-Lite interfaces on one memory (multi-port memories), under every schedule. *)
From Coq Require Import ZArith Lia List Bool.
From Coq Require Import ZifyBool ZifyNat.
From Verif Require Import Py S_flat M_sparse S_sparse P_sparse M_memory P_memory M_axi S_axi P_axi P_axislave P_axiop P_axicomp P_axiram M_axil S_axil P_axil
  M_liteeng S_liteeng P_liteeng M_axieng S_axieng P_axieng P_axiattr T_axieng M_sys S_sys P_sys P_syswr P_sysrd T_sys T_sysrd M_axisys S_axisys P_sysram T_sysram
  M_litesys S_litesys P_litesys P_litewr P_literd T_litesys M_literw S_literw P_literw M_mport S_mport P_mport P_mpaxi P_mplite P_mpall P_mpcell.
Import ListNotations.
Open Scope Z_scope.

(** C76.  Any number of ports, each an AXI or an AXI-Lite master on its own slave, all slaves on one memory; any schedule of the users, the
    tasks and the channels of all ports, and direct accesses f to the memory at any moment.  mem_after k is the memory after k steps.
    - A direct access takes place at once: the memory after it is f of the one before.
    - Every port is served (S_mport.v) by this one memory: each step of the port changes the memory by the bytes of the port's own writes
      in issue order, all of a write's bytes between its issue and its completion, and nothing else; each byte that a read returns is the memory's byte at a moment between the
      issue and the completion of the read, and these moments follow the order of the reads; all operations return OKAY.
    - If no task or channel of a port can run, all its operations have returned, whatever the other ports do. *)
Theorem C76_ports : forall T (inv : T -> Prop) (view : T -> flat) (ps : list (mport T)) t0 h,
  Forall (pt_ok inv view) ps -> inv t0 -> Forall (mop_ok inv ps) h ->
  let s0 := mpr_init t0 ps in let N := length h in let mem := mem_after s0 h in
  (forall i p, nth_error ps i = Some p -> pt_legal p (outs_after s0 h i N)) ->
  (forall k, (k <= N)%nat -> inv (mem k)) /\
  (forall k f, nth_error h k = Some (MDirect f) -> mem (S k) = f (mem k)) /\
  forall i p, nth_error ps i = Some p ->
    served (pt_phi p) N (fun k => view (mem k)) (own_steps h i) (pt_view p N (outs_after s0 h i)) /\
    (port_quiet (fst (mpr_run s0 h)) i -> all_returned (pt_view p N (outs_after s0 h i)) N).
Proof. intros T inv view ps t0 h Hps Ht0 Hh s0 N mem Hleg. exact (ports_main inv view ps Hps t0 Ht0 h Hh Hleg). Qed.
Print Assumptions C76_ports.

Lemma cell_rest {T} (inv : T -> Prop) (view : T -> flat) (ps : list (mport T)) t0 h cell k1 (iw : nat -> bool) :
  Forall (pt_ok inv view) ps -> inv t0 -> Forall (mop_ok inv ps) h ->
  let s0 := mpr_init t0 ps in let N := length h in let mem := mem_after s0 h in let V := fun i p => pt_view p N (outs_after s0 h i) in
  (forall i p, nth_error ps i = Some p -> pt_legal p (outs_after s0 h i N)) -> (k1 <= N)%nat ->
  (forall i p, iw i = false -> nth_error ps i = Some p -> forall w b, nth_error (pv_writes (V i p) N) w = Some b -> on_cell (pt_phi p) cell b ->
     (w < length (pv_writes (V i p) k1))%nat /\ pv_wdone (V i p) k1 w) ->
  (forall k f, (k1 <= k)%nat -> nth_error h k = Some (MDirect f) -> view (f (mem k)) cell = view (mem k) cell) ->
  forall k, (k1 <= k < N)%nat -> (forall i, iw i = true -> own_steps h i k = false) -> view (mem (S k)) cell = view (mem k) cell.
Proof.
  intros Hps Ht0 Hh s0 N mem V Hleg Hk1 Hoth Hdir k Hk Hnot. destruct (ports_main inv view ps Hps t0 Ht0 h Hh Hleg) as (_ & HD & HP).
  destruct (nth_error h k) as [o|] eqn:E; [|apply nth_error_None in E; lia]. destruct o as [i o|f].
  - pose proof (proj1 (Forall_forall _ _) Hh _ (nth_error_In _ _ E)) as (p & Ep & _). destruct (iw i) eqn:Ei.
    { specialize (Hnot i Ei). unfold own_steps in Hnot. rewrite E in Hnot. cbn in Hnot. rewrite Nat.eqb_refl in Hnot. discriminate. }
    apply (others N (fun k => view (mem k)) cell (pt_phi p) (own_steps h i) (V i p) k1 (proj1 (HP i p Ep)) Hk1 (Hoth i p Ei Ep) k Hk).
    unfold own_steps. rewrite E. cbn. apply Nat.eqb_refl.
  - unfold mem, s0. rewrite (HD k f E). apply Hdir; [lia|exact E].
Qed.

(** What one port has written the others read.  Port i writes bytes that leave x in the cell (the last of them at an address of the cell is x); the write was issued after
    moment k1 and has completed at k2.  No later write of port i touches the cell, the writes of the other ports that touch it had completed at k1, and the
    direct accesses after k1 leave it alone.  Then from k2 on the memory has x there, and every read of any port issued after k2 that
    contains an address y of the cell returns x for it. *)
Theorem C76_write_read : forall T (inv : T -> Prop) (view : T -> flat) (ps : list (mport T)) t0 h,
  Forall (pt_ok inv view) ps -> inv t0 -> Forall (mop_ok inv ps) h ->
  let s0 := mpr_init t0 ps in let N := length h in let mem := mem_after s0 h in let V := fun i p => pt_view p N (outs_after s0 h i) in
  (forall i p, nth_error ps i = Some p -> pt_legal p (outs_after s0 h i N)) ->
  forall i p k1 k2 w b cell x, nth_error ps i = Some p -> (k1 <= k2 <= N)%nat ->
  nth_error (pv_writes (V i p) N) w = Some b -> leaves (pt_phi p) cell b x ->
  (length (pv_writes (V i p) k1) <= w < length (pv_writes (V i p) k2))%nat -> pv_wdone (V i p) k2 w ->
  (forall w' b', (w < w')%nat -> nth_error (pv_writes (V i p) N) w' = Some b' -> ~ on_cell (pt_phi p) cell b') ->
  (forall i' p', i' <> i -> nth_error ps i' = Some p' -> forall w' b', nth_error (pv_writes (V i' p') N) w' = Some b' -> on_cell (pt_phi p') cell b' ->
     (w' < length (pv_writes (V i' p') k1))%nat /\ pv_wdone (V i' p') k1 w') ->
  (forall k f, (k1 <= k)%nat -> nth_error h k = Some (MDirect f) -> view (f (mem k)) cell = view (mem k) cell) ->
  (forall k, (k2 <= k <= N)%nat -> view (mem k) cell = x) /\
  forall j pj r a len d y, nth_error ps j = Some pj -> nth_error (pv_reads (V j pj) N) r = Some (a, len) -> (length (pv_reads (V j pj) k2) <= r)%nat ->
    a <= y < a + len -> pt_phi pj y = cell -> pv_rret (V j pj) r d -> snd d = OKAY /\ nth_error (fst d) (Z.to_nat (y - a)) = Some x.
Proof.
  intros T inv view ps t0 h Hps Ht0 Hh s0 N mem V Hleg i p k1 k2 w b cell x Ep Hk Ew Hx Hw Hd Hlater Hoth Hdir.
  destruct (ports_main inv view ps Hps t0 Ht0 h Hh Hleg) as (_ & HD & HP).
  assert (Hm : forall k, (k2 <= k <= N)%nat -> view (mem k) cell = x).
  { apply (writer N (fun k => view (mem k)) cell (pt_phi p) (own_steps h i) (V i p) k1 k2 w b x (proj1 (HP i p Ep)) Hk); auto.
    intros k Hk' Hown. apply (cell_rest inv view ps t0 h cell k1 (fun j => Nat.eqb j i) Hps Ht0 Hh Hleg ltac:(lia)); auto.
    - intros j pj Hj. apply Nat.eqb_neq in Hj. now apply Hoth.
    - intros j Hj. apply Nat.eqb_eq in Hj. now subst j. }
  split; [exact Hm|]. intros j pj r a len d y Ej Er Hr Hy Hc Hret.
  exact (reader N (fun k => view (mem k)) cell (pt_phi pj) (own_steps h j) (V j pj) k2 r a len d y x (proj1 (HP j pj Ej)) ltac:(lia) Hm Er Hr Hret Hy Hc).
Qed.
Print Assumptions C76_write_read.

(** Nor does anybody else's traffic disturb the cell: if all writes that touch it had completed at k1 and the direct accesses after k1 leave it alone, it keeps its
    value, and every read issued after k1 returns it.  E.g. the value that a direct access has put there as the last step before k1. *)
Theorem C76_stable_read : forall T (inv : T -> Prop) (view : T -> flat) (ps : list (mport T)) t0 h,
  Forall (pt_ok inv view) ps -> inv t0 -> Forall (mop_ok inv ps) h ->
  let s0 := mpr_init t0 ps in let N := length h in let mem := mem_after s0 h in let V := fun i p => pt_view p N (outs_after s0 h i) in
  (forall i p, nth_error ps i = Some p -> pt_legal p (outs_after s0 h i N)) ->
  forall k1 cell, (k1 <= N)%nat ->
  (forall i p, nth_error ps i = Some p -> forall w b, nth_error (pv_writes (V i p) N) w = Some b -> on_cell (pt_phi p) cell b ->
     (w < length (pv_writes (V i p) k1))%nat /\ pv_wdone (V i p) k1 w) ->
  (forall k f, (k1 <= k)%nat -> nth_error h k = Some (MDirect f) -> view (f (mem k)) cell = view (mem k) cell) ->
  (forall k, (k1 <= k <= N)%nat -> view (mem k) cell = view (mem k1) cell) /\
  forall j pj r a len d y, nth_error ps j = Some pj -> nth_error (pv_reads (V j pj) N) r = Some (a, len) -> (length (pv_reads (V j pj) k1) <= r)%nat ->
    a <= y < a + len -> pt_phi pj y = cell -> pv_rret (V j pj) r d -> snd d = OKAY /\ nth_error (fst d) (Z.to_nat (y - a)) = Some (view (mem k1) cell).
Proof.
  intros T inv view ps t0 h Hps Ht0 Hh s0 N mem V Hleg k1 cell Hk Hoth Hdir. destruct (ports_main inv view ps Hps t0 Ht0 h Hh Hleg) as (_ & HD & HP).
  assert (Hm : forall k, (k1 <= k <= N)%nat -> view (mem k) cell = view (mem k1) cell).
  { intros k [H1 H2]. induction k as [|k IH]; [now replace k1 with 0%nat by lia|]. destruct (Nat.eq_dec k1 (S k)) as [->|]; [reflexivity|]. rewrite <- IH by lia.
    apply (cell_rest inv view ps t0 h cell k1 (fun _ => false) Hps Ht0 Hh Hleg Hk (fun i p _ => Hoth i p) Hdir); [lia|discriminate]. }
  split; [exact Hm|]. intros j pj r a len d y Ej Er Hr Hy Hc Hret.
  exact (reader N (fun k => view (mem k)) cell (pt_phi pj) (own_steps h j) (V j pj) k1 r a len d y _ (proj1 (HP j pj Ej)) Hk Hm Er Hr Hret Hy Hc).
Qed.
Print Assumptions C76_stable_read.

(** AxiRam and AxiLiteRam instances of any bus widths that divide the size, all on one memory *)
Inductive ram_port (size : Z) : mport sparse -> Prop :=
| RamAxi c widn ridn hi : 0 < m_lanes c -> size mod m_lanes c = 0 -> hi mod m_lanes c = 0 -> 0 < widn -> 0 < ridn ->
    ram_port size (PtAxi c widn ridn ram_write ram_read 0 hi (fun x => x mod size))
| RamLite L hi : 0 < L -> size mod L = 0 -> hi mod L = 0 -> ram_port size (PtLite L ram_write ram_read 0 hi (fun x => x mod size)).
(** direct writes in the memory *)
Definition ram_direct (size : Z) (f : sparse -> sparse) : Prop :=
  exists a d, 0 <= a /\ a < size /\ a + zlen d <= size /\ are_bytes d /\ f = fun m => fst (mem_write m a d).
Corollary C76_ram : forall size ps m0 h, 0 < size -> Forall (ram_port size) ps -> sm_reachable size m0 ->
  (forall k i o, nth_error h k = Some (MPort i o) -> exists p, nth_error ps i = Some p /\ port_op p o) ->
  (forall k f, nth_error h k = Some (MDirect f) -> ram_direct size f) ->
  let s0 := mpr_init m0 ps in let N := length h in let mem := mem_after s0 h in
  (forall i p, nth_error ps i = Some p -> pt_legal p (outs_after s0 h i N)) ->
  (forall k, (k <= N)%nat -> sm_reachable size (mem k)) /\
  (forall k a d, nth_error h k = Some (MDirect (fun m => fst (mem_write m a d))) -> 0 <= a -> a < size -> a + zlen d <= size -> are_bytes d -> peek (mem (S k)) =f wr (peek (mem k)) a d) /\
  forall i p, nth_error ps i = Some p ->
    served (fun x => x mod size) N (fun k => peek (mem k)) (own_steps h i) (pt_view p N (outs_after s0 h i)) /\
    (port_quiet (fst (mpr_run s0 h)) i -> all_returned (pt_view p N (outs_after s0 h i)) N).
Proof.
  intros size ps m0 h Hs Hps Hm Hport Hdir s0 N mem Hleg.
  assert (Hok : Forall (pt_ok (sm_reachable size) peek) ps).
  { eapply Forall_impl; [|exact Hps]. intros p Hp. destruct Hp as [c widn ridn hi A B C D E|L hi A B C].
    - split; [now apply ram_flat|]. split; [exact A|]. split; [apply Z.mod_0_l; lia|]. auto.
    - split; [now apply ram_flat|]. split; [exact A|]. split; [apply Z.mod_0_l; lia|]. auto. }
  assert (Hh : Forall (mop_ok (sm_reachable size) ps) h).
  { apply Forall_forall. intros o Hin. apply In_nth_error in Hin as [k E]. destruct o as [i o|f]; [exact (Hport k i o E)|]. destruct (Hdir k f E) as (a & d & A & B & C & D & ->).
    intros t Ht. destruct (mem_write_peek size t a d Ht A B C D) as (m' & -> & K & _). exact K. }
  destruct (C76_ports _ _ _ ps m0 h Hok Hm Hh Hleg) as (K1 & K2 & K3). split; [exact K1|]. split.
  - intros k a d E A B C D. unfold mem, s0. rewrite (K2 k _ E). assert (Hk : (k < length h)%nat) by (apply nth_error_Some; congruence).
    destruct (mem_write_peek size _ a d (K1 k ltac:(lia)) A B C D) as (m' & -> & _ & K). exact K.
  - intros i p Ep. replace (fun x => x mod size) with (pt_phi p); [exact (K3 i p Ep)|].
    pose proof (proj1 (Forall_forall _ _) Hps _ (nth_error_In _ _ Ep)) as Hp. now destruct Hp.
Qed.
Print Assumptions C76_ram.

(** ** examples: an AxiRam (port 0) and an AxiLiteRam (port 1) on one memory of 16 bytes *)
Definition ex_mp_ps : list (mport sparse) :=
  [PtAxi ex_cfg 4 4 ram_write ram_read 0 32 (fun x => x mod 16); PtLite 4 ram_write ram_read 0 32 (fun x => x mod 16)].
Notation ex_mop := (mop sparse (sparse * list call) (sparse * list rcall)).
Definition ex_mp_a (n : nat) : list ex_mop := concat (repeat (map (fun o => MPort 0 (OAxi o)) (map BW ex_round ++ map BR ex_rround)) n).
Definition ex_mp_l (n : nat) : list ex_mop := concat (repeat (map (fun o => MPort 1 (OLite o)) (map VW exl_round ++ map VR exl_round)) n).
Definition ex_mp_direct : ex_mop := MDirect (fun m => fst (mem_write m 8 [77])).
(** an AXI write and a direct one; when both have completed, a Lite write and at the same time an AXI read, which sees the second word of it only; then reads of both ports *)
Definition ex_mp_h1 : list ex_mop := MPort 0 (OAxi (BW (YInit (ex_write 1 None 2 [1;2;3;4;5] 2)))) :: ex_mp_a 6 ++ [ex_mp_direct] ++ ex_mp_a 6.
Definition ex_mp_h2 : list ex_mop := MPort 1 (OLite (VW (UInit (exl_write 2 1 [51;52;53;54;55;56])))) :: MPort 0 (OAxi (BR (YInit (ex_read 1 None 0 12 2)))) ::
  ex_mp_a 3 ++ ex_mp_l 10 ++ ex_mp_a 12.
Definition ex_mp_h3 : list ex_mop := MPort 1 (OLite (VR (UInit (exl_read 3 2 7)))) :: MPort 0 (OAxi (BR (YInit (ex_read 2 None 18 7 2)))) :: ex_mp_l 10 ++ ex_mp_a 12.
Definition ex_mp_h := ex_mp_h1 ++ ex_mp_h2 ++ ex_mp_h3.
Definition ex_mp_s0 := mpr_init (sm_init 16) ex_mp_ps.
Definition ex_mp_out (i : nat) := outs_after ex_mp_s0 ex_mp_h i (length ex_mp_h).
Example C76_nontrivial :
  (ex_show (axi_outs (ex_mp_out 0)), map (fun d => fst (fst (fst (fst d)))) (xcompleted (w_outs (axi_outs (ex_mp_out 0)))),
   map (fun d => (fst (fst d), lite_read_resp 4 (snd (fst d)) (snd d))) (completed (lr_outs (lite_outs (ex_mp_out 1)))),
   map (fun d => (fst (fst d), lite_write_resp (snd d))) (completed (lw_outs (lite_outs (ex_mp_out 1))))) =
  ([(1, Some ([0; 0; 1; 2; 54; 55; 56; 0; 77; 0; 0; 0], OKAY)); (2, Some ([52; 53; 54; 55; 56; 0; 77], OKAY))], [1],
   [(3, ([52; 53; 54; 55; 56; 0; 77], OKAY))], [(2, OKAY)]).
Proof. vm_compute. reflexivity. Qed.
Lemma ex_mp_facts :
  let o0 := outs_after ex_mp_s0 ex_mp_h 0 in let o1 := outs_after ex_mp_s0 ex_mp_h 1 in
  let N := length ex_mp_h in let k1 := length ex_mp_h1 in let k2 := length (ex_mp_h1 ++ ex_mp_h2) in
  writes_of 4 (axi_outs (o0 N)) = [(ex_write 1 None 2 [1;2;3;4;5] 2, 0)] /\
  reads_of 4 (axi_outs (o0 N)) = [(ex_read 1 None 0 12 2, 0); (ex_read 2 None 18 7 2, 1)] /\
  lwrites_of (lite_outs (o1 N)) = [exl_write 2 1 [51;52;53;54;55;56]] /\
  lreads_of (lite_outs (o1 N)) = [exl_read 3 2 7] /\
  match nth_error (completed_on 1 (r_outs (axi_outs (o0 N)))) 0 with Some (o, rs) => Some (o, read_returns ex_cfg o 1 rs) | None => None end =
    Some (ex_read 2 None 18 7 2, Some ([52; 53; 54; 55; 56; 0; 77], OKAY)) /\
  match nth_error (completed (lr_outs (lite_outs (o1 N)))) 0 with Some (o, rs) => Some (o, lite_read_resp 4 (snd o) rs) | None => None end =
    Some (exl_read 3 2 7, ([52; 53; 54; 55; 56; 0; 77], OKAY)) /\
  writes_of 4 (axi_outs (o0 k1)) = [(ex_write 1 None 2 [1;2;3;4;5] 2, 0)] /\
  length (completed_on 0 (w_outs (axi_outs (o0 k1)))) = 1%nat /\
  reads_of 4 (axi_outs (o0 k2)) = [(ex_read 1 None 0 12 2, 0)] /\
  lwrites_of (lite_outs (o1 k1)) = [] /\
  lwrites_of (lite_outs (o1 k2)) = [exl_write 2 1 [51;52;53;54;55;56]] /\
  length (completed (lw_outs (lite_outs (o1 k2)))) = 1%nat /\
  lreads_of (lite_outs (o1 k2)) = [].
Proof. cbv zeta. do 12 (split; [vm_compute; reflexivity|]). vm_compute. reflexivity. Qed.
(** the hypotheses of C76_write_read for the Lite write and the cells 2 and 5, and reads that it speaks of *)
Example C76_nontrivial_hyp :
  let N := length ex_mp_h in let k1 := length ex_mp_h1 in let k2 := length (ex_mp_h1 ++ ex_mp_h2) in
  let V := fun i p => pt_view p N (outs_after ex_mp_s0 ex_mp_h i) in
  Forall (ram_port 16) ex_mp_ps /\ Forall (mop_ok (sm_reachable 16) ex_mp_ps) ex_mp_h /\
  (forall i p, nth_error ex_mp_ps i = Some p -> pt_legal p (outs_after ex_mp_s0 ex_mp_h i N)) /\
  (exists p0 p1, ex_mp_ps = [p0; p1] /\ pv_writes (V 1%nat p1) N = [[(1, 51); (2, 52); (3, 53); (4, 54); (5, 55); (6, 56)]] /\
     leaves (pt_phi p1) 2 [(1, 51); (2, 52); (3, 53); (4, 54); (5, 55); (6, 56)] 52 /\ leaves (pt_phi p1) 5 [(1, 51); (2, 52); (3, 53); (4, 54); (5, 55); (6, 56)] 55 /\
     length (pv_writes (V 1%nat p1) k1) = 0%nat /\ length (pv_writes (V 1%nat p1) k2) = 1%nat /\ pv_wdone (V 1%nat p1) k2 0 /\
     length (pv_writes (V 0%nat p0) N) = 1%nat /\ length (pv_writes (V 0%nat p0) k1) = 1%nat /\ pv_wdone (V 0%nat p0) k1 0 /\
     pv_reads (V 0%nat p0) k2 = [(0, 12)] /\ pv_reads (V 0%nat p0) N = [(0, 12); (18, 7)] /\ pv_rret (V 0%nat p0) 1 ([52; 53; 54; 55; 56; 0; 77], OKAY) /\
     pv_reads (V 1%nat p1) k2 = [] /\ pv_reads (V 1%nat p1) N = [(2, 7)] /\ pv_rret (V 1%nat p1) 0 ([52; 53; 54; 55; 56; 0; 77], OKAY)).
Proof.
  cbv zeta. split; [repeat constructor; cbn; lia|].
  pose proof ex_mp_facts as F. cbv zeta in F. split.
  - assert (HA : forall n, Forall (mop_ok (sm_reachable 16) ex_mp_ps) (ex_mp_a n)).
    { intros n. apply Forall_concat, Forall_forall. intros r Hr. apply repeat_spec in Hr. subst r. apply Forall_map.
      assert (K : Forall a_nopoke (map BW ex_round ++ map BR ex_rround : list (aop (sparse * list call) (sparse * list rcall)))) by repeat constructor.
      eapply Forall_impl; [|exact K]. intros o Ho. eexists. split; [reflexivity|exact Ho]. }
    assert (HB : forall n, Forall (mop_ok (sm_reachable 16) ex_mp_ps) (ex_mp_l n)).
    { intros n. apply Forall_concat, Forall_forall. intros r Hr. apply repeat_spec in Hr. subst r. apply Forall_map.
      assert (K : Forall lx_nopoke (map VW exl_round ++ map VR exl_round : list (lxop (sparse * list call) (sparse * list rcall)))) by repeat constructor.
      eapply Forall_impl; [|exact K]. intros o Ho. eexists. split; [reflexivity|exact Ho]. }
    assert (HD : mop_ok (sm_reachable 16) ex_mp_ps ex_mp_direct).
    { intros t Ht. destruct (mem_write_peek 16 t 8 [77] Ht ltac:(lia) ltac:(lia) ltac:(cbn; lia) ltac:(repeat constructor; unfold is_byte; lia)) as (m' & E & K & _). rewrite E. exact K. }
    apply Forall_app. split; [|apply Forall_app; split].
    + apply Forall_cons; [eexists; split; [reflexivity|exact I]|]. apply Forall_app. split; [apply HA|]. apply Forall_cons; [exact HD|apply HA].
    + apply Forall_cons; [eexists; split; [reflexivity|exact I]|]. apply Forall_cons; [eexists; split; [reflexivity|exact I]|]. apply Forall_app. split; [apply HA|]. apply Forall_app. split; [apply HB|apply HA].
    + apply Forall_cons; [eexists; split; [reflexivity|exact I]|]. apply Forall_cons; [eexists; split; [reflexivity|exact I]|]. apply Forall_app. split; [apply HB|apply HA].
  - revert F. generalize (length ex_mp_h) (length ex_mp_h1) (length (ex_mp_h1 ++ ex_mp_h2)). intros N k1 k2.
    assert (A0 : exists o0, o0 = outs_after ex_mp_s0 ex_mp_h 0) by (eexists; reflexivity). destruct A0 as [o0 A0].
    assert (A1 : exists o1, o1 = outs_after ex_mp_s0 ex_mp_h 1) by (eexists; reflexivity). destruct A1 as [o1 A1].
    rewrite <- A0, <- A1. intros (E1 & E2 & E3 & E4 & E5 & E6 & F1 & F2 & F3 & F4 & F5 & F6 & F7).
    split.
    { clear F1 F2 F3 F4 F5 F6 F7 E5 E6. intros [|[|i]] p Ep; cbn [nth_error] in Ep; try (destruct i; discriminate); injection Ep as <-; cbn [pt_legal].
    + rewrite <- A0,  E1, E2. split; repeat constructor; cbn; try lia; try (exists 2; lia).
    + rewrite <- A1,  E3, E4. split; repeat constructor; cbn; unfold lite_read_legal, is_byte; cbn; try lia.
    } exists (PtAxi ex_cfg 4 4 ram_write ram_read 0 32 (fun x => x mod 16)), (PtLite 4 ram_write ram_read 0 32 (fun x => x mod 16)). split; [reflexivity|].
    cbn [pt_view pt_phi axi_view lite_view pv_writes pv_wdone pv_reads pv_rret]. rewrite <- ?A0, <- ?A1,  E1, E2, E3, E4, F1, F3, F4, F5, F7.
    split; [reflexivity|].
    split; [exists [(1, 51)], 2, [(3, 53); (4, 54); (5, 55); (6, 56)]; split; [reflexivity|]; split; [reflexivity|]; intros q Hq; cbn in Hq; intuition subst; cbn in *; discriminate|].
    split; [exists [(1, 51); (2, 52); (3, 53); (4, 54)], 5, [(6, 56)]; split; [reflexivity|]; split; [reflexivity|]; intros q Hq; cbn in Hq; intuition subst; cbn in *; discriminate|].
    split; [reflexivity|]. split; [reflexivity|]. split; [rewrite F6; lia|]. split; [reflexivity|]. split; [reflexivity|].
    split; [eexists _, _; split; [reflexivity|]; unfold done_at; rewrite F2; cbn; lia|].
    split; [reflexivity|]. split; [reflexivity|].
    split.
    { destruct (nth_error (completed_on 1 (r_outs (axi_outs (o0 N)))) 0) as [[o rs]|] eqn:G; [|discriminate]. injection E5 as -> E5. exists (ex_read 2 None 18 7 2), 1, rs.
      split; [reflexivity|]. split; [exact G|exact E5]. }
    split; [reflexivity|]. split; [reflexivity|].
    destruct (nth_error (completed (lr_outs (lite_outs (o1 N)))) 0) as [[o rs]|] eqn:G; [|discriminate]. injection E6 as -> E6. exists (exl_read 3 2 7), rs. auto.
Qed.
