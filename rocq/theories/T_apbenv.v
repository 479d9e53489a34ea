(** C84: an APB interface on a memory that others use too *)
From Coq Require Import ZArith Lia List Bool.
From Coq Require Import ZifyBool ZifyNat.
From Verif Require Import Py S_flat M_sparse S_sparse M_memory P_memory M_axi S_axi P_axi P_axiram M_axil S_axil M_litesys S_litesys M_literw S_literw M_sys S_sys P_sysram S_mport P_mport P_mpcell T_mport
  M_apb S_apb P_apb P_apbsys T_apb M_apbenv S_apbenv P_apbenv P_apblog P_apbport.
Import ListNotations.
Open Scope Z_scope.

(** Every step of master and slave writes bytes of the issued writes in their order and every completed read returns the memory's bytes of moments between its issue and
    its completion ([served], S_mport.v), whatever the others do to the memory in between; the steps of the others do what they do. *)
Theorem C84_served : forall T L ep lo hi phi (inv : T -> Prop) (view : T -> flat) tw tr t0 h,
  flat_target L lo hi phi inv view tw tr -> 0 < L -> lo mod L = 0 -> hi mod L = 0 -> inv t0 -> Forall (eop_ok inv) h ->
  let N := length h in let mem := apb_mem tw tr L ep t0 h in let l := apb_outs tw tr L ep t0 h in
  Forall (lwrite_in lo hi) (awrites (starts (l N))) -> Forall (lread_in lo hi) (areads (starts (l N))) ->
  (forall k, (k <= N)%nat -> inv (mem k)) /\
  (forall k f, nth_error h k = Some (EPoke f) -> mem (S k) = f (mem k) /\ l (S k) = l k) /\
  served phi N (fun k => view (mem k)) (is_own h) (apb_view L N l).
Proof.
  intros T L ep lo hi phi inv view tw tr t0 h Hft HL Hlo Hhi Ht0 Hh N mem l HW HR. unfold l, apb_outs, N in HW, HR. rewrite firstn_all in HW, HR.
  destruct (apb_served lo hi phi inv view tw tr L ep t0 h Hft HL Hlo Hhi Ht0 Hh HW HR) as [K1 K2]. split; [exact K1|]. split; [|exact K2].
  intros k f E. unfold mem, apb_mem, l, apb_outs. rewrite (P_mpaxi.firstn_snoc _ _ _ E), e_run_app. cbn [e_run e_step fst snd k_poke k_s v_t app]. now rewrite app_nil_r.
Qed.
Print Assumptions C84_served.

Lemma plays_all_app {X} (tw : wt X) tr a : forall b x x', plays_all tw tr x (a ++ b) x' -> exists x1, plays_all tw tr x a x1 /\ plays_all tw tr x1 b x'.
Proof. induction a as [|s a IH]; intros b x x' H; [exists x; split; [reflexivity|exact H]|]. destruct H as (x1 & H1 & H2). destruct (IH _ _ _ H2) as (x2 & K1 & K2). exists x2. split; [exists x1; auto|exact K2]. Qed.
Lemma served_ops {X} (tw : wt X) tr L ep ops : forall x, map fst (aw_res (snd (serve_all tw tr L ep x ops))) = awrites ops /\ map fst (ar_res (snd (serve_all tw tr L ep x ops))) = areads ops.
Proof.
  induction ops as [|[i c] ops IH]; intros x; [split; reflexivity|]. cbn [serve_all snd]. destruct (apb_serve tw tr L ep x c) as [x1 r] eqn:E. destruct (IH x1) as [I1 I2].
  destruct (serve_all tw tr L ep x1 ops) as [x2 rs]. cbn [snd] in *. destruct c as [w|c]; cbn [apb_serve] in E; cbn zeta in E.
  - destruct (lite_slave_write tw L true _ _ x) as [[t b] q]. injection E as _ <-. unfold awrites, areads, aw_res, ar_res in *. cbn [flat_map app map fst]. now rewrite I1, I2.
  - destruct (lite_slave_read tr L _ x) as [t b]. injection E as _ <-. unfold awrites, areads, aw_res, ar_res in *. cbn [flat_map app map fst]. now rewrite I1, I2.
Qed.

(** From every state reached, finitely many clock edges without pauses complete everything that was issued, whatever the others do in between; any target. *)
Theorem C84_completes : forall T (tw : T -> Z -> list Z -> T * res unit) tr L ep t0 h, 0 < L -> Forall (eop_ok (fun _ : T => True)) h ->
  exists M, forall h' m, kops h' = concat (repeat calm_round m) -> (M <= m)%nat ->
  let N := length (h ++ h') in let l := apb_outs tw tr L ep t0 (h ++ h') in
  starts (l N) = starts (l (length h)) /\ all_returned (apb_view L N l) N.
Proof.
  intros T tw tr L ep t0 h HL Hh. exists (Z.to_nat (mu L (fst (e_run tw tr L ep (sys0 t0) h)))). intros h' m Eh' Hm N l.
  assert (Hnr : Forall eno_reset (h ++ h')).
  { apply Forall_app. split; [eapply Forall_impl; [|exact Hh]; intros [o|f] Ho; [exact (proj1 Ho)|exact I]|].
    apply Forall_forall. intros [o|f] Ho; [|exact I]. assert (K : In o (kops h')) by (apply in_flat_map; exists (EK o); split; [exact Ho|now left]).
    rewrite Eh' in K. apply in_concat in K as (r & K1 & K2). apply repeat_spec in K1. subst r. destruct K2 as [<-|[<-|[]]]; exact I. }
  destruct (run_det tw tr L ep HL (h ++ h') (sys0 t0) I Hnr) as (scr & S1 & S2 & S3).
  assert (Ht : Forall one_kind scr).
  { apply Forall_forall. intros s Hs. apply In_nth_error in Hs as [i E]. assert (Hi : (i < length (h ++ h'))%nat) by (rewrite <- S1; apply nth_error_Some; congruence).
    destruct (S2 i Hi) as (o & s' & _ & E' & K). rewrite E in E'. injection E' as <-. destruct o as [o|f]; cbn in K; [|destruct K as [-> _]; now left].
    destruct K as [_ [[K _]|(K1 & K2 & _)]]; [now left|right; auto]. }
  pose proof (ans_w scr Ht []) as HP. set (x0 := (map snd (flat_map fst scr), map snd (flat_map snd scr), [])) in *. rewrite <- (firstn_skipn (length h) scr) in HP.
  destruct (plays_all_app _ _ _ _ _ _ HP) as (x1 & HP1 & _). rewrite firstn_skipn in HP.
  pose proof (S3 (length h) _ _ _ _ _ ltac:(rewrite app_length; lia) HP1) as E1. assert (Ef : firstn (length h) (h ++ h') = h) by (rewrite firstn_app, firstn_all, Nat.sub_diag; cbn; apply app_nil_r).
  rewrite Ef in E1.
  pose proof (S3 N _ _ _ x0 _ (le_n _) ltac:(unfold N; rewrite <- S1, firstn_all; exact HP)) as E2. unfold N in E2. rewrite firstn_all in E2.
  unfold kops in E2. rewrite flat_map_app in E2. fold (kops h) in E2. fold (kops h') in E2. rewrite Eh', k_run_app in E2. change (ylift x0 (sys0 t0)) with (sys0 x0) in E1, E2. rewrite E1 in E2.
  assert (Hk : Forall no_reset (kops h) /\ Forall kop_ok (kops h)).
  { clear - Hh. induction Hh as [|[o|f] h Ho H [I1 I2]]; cbn [kops flat_map app]; [split; constructor| |auto]. destruct Ho as [O1 O2]. split; constructor; auto. }
  pose proof (k_run_inv L ep HL (log_write a_w) (lift_r a_r) x0 (kops h) _ _ _ (sys0_inv L ep (log_write a_w) (lift_r a_r) x0) (proj1 Hk) (proj2 Hk)) as Hi. rewrite E1 in Hi. cbn [app] in Hi.
  pose proof (mu_nonneg L ep HL _ _ x0 _ _ _ Hi) as Hmu. change (mu L (ylift x1 (fst (e_run tw tr L ep (sys0 t0) h)))) with (mu L (fst (e_run tw tr L ep (sys0 t0) h))) in Hmu.
  pose proof (rounds_done L ep HL (log_write a_w) (lift_r a_r) x0 m _ _ _ Hi) as HR. change (mu L (ylift x1 (fst (e_run tw tr L ep (sys0 t0) h)))) with (mu L (fst (e_run tw tr L ep (sys0 t0) h))) in HR.
  specialize (HR ltac:(lia)). destruct (k_run _ _ L ep (ylift x1 _) (concat (repeat calm_round m))) as [y' o']. destruct HR as (H1 & H2 & H3).
  apply pair_equal_spec in E2 as [_ E2].
  assert (El : l N = snd (e_run tw tr L ep (sys0 t0) (h ++ h'))) by (unfold l, apb_outs, N; now rewrite firstn_all).
  assert (Elh : l (length h) = snd (e_run tw tr L ep (sys0 t0) h)) by (unfold l, apb_outs; now rewrite Ef).
  destruct (mu_0 L ep HL _ _ x0 _ _ _ H2 H3) as [H4 _].
  assert (Est : starts (l N) = starts (l (length h))) by (rewrite El, Elh, <- E2, starts_app, H1; apply app_nil_r). split; [exact Est|].
  assert (Ese : sets (l N) = snd (serve_all (log_write a_w) (lift_r a_r) L ep x0 (starts (l N)))) by (rewrite Est, El, Elh, <- E2, sets_app; exact H4).
  destruct (served_ops (log_write a_w) (lift_r a_r) L ep (starts (l N)) x0) as [W1 W2]. rewrite <- Ese in W1, W2. split.
  - intros i Hi'. cbn [pv_writes apb_view pv_wret] in *. rewrite map_length in Hi'. rewrite <- W1 in Hi' |- *. rewrite map_length in Hi'.
    destruct (nth_error (aw_res (sets (l N))) i) as [[o r]|] eqn:E; [|apply nth_error_None in E; lia]. exists r, o. now rewrite nth_error_map, E.
  - intros i Hi'. cbn [pv_reads apb_view pv_rret] in *. rewrite map_length in Hi'. rewrite <- W2 in Hi' |- *. rewrite map_length in Hi'.
    destruct (nth_error (ar_res (sets (l N))) i) as [[o r]|] eqn:E; [|apply nth_error_None in E; lia]. exists r, o. now rewrite nth_error_map, E.
Qed.
Print Assumptions C84_completes.

(** A write that was issued after k1 and has completed at k2, while the others leave the cell alone from k1 on: the cell holds its byte until a later write of the master, and every later read
    returns it. *)
Theorem C84_write_read : forall T L ep lo hi phi (inv : T -> Prop) (view : T -> flat) tw tr t0 h,
  flat_target L lo hi phi inv view tw tr -> 0 < L -> lo mod L = 0 -> hi mod L = 0 -> inv t0 -> Forall (eop_ok inv) h ->
  let N := length h in let mem := apb_mem tw tr L ep t0 h in let l := apb_outs tw tr L ep t0 h in let V := apb_view L N l in
  Forall (lwrite_in lo hi) (awrites (starts (l N))) -> Forall (lread_in lo hi) (areads (starts (l N))) ->
  forall k1 k2 w b cell x, (k1 <= k2 <= N)%nat -> nth_error (pv_writes V N) w = Some b -> leaves phi cell b x ->
  (length (pv_writes V k1) <= w < length (pv_writes V k2))%nat -> pv_wdone V k2 w ->
  (forall w' b', (w < w')%nat -> nth_error (pv_writes V N) w' = Some b' -> ~ on_cell phi cell b') ->
  (forall k f, (k1 <= k)%nat -> nth_error h k = Some (EPoke f) -> view (f (mem k)) cell = view (mem k) cell) ->
  (forall k, (k2 <= k <= N)%nat -> view (mem k) cell = x) /\
  forall r a len d y, nth_error (pv_reads V N) r = Some (a, len) -> (length (pv_reads V k2) <= r)%nat -> a <= y < a + len -> phi y = cell -> pv_rret V r d ->
    snd d = OKAY /\ nth_error (fst d) (Z.to_nat (y - a)) = Some x.
Proof.
  intros T L ep lo hi phi inv view tw tr t0 h Hft HL Hlo Hhi Ht0 Hh N mem l V HW HR k1 k2 w b cell x Hk Ew Hx Hw Hd Hlater Hoth.
  destruct (C84_served T L ep lo hi phi inv view tw tr t0 h Hft HL Hlo Hhi Ht0 Hh HW HR) as (_ & HP & HS).
  assert (Hm : forall k, (k2 <= k <= N)%nat -> view (mem k) cell = x).
  { apply (writer N (fun k => view (mem k)) cell phi (is_own h) V k1 k2 w b x HS Hk); auto.
    intros k Hk' Hown. unfold is_own in Hown. destruct (nth_error h k) as [[o|f]|] eqn:E; [discriminate| |apply nth_error_None in E; unfold N in *; lia].
    unfold mem. rewrite (proj1 (HP k f E)). apply (Hoth k f); [lia|exact E]. }
  split; [exact Hm|]. intros r a len d y Er Hr Hy Hc Hret.
  exact (reader N (fun k => view (mem k)) cell phi (is_own h) V k2 r a len d y x HS ltac:(lia) Hm Er Hr Hret Hy Hc).
Qed.
Print Assumptions C84_write_read.

(** What the others left in a cell at k1 stays there and is read by every later read, if all writes of the master that touch it had completed and the others leave it alone from then on. *)
Theorem C84_stable_read : forall T L ep lo hi phi (inv : T -> Prop) (view : T -> flat) tw tr t0 h,
  flat_target L lo hi phi inv view tw tr -> 0 < L -> lo mod L = 0 -> hi mod L = 0 -> inv t0 -> Forall (eop_ok inv) h ->
  let N := length h in let mem := apb_mem tw tr L ep t0 h in let l := apb_outs tw tr L ep t0 h in let V := apb_view L N l in
  Forall (lwrite_in lo hi) (awrites (starts (l N))) -> Forall (lread_in lo hi) (areads (starts (l N))) ->
  forall k1 cell, (k1 <= N)%nat ->
  (forall w b, nth_error (pv_writes V N) w = Some b -> on_cell phi cell b -> (w < length (pv_writes V k1))%nat /\ pv_wdone V k1 w) ->
  (forall k f, (k1 <= k)%nat -> nth_error h k = Some (EPoke f) -> view (f (mem k)) cell = view (mem k) cell) ->
  (forall k, (k1 <= k <= N)%nat -> view (mem k) cell = view (mem k1) cell) /\
  forall r a len d y, nth_error (pv_reads V N) r = Some (a, len) -> (length (pv_reads V k1) <= r)%nat -> a <= y < a + len -> phi y = cell -> pv_rret V r d ->
    snd d = OKAY /\ nth_error (fst d) (Z.to_nat (y - a)) = Some (view (mem k1) cell).
Proof.
  intros T L ep lo hi phi inv view tw tr t0 h Hft HL Hlo Hhi Ht0 Hh N mem l V HW HR k1 cell Hk Hd Hoth.
  destruct (C84_served T L ep lo hi phi inv view tw tr t0 h Hft HL Hlo Hhi Ht0 Hh HW HR) as (_ & HP & HS).
  assert (Hm : forall k, (k1 <= k <= N)%nat -> view (mem k) cell = view (mem k1) cell).
  { intros k [A1 A2]. induction k as [|k IH]; [now replace k1 with 0%nat by lia|]. destruct (Nat.eq_dec k1 (S k)) as [->|]; [reflexivity|]. rewrite <- IH by lia.
    destruct (nth_error h k) as [[o|f]|] eqn:E; [| |apply nth_error_None in E; unfold N in *; lia].
    - apply (others N (fun k => view (mem k)) cell phi (is_own h) V k1 HS Hk Hd k); [lia|]. unfold is_own. now rewrite E.
    - unfold mem. rewrite (proj1 (HP k f E)). apply (Hoth k f); [lia|exact E]. }
  split; [exact Hm|]. intros r a len d y Er Hr Hy Hc Hret.
  exact (reader N (fun k => view (mem k)) cell phi (is_own h) V k1 r a len d y _ HS Hk Hm Er Hr Hret Hy Hc).
Qed.
Print Assumptions C84_stable_read.

(** ApbRam of [size] bytes with direct writes to its memory: through Memory or SparseMemory, or by another component that shares it *)
Corollary C84_ram : forall size L ep hi m0 h, 0 < size -> 0 < L -> size mod L = 0 -> hi mod L = 0 -> sm_reachable size m0 ->
  (forall k o, nth_error h k = Some (EK o) -> no_reset o /\ kop_ok o) -> (forall k f, nth_error h k = Some (EPoke f) -> ram_direct size f) ->
  let N := length h in let mem := apb_mem ram_write ram_read L ep m0 h in let l := apb_outs ram_write ram_read L ep m0 h in
  Forall (lwrite_in 0 hi) (awrites (starts (l N))) -> Forall (lread_in 0 hi) (areads (starts (l N))) ->
  (forall k, (k <= N)%nat -> sm_reachable size (mem k)) /\
  (forall k a d, nth_error h k = Some (EPoke (fun m => fst (mem_write m a d))) -> 0 <= a -> a < size -> a + zlen d <= size -> are_bytes d -> peek (mem (S k)) =f wr (peek (mem k)) a d) /\
  served (fun x => x mod size) N (fun k => peek (mem k)) (is_own h) (apb_view L N l).
Proof.
  intros size L ep hi m0 h Hs HL Hm Hhi Hr Hk Hd N mem l HW HR.
  assert (Hh : Forall (eop_ok (sm_reachable size)) h).
  { apply Forall_forall. intros o Hin. apply In_nth_error in Hin as [k E]. destruct o as [o|f]; [exact (Hk k o E)|]. destruct (Hd k f E) as (a & d & A & B & C & D & ->).
    intros t Ht. destruct (mem_write_peek size t a d Ht A B C D) as (m' & -> & K & _). exact K. }
  destruct (C84_served _ L ep 0 hi _ _ _ _ _ m0 h (ram_flat L size 0 hi HL Hs Hm) HL (Z.mod_0_l L ltac:(lia)) Hhi Hr Hh HW HR) as (K1 & K2 & K3).
  split; [exact K1|]. split; [|exact K3]. intros k a d E A B C D. unfold mem. rewrite (proj1 (K2 k _ E)). assert (Hk' : (k < length h)%nat) by (apply nth_error_Some; congruence).
  destruct (mem_write_peek size _ a d (K1 k ltac:(lia)) A B C D) as (m' & -> & _ & K). exact K.
Qed.
Print Assumptions C84_ram.

(** a write over two words; between its words somebody stores 77, 78 at addresses 3 and 4 (the second word of the write overwrites 78); a read over the same words, between whose words somebody
    stores 88, 89 there (the read returns the old byte at 3 and the new one at 4); pauses on both sides *)
Definition ex_ae_h : list (eop sparse) :=
  map EK [KM (BIssue (ex_w 2 [1; 2; 3; 4; 5])); KM BWake; KEdge false false; KEdge false true; KEdge false false; KEdge false false; KEdge false false] ++
  [EPoke (fun m => fst (mem_write m 3 [77; 78]))] ++
  map EK (KEdge false false :: concat (repeat [KM BWake; KEdge false false; KEdge true true] 6)) ++
  map EK [KM (BIssue (ex_r 3 4)); KM BWake; KEdge false false; KEdge false false; KEdge false false] ++
  [EPoke (fun m => fst (mem_write m 3 [88; 89]))] ++ map EK (concat (repeat calm_round 8)).
Example C84_nontrivial :
  let '(y, o) := e_run ram_write ram_read 4 true (sys0 (sm_init 16)) ex_ae_h in
  map snd (sets o) = [Some (AWResp 2 5 OKAY); Some (ARResp 3 [77; 89; 4; 5] OKAY)] /\
  map (peek (v_t (k_s y))) [1; 2; 3; 4; 5; 6; 7] = [0; 1; 88; 89; 4; 5; 0].
Proof. vm_compute. auto. Qed.
