(** C69: ApbMaster connected to ApbSlave / ApbRam on one reset, which may be asserted and released at any moment. *)
From Coq Require Import ZArith Lia List Bool.
From Coq Require Import ZifyBool ZifyNat.
From Verif Require Import Py S_flat M_sparse S_sparse M_memory P_memory M_axi S_axi P_axi P_axislave P_axiop P_axiram P_axicomp
  M_axil S_axil P_axil M_apb S_apb P_apb P_apbsys P_apbmem P_apblife M_rstapb S_rstapb P_rstapb T_apb.
Import ListNotations.
Open Scope Z_scope.

Lemma fresh_inv T (tw : T -> Z -> list Z -> T * res unit) tr L ep t0 h : 0 < L -> Forall yop_ok h -> fresh tw tr L ep t0 h ->
  let y := fst (y_run tw tr L ep (y_init t0) h) in yinv tw tr L ep (v_t (k_s (fst y))) y [] [].
Proof.
  intros HL Hk [->|(h' & -> & Hf)]; [apply y_init_inv|]. apply Forall_app in Hk as [Hk _].
  destruct (y_run_reach tw tr L ep HL h' t0 (y_init t0) [] [] (y_init_inv tw tr L ep t0) Hk) as (t1 & ops & se & Hy). cbv zeta. rewrite y_run_app.
  destruct (y_run tw tr L ep (y_init t0) h') as [[k on] o1]. cbn [fst snd] in *. subst on. cbn [y_run].
  pose proof (y_assert_inv tw tr L ep t1 k ops se Hy) as K. destruct (y_step tw tr L ep (k, false) (YReset true)) as [y o]. cbn [fst].
  destruct K as (K1 & _ & K2 & _). now rewrite K2.
Qed.

(** As long as reset is asserted psel, penable and pready are low; no operation completes, the target is not called, whatever happens. *)
Theorem C69_silent : forall T (tw : T -> Z -> list Z -> T * res unit) tr L ep t0 h o, 0 < L -> Forall yop_ok (h ++ [o]) -> no_assert o -> o <> YReset false ->
  let y := fst (y_run tw tr L ep (y_init t0) h) in
  snd y = true ->
  b_psel (k_m (fst y)) = false /\ b_penable (k_m (fst y)) = false /\ v_pready (k_s (fst y)) = false /\
  let '(y', l) := y_step tw tr L ep y o in sets l = [] /\ v_t (k_s (fst y')) = v_t (k_s (fst y)) /\ snd y' = true.
Proof.
  intros T tw tr L ep t0 h o HL Hk Hn Hr y Hon. apply Forall_app in Hk as [Hk Ho]. apply Forall_cons_iff in Ho as [Ho _].
  destruct (y_run_reach tw tr L ep HL h t0 (y_init t0) [] [] (y_init_inv tw tr L ep t0) Hk) as (t1 & ops & se & Hy). fold y in Hy. destruct y as [k on]. cbn [fst snd] in *. subst on.
  pose proof (y_step_inv tw tr L ep HL t1 (k, true) o ops se Hy Hn Ho) as HS.
  unfold yinv in Hy. cbn [fst snd] in Hy. destruct Hy as (_ & _ & (D1 & D2 & D3 & D4 & D5 & D6 & D7 & -> & D8)). repeat (split; [assumption|]).
  destruct (y_step tw tr L ep (k, true) o) as [[k' on'] l] eqn:E.
  assert (on' = true) as ->.
  { destruct o as [o|[|]]; [|destruct Hn|congruence]. cbn [y_step fst snd] in E. destruct o as [[]| |]; try (injection E as _ <- _; reflexivity);
      match type of E with context [k_step tw tr L ep k ?o] => destruct (k_step tw tr L ep k o) end; injection E as _ <- _; reflexivity. }
  unfold yinv in HS. cbn [fst snd] in HS. destruct HS as (_ & _ & (_ & _ & _ & _ & _ & _ & _ & E1 & E2)). cbn [fst snd]. rewrite D8, E2. auto.
Qed.
Print Assumptions C69_silent.

(** Since the last assertion of reset (or since the start): the operations completed are the first of those started since then, with the results they have on the
    target as it was at that moment; the target is in the state after these operations, the next one perhaps in part.  Nothing of an earlier operation shows up. *)
Theorem C69_after : forall T (tw : T -> Z -> list Z -> T * res unit) tr L ep t0 h1 h2, 0 < L -> Forall yop_ok (h1 ++ h2) -> fresh tw tr L ep t0 h1 -> Forall no_assert h2 ->
  let y1 := fst (y_run tw tr L ep (y_init t0) h1) in
  let t1 := v_t (k_s (fst y1)) in
  let '(y, o) := y_run tw tr L ep y1 h2 in
  exists n j,
    (n <= length (starts o))%nat /\
    sets o = firstn n (snd (serve_all tw tr L ep t1 (starts o))) /\
    v_t (k_s (fst y)) = match nth_error (starts o) n with
                  | Some x => apb_part tw tr L (fst (serve_all tw tr L ep t1 (firstn n (starts o)))) (snd x) j
                  | None => fst (serve_all tw tr L ep t1 (starts o))
                  end.
Proof.
  intros T tw tr L ep t0 h1 h2 HL Hk Hf Hn y1 t1. apply Forall_app in Hk as [Hk1 Hk2]. pose proof (fresh_inv T tw tr L ep t0 h1 HL Hk1 Hf) as Hy.
  pose proof (y_run_inv tw tr L ep HL t1 h2 y1 [] [] Hy Hn Hk2) as H. destruct (y_run tw tr L ep y1 h2) as [[k on] o]. cbn [app fst snd] in *.
  unfold yinv in H. cbn [fst snd] in H. destruct on.
  - destruct H as (_ & _ & (D1 & D2 & D3 & D4 & D5 & D6 & D7 & D8 & D9)). exists 0%nat, 0%nat. rewrite D8, D9. repeat (split; [cbn; auto; lia|]).
    destruct (starts o) as [|x l]; cbn [nth_error firstn serve_all fst]; [reflexivity|]. symmetry. apply part_0.
  - destruct H as [H1 H2]. destruct (sinv_view tw tr L ep HL t1 k _ _ H1 H2) as (n & j & A & B & C & D & _). exists n, j. auto.
Qed.
Print Assumptions C69_after.

(** Reset is asserted: master and slave are idle, the target keeps its state.  n operations had completed; of the others those in the queue complete with None, and so
    does the one being served -- unless the master's task had just taken it from the queue (line 341): then it never completes.  The operation completed last gets None, too, if
    the master was between two operations (line 457). *)
Theorem C69_reset : forall T (tw : T -> Z -> list Z -> T * res unit) tr L ep t0 h1 h2, 0 < L -> Forall yop_ok (h1 ++ h2) -> fresh tw tr L ep t0 h1 -> Forall no_assert h2 ->
  let y1 := fst (y_run tw tr L ep (y_init t0) h1) in
  let '(y, o) := y_run tw tr L ep y1 h2 in
  snd y = false ->
  let '(y', l) := y_step tw tr L ep y (YReset true) in
  snd y' = true /\ v_t (k_s (fst y')) = v_t (k_s (fst y)) /\ b_is_idle (k_m (fst y')) = true /\ b_pend (k_m (fst y')) = b_pend (k_m (fst y)) /\ starts l = [] /\
  let ops := starts o in let n := length (sets o) in
  exists q c, sets l = map (fun x => (x, None)) (q ++ c) /\
   ((skipn n ops = q /\ c = last_of n ops) \/
    (exists x, skipn n ops = x :: q /\ c = [x]) \/
    (exists x, b_task (k_m (fst y)) = AGot x /\ skipn n ops = x :: q /\ c = last_of n ops)).
Proof.
  intros T tw tr L ep t0 h1 h2 HL Hk Hf Hn y1. apply Forall_app in Hk as [Hk1 Hk2]. pose proof (fresh_inv T tw tr L ep t0 h1 HL Hk1 Hf) as Hy.
  set (t1 := v_t (k_s (fst y1))). pose proof (y_run_inv tw tr L ep HL t1 h2 y1 [] [] Hy Hn Hk2) as H. destruct (y_run tw tr L ep y1 h2) as [[k on] o]. cbn [app fst snd] in *.
  intros ->. pose proof (y_assert_inv tw tr L ep t1 k _ _ H) as HA. unfold yinv in H. cbn [fst snd] in H. destruct H as [H1 H2].
  destruct (y_step tw tr L ep (k, false) (YReset true)) as [y' l]. destruct HA as (_ & A1 & A2 & A3 & A4 & _ & A5 & A6). repeat (split; [assumption|]).
  destruct (sinv_view tw tr L ep HL t1 k _ _ H1 H2) as (n & j & _ & B & _ & _ & (fl & E & F)). cbv zeta. rewrite B, A6, E.
  destruct F as [F|[(x & F1 & F2)|(x & F0 & F1 & F2)]].
  - exists (skipn n (starts o)), (last_of n (starts o)). rewrite F. auto.
  - exists (b_q (k_m k)), [x]. rewrite F2. split; [auto|]. right. left. eauto.
  - exists (b_q (k_m k)), (last_of n (starts o)). rewrite F2. split; [auto|]. right. right. eauto.
Qed.
Print Assumptions C69_reset.

(** So, unless a command is in that window, every operation started since the last assertion completed with its result or completes with None now. *)
Theorem C69_outstanding_none : forall T (tw : T -> Z -> list Z -> T * res unit) tr L ep t0 h1 h2, 0 < L -> Forall yop_ok (h1 ++ h2) -> fresh tw tr L ep t0 h1 -> Forall no_assert h2 ->
  let y1 := fst (y_run tw tr L ep (y_init t0) h1) in
  let '(y, o) := y_run tw tr L ep y1 h2 in
  snd y = false -> (forall x, b_task (k_m (fst y)) <> AGot x) ->
  let '(y', l) := y_step tw tr L ep y (YReset true) in
  forall x, In x (starts o) -> (exists r, In (x, Some r) (sets o)) \/ In (x, None) (sets l).
Proof.
  intros T tw tr L ep t0 h1 h2 HL Hk Hf Hn y1. pose proof (C69_reset T tw tr L ep t0 h1 h2 HL Hk Hf Hn) as HR. pose proof (C69_after T tw tr L ep t0 h1 h2 HL Hk Hf Hn) as HA.
  cbv zeta in HR, HA. fold y1 in HR, HA. destruct (y_run tw tr L ep y1 h2) as [y o]. intros E Hw. specialize (HR E). destruct (y_step tw tr L ep y (YReset true)) as [y' l].
  destruct HR as (_ & _ & _ & _ & _ & q & c & Hl & Hc). destruct HA as (n & j & Hle & Hs & _). intros x Hx.
  set (t1 := v_t (k_s (fst y1))) in *. pose proof (serve_all_len L ep tw tr (starts o) t1) as Hlen.
  assert (Hn' : length (sets o) = n) by (rewrite Hs, firstn_length; lia). rewrite Hn' in Hc.
  rewrite <- (firstn_skipn n (starts o)) in Hx. apply in_app_or in Hx as [Hx|Hx].
  - left. rewrite Hs. clear Hs Hl Hc Hlen Hle Hn'. revert x Hx. generalize t1 as t. generalize (starts o) as ops. clear. induction n as [|n IH]; intros ops t x Hx; [destruct Hx|].
    destruct ops as [|z ops]; [destruct Hx|]. cbn [serve_all]. destruct (apb_serve tw tr L ep t (snd z)) as [ta r]. specialize (IH ops ta).
    destruct (serve_all tw tr L ep ta ops) as [tb rs]. cbn [snd firstn] in *. destruct Hx as [<-|Hx]; [exists r; left; reflexivity|]. destruct (IH x Hx) as (r' & Hr'). exists r'. right. exact Hr'.
  - right. rewrite Hl. apply in_map_iff. exists x. split; [reflexivity|]. apply in_or_app.
    destruct Hc as [[E1 E2]|[(z & E1 & E2)|(z & E0 & _)]]; [rewrite E1 in Hx; auto| |exfalso; eapply Hw; eauto].
    rewrite E1 in Hx. rewrite E2. destruct Hx as [<-|Hx]; [right; left|left]; auto.
Qed.
Print Assumptions C69_outstanding_none.
(** in that window it is lost *)
Theorem C69_window_refuted : exists h x,
  let '(y, o) := y_run ram_write ram_read 4 true (y_init (sm_init 16)) h in
  starts o = [x] /\ snd y = false /\ fst (y_step ram_write ram_read 4 true y (YReset true)) <> y /\ sets o = [] /\ sets (snd (y_step ram_write ram_read 4 true y (YReset true))) = [].
Proof.
  exists [YOp (KEdge false false); YOp (KM (BIssue (ex_w 6 [1; 2; 3]))); YOp (KM BWake)], (0, ex_w 6 [1; 2; 3]). vm_compute. repeat split; auto. discriminate.
Qed.
Print Assumptions C69_window_refuted.

(** Once reset is released, finitely many clock edges without pauses complete everything started since it was asserted, calls made during reset included. *)
Theorem C69_completes : forall T (tw : T -> Z -> list Z -> T * res unit) tr L ep t0 h1 h2, 0 < L -> Forall yop_ok (h1 ++ h2) -> fresh tw tr L ep t0 h1 -> Forall no_assert h2 ->
  let y1 := fst (y_run tw tr L ep (y_init t0) h1) in
  let t1 := v_t (k_s (fst y1)) in
  snd (fst (y_run tw tr L ep y1 h2)) = false ->
  exists N, forall n, (N <= n)%nat ->
  let '(y, o) := y_run tw tr L ep y1 (h2 ++ map YOp (concat (repeat calm_round n))) in
  starts o = starts (snd (y_run tw tr L ep y1 h2)) /\
  sets o = snd (serve_all tw tr L ep t1 (starts o)) /\ v_t (k_s (fst y)) = fst (serve_all tw tr L ep t1 (starts o)).
Proof.
  intros T tw tr L ep t0 h1 h2 HL Hk Hf Hn y1 t1. apply Forall_app in Hk as [Hk1 Hk2]. pose proof (fresh_inv T tw tr L ep t0 h1 HL Hk1 Hf) as Hy.
  pose proof (y_run_inv tw tr L ep HL t1 h2 y1 [] [] Hy Hn Hk2) as H. destruct (y_run tw tr L ep y1 h2) as [[k on] o] eqn:E. cbn [app fst snd] in *. intros ->.
  unfold yinv in H. cbn [fst snd] in H. destruct H as [Hi _]. exists (Z.to_nat (mu L k)). intros n Hle.
  pose proof (mu_nonneg L ep HL tw tr t1 _ _ _ Hi) as Hmu. rewrite y_run_app, E, (y_run_k tw tr L ep _ (proj1 (rounds_ok n))).
  pose proof (rounds_done L ep HL tw tr t1 n k _ _ Hi ltac:(lia)) as HR.
  destruct (k_run tw tr L ep k (concat (repeat calm_round n))) as [k' o']. destruct HR as (H1 & H2 & H3).
  rewrite starts_app, H1, app_nil_r, sets_app. cbn [snd fst]. split; [reflexivity|].
  exact (mu_0 L ep HL tw tr t1 _ _ _ H2 H3).
Qed.
Print Assumptions C69_completes.

(** The operations are those of the calls, in their order, during reset as well. *)
Theorem C69_issue_order : forall T (tw : T -> Z -> list Z -> T * res unit) tr L ep t0 h, Forall y_no_init h ->
  map snd (starts (snd (y_run tw tr L ep (y_init t0) h))) = y_issued h.
Proof.
  intros T tw tr L ep t0 h Hh. enough (HG : forall h (y : ysys T), Forall y_no_init h -> b_pend (k_m (fst y)) = [] ->
    map snd (starts (snd (y_run tw tr L ep y h))) = y_issued h) by (now apply HG).
  clear. induction h as [|o h IH]; intros y Hh Hp; cbn [y_run]; auto.
  apply Forall_cons_iff in Hh as [Ho Hh]. unfold y_issued. cbn [flat_map]. fold (y_issued h).
  assert (HA : forall p q s, starts (snd (a_loop L p q s)) = [] /\ b_pend (fst (a_loop L p q s)) = b_pend s).
  { intros p q. induction q as [|x q IHq]; intros s; cbn [a_loop]; auto. destruct (0 <? _).
    - unfold a_beat. destruct (a_word _ _ _ _) as [[]|]; destruct p; split; reflexivity.
    - set (s1 := b_complete _ _ _). specialize (IHq s1). destruct (a_loop L p q s1). exact IHq. }
  assert (HB : forall m a b c d, starts (snd (a_edge L ep a b c d m)) = [] /\ b_pend (fst (a_edge L ep a b c d m)) = b_pend m).
  { intros m a b c d. unfold a_edge. destruct (b_task m); auto; try (now apply HA); try (destruct a; auto; fail). destruct b; auto. unfold a_ack. cbv zeta. destruct (_ <? _).
    - unfold a_beat. destruct (a_word _ _ _ _) as [[]|]; destruct a; split; reflexivity.
    - match goal with |- context [a_loop L a ?q ?s] => specialize (HA a q s); destruct (a_loop L a q s) end. exact HA. }
  assert (HS : map snd (starts (snd (y_step tw tr L ep y o))) = match o with YOp (KM (BIssue c)) => [c] | _ => [] end /\ b_pend (k_m (fst (fst (y_step tw tr L ep y o)))) = []).
  { destruct y as [k on]. cbn [fst snd] in *. destruct o as [[[c|c|n| |n|p pr pd pe|b]|mp sp|b]|b]; cbn [y_step fst snd k_step b_step]; try destruct Ho; auto.
    - rewrite Hp. destruct n; cbn; auto.
    - destruct (b_task (k_m k)); cbn; auto. destruct (b_q (k_m k)); cbn; auto.
    - destruct (nth_error _ _) as [[x [d|]]|]; cbn; auto.
    - specialize (HB (k_m k) mp (v_pready (k_s k)) (v_prdata (k_s k)) (v_pslverr (k_s k))). destruct (a_edge _ _ _ _ _ _ _). cbn in *. destruct HB as [-> HB]. rewrite HB. auto.
    - destruct (Bool.eqb b on); cbn; auto. unfold a_reset. destruct b; cbn.
      + rewrite flush_starts. auto.
      + destruct (b_task (k_m k)); cbn; auto. }
  destruct (y_step tw tr L ep y o) as [y1 o1]. destruct HS as [HS1 HS2]. specialize (IH y1 Hh HS2). destruct (y_run tw tr L ep y1 h). cbn [snd] in *.
  rewrite starts_app, map_app, IH, HS1. reflexivity.
Qed.
Print Assumptions C69_issue_order.

(** ** on a byte memory *)
(** Results since the last assertion are those of the operations in order on the memory of that moment.  What the memory holds at any time -- so also what a reset leaves -- are
    the completed operations and the first m bytes of the next one. *)
Theorem C69_memory : forall T L ep lo hi phi (inv : T -> Prop) view tw tr,
  flat_target L lo hi phi inv view tw tr -> 0 < L -> lo mod L = 0 -> hi mod L = 0 ->
  forall t0 h1 h2, inv t0 -> Forall yop_ok (h1 ++ h2) -> fresh tw tr L ep t0 h1 -> Forall no_assert h2 ->
  Forall (fun x => op_in lo hi (snd x)) (starts (snd (y_run tw tr L ep (y_init t0) (h1 ++ h2)))) ->
  let y1 := fst (y_run tw tr L ep (y_init t0) h1) in
  let m1 := view (v_t (k_s (fst y1))) in
  let '(y, o) := y_run tw tr L ep y1 h2 in
  exists n m, (n <= length (starts o))%nat /\ sets o = firstn n (snd (mem_serve phi m1 (starts o))) /\
    view (v_t (k_s (fst y))) =f match nth_error (starts o) n with
                                | Some x => mem_part phi (fst (mem_serve phi m1 (firstn n (starts o)))) (snd x) m
                                | None => fst (mem_serve phi m1 (starts o))
                                end.
Proof.
  intros T L ep lo hi phi inv view tw tr Hft HL Hlo Hhi t0 h1 h2 Hi Hk Hf Hn Hst y1 m1. apply Forall_app in Hk as [Hk1 Hk2].
  pose proof (fresh_inv T tw tr L ep t0 h1 HL Hk1 Hf) as Hy. cbv zeta in Hy. fold y1 in Hy. rewrite y_run_app in Hst.
  pose proof (y_reach_mem tw tr L ep HL lo hi phi inv view Hft Hlo Hhi h1 t0 (y_init t0) [] [] Hi (y_init_inv tw tr L ep t0) (Forall_nil _) Hk1) as HM.
  pose proof (y_run_inv tw tr L ep HL (v_t (k_s (fst y1))) h2 y1 [] [] Hy Hn Hk2) as H.
  unfold y1 in *. destruct (y_run tw tr L ep (y_init t0) h1) as [ya oa]. cbn [fst snd] in *.
  destruct (y_run tw tr L ep ya h2) as [y o]. cbn [app fst snd] in *. rewrite starts_app in Hst. apply Forall_app in Hst as [Hs1 Hs2].
  destruct (HM Hs1) as (t1 & ops & se & G1 & G2 & G3).
  destruct (yinv_mem tw tr L ep HL lo hi phi inv view Hft Hlo Hhi t1 ya ops se G1 G2 G3) as [Hia _].
  destruct (yinv_mem tw tr L ep HL lo hi phi inv view Hft Hlo Hhi _ y _ _ Hia H Hs2) as (_ & n & m & A & B & C & D).
  exists n, m. auto.
Qed.
Print Assumptions C69_memory.

(** ApbRam of [size] bytes *)
Theorem C69_ram : forall size L ep hi m0 h1 h2, 0 < size -> 0 < L -> size mod L = 0 -> hi mod L = 0 -> sm_reachable size m0 ->
  Forall yop_ok (h1 ++ h2) -> fresh ram_write ram_read L ep m0 h1 -> Forall no_assert h2 ->
  Forall (fun x => op_in 0 hi (snd x)) (starts (snd (y_run ram_write ram_read L ep (y_init m0) (h1 ++ h2)))) ->
  let y1 := fst (y_run ram_write ram_read L ep (y_init m0) h1) in
  let m1 := peek (v_t (k_s (fst y1))) in
  let phi := fun a => a mod size in
  let '(y, o) := y_run ram_write ram_read L ep y1 h2 in
  exists n m, (n <= length (starts o))%nat /\ sets o = firstn n (snd (mem_serve phi m1 (starts o))) /\
    peek (v_t (k_s (fst y))) =f match nth_error (starts o) n with
                                | Some x => mem_part phi (fst (mem_serve phi m1 (firstn n (starts o)))) (snd x) m
                                | None => fst (mem_serve phi m1 (starts o))
                                end.
Proof.
  intros size L ep hi m0 h1 h2 Hs HL Hm Hhi Hr Hk Hf Hn Hst.
  exact (C69_memory _ L ep 0 hi _ _ _ _ _ (ram_flat L size 0 hi HL Hs Hm) HL (Z.mod_0_l L ltac:(lia)) Hhi m0 h1 h2 Hr Hk Hf Hn Hst).
Qed.
Print Assumptions C69_ram.

(** A write is interrupted after its first word with a read behind it; both complete with None.  A read called during reset returns the first word of the interrupted write, nothing else. *)
Example C69_nontrivial :
  let e := YOp (KEdge false false) in
  let h1 := [YOp (KM (BIssue (ex_w 6 [1; 2; 3; 4]))); e; YOp (KM (BIssue (ex_r 0 4))); e; YOp (KEdge false true); YReset true] in
  let h2 := [YOp (KM (BIssue (ex_r 4 6))); e; e; YReset false] ++ map YOp (concat (repeat calm_round 8)) in
  let '(y1, o1) := y_run ram_write ram_read 4 true (y_init (sm_init 16)) h1 in
  let '(y2, o2) := y_run ram_write ram_read 4 true y1 h2 in
  sets o1 = [((1, ex_r 0 4), None); ((0, ex_w 6 [1; 2; 3; 4]), None)] /\ snd y1 = true /\
  sets o2 = [((2, ex_r 4 6), Some (ARResp 4 [0; 0; 1; 2; 0; 0] OKAY))] /\ snd y2 = false /\ fresh ram_write ram_read 4 true (sm_init 16) h1.
Proof.
  intros e h1 h2.
  assert (Hf : fresh ram_write ram_read 4 true (sm_init 16) h1).
  { right. exists (removelast h1). split; [reflexivity|]. vm_compute. reflexivity. }
  revert Hf. generalize (fresh ram_write ram_read 4 true (sm_init 16) h1). intros P HP. vm_compute. auto 10.
Qed.
