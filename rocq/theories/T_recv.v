(** C73: concurrent blocking receives. *)
From Coq Require Import ZArith Lia List Bool Permutation.
From Verif Require Import Py M_stream S_stream M_axisframe M_axis S_axis S_axisrun M_recv S_recv P_recv.
Import ListNotations.
Open Scope Z_scope.

(** ** every item goes to exactly one call, in order of arrival, whatever calls of recv(), recv_nowait(), read() and read_nowait() are mixed *)
Theorem C73_exactly_once :
  (forall A hr (x : vst (mon A) unit) h, Forall (quiet mon_takes) h ->
     let '(x', evs) := mon_vrun hr x h in fifo (m_q (v_s x)) evs (m_q (v_s x'))) /\
  (forall A hr (x : vst (snk A) unit) h, Forall (quiet snk_takes) h ->
     let '(x', evs) := snk_vrun hr x h in fifo (k_q (v_s x)) evs (k_q (v_s x'))) /\
  (forall c (x : vst amon rcall) h, Forall (quiet amon_takes) h ->
     let '(x', evs) := amon_vrun c x h in fifo (n_q (v_s x)) evs (n_q (v_s x'))) /\
  (forall c (x : vst asnk rcall) h, Forall (quiet asnk_takes) h ->
     let '(x', evs) := asnk_vrun c x h in fifo (z_q (v_s x)) evs (z_q (v_s x'))).
Proof.
  split; [|split; [|split]].
  - intros A hr x h Hh. pose proof (run_fifo _ _ _ _ _ _ _ (mon_hstep hr) mon_get_ok2 mon_get_ok mon_get_ok2 h x Hh) as H. fold (mon_vrun (A := A) hr) in H. now destruct (mon_vrun hr x h).
  - intros A hr x h Hh. pose proof (run_fifo _ _ _ _ _ _ _ (snk_hstep hr) snk_get_ok2 snk_get_ok snk_get_ok2 h x Hh) as H. fold (snk_vrun (A := A) hr) in H. now destruct (snk_vrun hr x h).
  - intros c x h Hh. pose proof (run_fifo _ _ _ _ _ _ _ (amon_hstep c) (amon_enter_ok c) (amon_resume_ok c) amon_now_ok h x Hh) as H. fold (amon_vrun c) in H. now destruct (amon_vrun c x h).
  - intros c x h Hh. pose proof (run_fifo _ _ _ _ _ _ _ (asnk_hstep c) (asnk_enter_ok c) (asnk_resume_ok c) asnk_now_ok h x Hh) as H. fold (asnk_vrun c) in H. now destruct (asnk_vrun c x h).
Qed.
Print Assumptions C73_exactly_once.

(** a sink with three waiting calls, three items, and a recv_nowait() that is faster than the call it overtakes *)
Definition c73_hist : list (vop unit (kev Z)) :=
  [VOp (KOp KRun) []; VCall 1 tt; VCall 2 tt; VCall 3 tt; VOp (KClkE false 0) []; VOp KWakeE []; VOp (KOp KRun) []; VOp (KClkE true 11) []; VRun 0;
   VOp (KClkE true 12) [1%nat]; VNow 4 tt; VRun 0; VOp (KClkE true 13) []; VRun 0; VNow 5 tt].
Example C73_exactly_once_ex : snd (snk_vrun true (v_init (snk_init (-1))) c73_hist) =
  [VArr 11; VTake 1 tt 11; VRet 1 tt 11; VArr 12; VTake 4 tt 12; VRet 4 tt 12; VArr 13; VTake 2 tt 13; VRet 2 tt 13; VEmpty 5 tt] /\
  v_wait (fst (snk_vrun true (v_init (snk_init (-1))) c73_hist)) = [(3, tt)] /\ Forall (quiet snk_takes) c73_hist.
Proof. split; [vm_compute; reflexivity|]. split; [vm_compute; reflexivity|]. repeat constructor. Qed.

(** ** every call returns (or raises QueueEmpty) exactly once, or is still pending *)
Theorem C73_calls :
  (forall A hr (x : vst (mon A) unit) h, let '(x', evs) := mon_vrun hr x h in Permutation (called h ++ v_run x ++ v_wait x) (ended evs ++ v_run x' ++ v_wait x')) /\
  (forall A hr (x : vst (snk A) unit) h, let '(x', evs) := snk_vrun hr x h in Permutation (called h ++ v_run x ++ v_wait x) (ended evs ++ v_run x' ++ v_wait x')) /\
  (forall c (x : vst amon rcall) h, let '(x', evs) := amon_vrun c x h in Permutation (called h ++ v_run x ++ v_wait x) (ended evs ++ v_run x' ++ v_wait x')) /\
  (forall c (x : vst asnk rcall) h, let '(x', evs) := asnk_vrun c x h in Permutation (called h ++ v_run x ++ v_wait x) (ended evs ++ v_run x' ++ v_wait x')).
Proof.
  split; [|split; [|split]]; [intros A c x h|intros A c x h|intros c x h|intros c x h].
  - unfold mon_vrun. match goal with |- context [vrun ?a ?b ?d ?e ?f ?g x h] => pose proof (run_calls a b d e f g h x) as H; now destruct (vrun a b d e f g x h) end.
  - unfold snk_vrun. match goal with |- context [vrun ?a ?b ?d ?e ?f ?g x h] => pose proof (run_calls a b d e f g h x) as H; now destruct (vrun a b d e f g x h) end.
  - unfold amon_vrun. match goal with |- context [vrun ?a ?b ?d ?e ?f ?g x h] => pose proof (run_calls a b d e f g h x) as H; now destruct (vrun a b d e f g x h) end.
  - unfold asnk_vrun. match goal with |- context [vrun ?a ?b ?d ?e ?f ?g x h] => pose proof (run_calls a b d e f g h x) as H; now destruct (vrun a b d e f g x h) end.
Qed.
Print Assumptions C73_calls.
Example C73_calls_ex : called c73_hist = [(1, tt); (2, tt); (3, tt); (4, tt); (5, tt)] /\
  ended (snd (snk_vrun true (v_init (snk_init (-1))) c73_hist)) = [(1, tt); (4, tt); (2, tt); (5, tt)].
Proof. split; vm_compute; reflexivity. Qed.

(** ** what recv() returns is the item it took, of the AXI stream the frame, compacted or not *)
Theorem C73_results :
  (forall A hr (x : vst (mon A) unit) h, rets_of (fun _ => true) (snd (mon_vrun hr x h)) = takes_of (fun _ => true) (snd (mon_vrun hr x h))) /\
  (forall A hr (x : vst (snk A) unit) h, rets_of (fun _ => true) (snd (snk_vrun hr x h)) = takes_of (fun _ => true) (snd (snk_vrun hr x h))) /\
  (forall c (x : vst amon rcall) h, rets_of is_recv (snd (amon_vrun c x h)) = map recv_gives (takes_of is_recv (snd (amon_vrun c x h)))) /\
  (forall c (x : vst asnk rcall) h, rets_of is_recv (snd (asnk_vrun c x h)) = map recv_gives (takes_of is_recv (snd (asnk_vrun c x h)))).
Proof.
  split; [|split; [|split]].
  - intros A hr x h. etransitivity; [apply (run_results _ _ _ _ _ _ _ _ mon_one mon_one mon_one)|]. apply map_id.
  - intros A hr x h. etransitivity; [apply (run_results _ _ _ _ _ _ _ _ snk_one snk_one snk_one)|]. apply map_id.
  - intros c x h. destruct amon_results as (H1 & H2 & H3). apply (run_results _ _ _ _ _ _ _ _ H1 H2 H3).
  - intros c x h. destruct asnk_results as (H1 & H2 & H3). apply (run_results _ _ _ _ _ _ _ _ H1 H2 H3).
Qed.
Print Assumptions C73_results.

(** an AXI stream sink with four lanes: recv() without compaction, then two concurrent calls of read() *)
Definition c73c := {| x_lanes := 4; x_bsize := 8; x_ready := true; x_last := true; x_keep := true; x_id := false; x_dest := false; x_user := false |}.
Definition c73b (d k : Z) : beat := {| b_data := d; b_keep := k; b_id := 0; b_dest := 0; b_user := 0; b_last := true |}.
Definition c73_start : list (vop rcall zev) := [VOp (ZOp ZRun) []; VOp (ZClkE false zero_beat) []; VOp ZWakeE []; VOp (ZOp ZRun) []].
Definition c73_axis : list (vop rcall zev) :=
  c73_start ++ [VCall 1 (CRecv false); VOp (ZClkE true (c73b 0x04030201 7)) []; VRun 0;
                VCall 2 (CRead 3); VCall 3 (CRead (-1)); VOp (ZClkE true (c73b 0x08070605 15)) []; VRun 0].
Definition c73x (h : list (vop rcall zev)) := asnk_vrun c73c (v_init (asnk_init (-1) (-1))) h.
Example C73_results_ex :
  map (fun x => match snd x with RFrame (Ok f) => (f_data f, f_keep f) | _ => ([], None) end) (rets_of is_recv (snd (c73x c73_axis))) = [([1; 2; 3; 4], Some [1; 1; 1; 0])] /\
  rets_of is_read (snd (c73x c73_axis)) = [(2, CRead 3, RBytes [5; 6; 7])].
Proof. split; vm_compute; reflexivity. Qed.

(** ** concurrent reads: the bytes of the frames taken by read() and read_nowait() are returned in order, none twice, and the rest is in the read queue *)
Theorem C73_read_bytes :
  (forall c (x : vst amon rcall) h, Forall (quiet amon_takes) h -> let '(x', evs) := amon_vrun c x h in
     n_readq (v_s x) ++ read_data evs = read_bytes evs ++ n_readq (v_s x')) /\
  (forall c (x : vst asnk rcall) h, Forall (quiet asnk_takes) h -> let '(x', evs) := asnk_vrun c x h in
     z_readq (v_s x) ++ read_data evs = read_bytes evs ++ z_readq (v_s x')).
Proof.
  split; intros c x h Hh.
  - pose proof (run_keeps n_q n_readq amon_recv amon_extend (amon_step c) (fun o => match o with NClear => true | _ => false end) amon_takes amon_hrecv amon_hread amon_hext (amon_rq c) h x Hh) as H.
    fold (amon_vrun c) in H. now destruct (amon_vrun c x h).
  - pose proof (run_keeps z_q z_readq asnk_recv asnk_extend (zev_step c) (fun o => match o with ZOp ZClear => true | _ => false end) asnk_takes asnk_hrecv asnk_hread asnk_hext (asnk_rq c) h x Hh) as H.
    fold (asnk_vrun c) in H. now destruct (asnk_vrun c x h).
Qed.
Print Assumptions C73_read_bytes.
Example C73_read_bytes_ex : read_data (snd (c73x c73_axis)) = [5; 6; 7; 8] /\ read_bytes (snd (c73x c73_axis)) = [5; 6; 7] /\ z_readq (v_s (fst (c73x c73_axis))) = [8].
Proof. vm_compute. repeat split. Qed.

(** ** what one read() returns, when it is called and when it is woken and finds a frame *)
Theorem C73_read_result :
  (forall c (x : vst amon rcall) id n, let '(x', evs) := amon_vrun c x [VCall id (CRead n)] in reads n_q n_readq id n (v_s x) x' evs) /\
  (forall c (x : vst amon rcall) i id n, nth_error (v_run x) i = Some (id, CRead n) -> n_q (v_s x) <> [] ->
     let '(x', evs) := amon_vrun c x [VRun i] in reads n_q n_readq id n (v_s x) x' evs) /\
  (forall c (x : vst asnk rcall) id n, let '(x', evs) := asnk_vrun c x [VCall id (CRead n)] in reads z_q z_readq id n (v_s x) x' evs) /\
  (forall c (x : vst asnk rcall) i id n, nth_error (v_run x) i = Some (id, CRead n) -> z_q (v_s x) <> [] ->
     let '(x', evs) := asnk_vrun c x [VRun i] in reads z_q z_readq id n (v_s x) x' evs).
Proof.
  split; [|split; [|split]].
  - intros c x id n. pose proof (call_reads n_q n_readq amon_recv amon_extend (amon_step c) (fun o => match o with NClear => true | _ => false end) amon_takes amon_hrecv amon_hread amon_hext (amon_rq c) x id n) as H.
    unfold amon_vrun. cbn [vrun]. destruct (vstep _ _ _ _ _ _ x _) as [x' evs]. rewrite app_nil_r. exact H.
  - intros c x i id n E Hq. pose proof (woken_reads n_q n_readq amon_recv amon_extend (amon_step c) (fun o => match o with NClear => true | _ => false end) amon_takes amon_hrecv amon_hread amon_hext (amon_rq c) x i id n E Hq) as H.
    unfold amon_vrun. cbn [vrun]. destruct (vstep _ _ _ _ _ _ x _) as [x' evs]. rewrite app_nil_r. exact H.
  - intros c x id n. pose proof (call_reads z_q z_readq asnk_recv asnk_extend (zev_step c) (fun o => match o with ZOp ZClear => true | _ => false end) asnk_takes asnk_hrecv asnk_hread asnk_hext (asnk_rq c) x id n) as H.
    unfold asnk_vrun. cbn [vrun]. destruct (vstep _ _ _ _ _ _ x _) as [x' evs]. rewrite app_nil_r. exact H.
  - intros c x i id n E Hq. pose proof (woken_reads z_q z_readq asnk_recv asnk_extend (zev_step c) (fun o => match o with ZOp ZClear => true | _ => false end) asnk_takes asnk_hrecv asnk_hread asnk_hext (asnk_rq c) x i id n E Hq) as H.
    unfold asnk_vrun. cbn [vrun]. destruct (vstep _ _ _ _ _ _ x _) as [x' evs]. rewrite app_nil_r. exact H.
Qed.
Print Assumptions C73_read_result.
Example C73_read_result_ex :
  let h := c73_start ++ [VOp (ZClkE true (c73b 0x04030201 15)) []; VOp (ZClkE true (c73b 0x08070605 15)) []; VCall 1 (CRead 6); VCall 2 (CRead 6); VNow 3 (CRead 1)] in
  rets_of is_read (snd (c73x h)) = [(1, CRead 6, RBytes [1; 2; 3; 4; 5; 6]); (2, CRead 6, RBytes [7; 8]); (3, CRead 1, RBytes [])].
Proof. vm_compute. reflexivity. Qed.

(** ** no lost wake-up: whatever happened before, once the woken calls have run, there is no waiting call or no item *)
Theorem C73_no_lost_wakeup :
  (forall A hr (m : mon A) h, Forall (quiet mon_takes) h -> let x := fst (mon_vrun hr (v_init m) h) in
     let x' := fst (mon_vrun hr x (repeat (VRun 0) (length (v_run x)))) in v_run x' = [] /\ (v_wait x' = [] \/ m_q (v_s x') = [])) /\
  (forall A hr (m : snk A) h, Forall (quiet snk_takes) h -> let x := fst (snk_vrun hr (v_init m) h) in
     let x' := fst (snk_vrun hr x (repeat (VRun 0) (length (v_run x)))) in v_run x' = [] /\ (v_wait x' = [] \/ k_q (v_s x') = [])) /\
  (forall c (m : amon) h, Forall (quiet amon_takes) h -> let x := fst (amon_vrun c (v_init m) h) in
     let x' := fst (amon_vrun c x (repeat (VRun 0) (length (v_run x)))) in v_run x' = [] /\ (v_wait x' = [] \/ n_q (v_s x') = [])) /\
  (forall c (m : asnk) h, Forall (quiet asnk_takes) h -> let x := fst (asnk_vrun c (v_init m) h) in
     let x' := fst (asnk_vrun c x (repeat (VRun 0) (length (v_run x)))) in v_run x' = [] /\ (v_wait x' = [] \/ z_q (v_s x') = [])).
Proof.
  assert (HF : forall K Op (t : Op -> bool) n, Forall (quiet (K := K) t) (repeat (VRun 0) n)) by (intros K Op t n; induction n; cbn; constructor; auto; exact I).
  assert (Hi : forall St K A (q : St -> list A) m, v_ok q (v_init (K := K) m)) by (intros St K A q m H; now destruct H).
  assert (Hd : forall St K A (q : St -> list A) (x : vst St K), v_ok q x -> v_run x = [] -> v_wait x = [] \/ q (v_s x) = []).
  { intros St K A q x Hx Hr. destruct (v_wait x) eqn:E; auto. right. unfold v_ok in Hx. rewrite E, Hr in Hx. specialize (Hx ltac:(discriminate)). destruct (q (v_s x)); cbn in Hx; auto; lia. }
  split; [|split; [|split]].
  - intros A hr m h Hh x x'. pose proof (run_ok _ _ _ _ _ _ _ (mon_hstep hr) mon_get_ok2 mon_get_ok mon_get_ok2 h _ Hh (Hi _ _ _ _ m)) as O1. fold (mon_vrun (A := A) hr) in O1. fold x in O1.
    pose proof (run_ok _ _ _ _ _ _ _ (mon_hstep hr) mon_get_ok2 mon_get_ok mon_get_ok2 _ _ (HF _ _ _ (length (v_run x))) O1) as O2.
    assert (D : v_run x' = []) by (unfold x', mon_vrun; now apply run_drains). split; auto.
  - intros A hr m h Hh x x'. pose proof (run_ok _ _ _ _ _ _ _ (snk_hstep hr) snk_get_ok2 snk_get_ok snk_get_ok2 h _ Hh (Hi _ _ _ _ m)) as O1. fold (snk_vrun (A := A) hr) in O1. fold x in O1.
    pose proof (run_ok _ _ _ _ _ _ _ (snk_hstep hr) snk_get_ok2 snk_get_ok snk_get_ok2 _ _ (HF _ _ _ (length (v_run x))) O1) as O2.
    assert (D : v_run x' = []) by (unfold x', snk_vrun; now apply run_drains). split; auto.
  - intros c m h Hh x x'. pose proof (run_ok _ _ _ _ _ _ _ (amon_hstep c) (amon_enter_ok c) (amon_resume_ok c) amon_now_ok h _ Hh (Hi _ _ _ _ m)) as O1. fold (amon_vrun c) in O1. fold x in O1.
    pose proof (run_ok _ _ _ _ _ _ _ (amon_hstep c) (amon_enter_ok c) (amon_resume_ok c) amon_now_ok _ _ (HF _ _ _ (length (v_run x))) O1) as O2.
    assert (D : v_run x' = []) by (unfold x', amon_vrun; now apply run_drains). split; auto.
  - intros c m h Hh x x'. pose proof (run_ok _ _ _ _ _ _ _ (asnk_hstep c) (asnk_enter_ok c) (asnk_resume_ok c) asnk_now_ok h _ Hh (Hi _ _ _ _ m)) as O1. fold (asnk_vrun c) in O1. fold x in O1.
    pose proof (run_ok _ _ _ _ _ _ _ (asnk_hstep c) (asnk_enter_ok c) (asnk_resume_ok c) asnk_now_ok _ _ (HF _ _ _ (length (v_run x))) O1) as O2.
    assert (D : v_run x' = []) by (unfold x', asnk_vrun; now apply run_drains). split; auto.
Qed.
Print Assumptions C73_no_lost_wakeup.
(** two items arrive before any of three waiting calls runs: two calls are woken and return, the third still waits, nothing is left in the queue *)
Example C73_no_lost_wakeup_ex :
  let h := firstn 8 c73_hist ++ [VOp (KClkE true 12) []] in
  let x := fst (snk_vrun true (v_init (snk_init (-1))) h) in
  let '(x', evs) := snk_vrun true x (repeat (VRun 0) (length (v_run x))) in
  (v_run x, v_wait x, k_q (v_s x)) = ([(1, tt); (2, tt)], [(3, tt)], [11; 12]) /\ (v_run x', v_wait x', k_q (v_s x')) = ([], [(3, tt)], []) /\
  rets_of (fun _ => true) evs = [(1, tt, 11); (2, tt, 12)].
Proof. vm_compute. repeat split. Qed.

(** ** calls are served in the order in which they were made, if the oldest waiting call is woken and continued first (as cocotb does), clear() and the nowait
    variants are not used, and no call is made between the wake-up of another call and its continuation *)
Definition no_mclear {A} (o : mop A) : bool := match o with MClear => true | _ => false end.
Definition no_kclear {A} (o : kev A) : bool := match o with KOp KClear => true | _ => false end.
Definition no_nclear (o : nop) : bool := match o with NClear => true | _ => false end.
Definition no_zclear (o : zev) : bool := match o with ZOp ZClear => true | _ => false end.
Theorem C73_order :
  (forall A hr (m : mon A) h, orderly m_q (mon_step hr) no_mclear mon_get mon_get mon_get mon_takes (fun _ => true) (v_init m) h ->
     let '(x, evs) := mon_vrun hr (v_init m) h in called h = ended evs ++ v_run x ++ v_wait x) /\
  (forall A hr (m : snk A) h, orderly k_q (kev_step hr) no_kclear snk_get snk_get snk_get snk_takes (fun _ => true) (v_init m) h ->
     let '(x, evs) := snk_vrun hr (v_init m) h in called h = ended evs ++ v_run x ++ v_wait x) /\
  (forall c (m : amon) h, orderly n_q (amon_step c) no_nclear (x_enter n_q n_readq amon_recv amon_extend) (x_resume n_q n_readq amon_recv amon_extend) (x_now n_q amon_recv)
       amon_takes is_recv (v_init m) h ->
     let '(x, evs) := amon_vrun c (v_init m) h in called h = ended evs ++ v_run x ++ v_wait x) /\
  (forall c (m : asnk) h, orderly z_q (zev_step c) no_zclear (x_enter z_q z_readq asnk_recv asnk_extend) (x_resume z_q z_readq asnk_recv asnk_extend) (x_now z_q asnk_recv)
       asnk_takes is_recv (v_init m) h ->
     let '(x, evs) := asnk_vrun c (v_init m) h in called h = ended evs ++ v_run x ++ v_wait x).
Proof.
  assert (Hi : forall St K A (q : St -> list A) P m, v_ord q P (v_init (K := K) m)) by (intros; split; [intros H; now destruct H|split; [cbn; lia|constructor]]).
  split; [|split; [|split]].
  - intros A hr m h Ho. pose proof (run_order m_q (mon_step hr) no_mclear mon_get mon_get mon_get mon_takes (mon_hstep hr) mon_get_ok2 mon_get_ok mon_get_ok2 (fun _ => true) mon_eone mon_enone mon_eone h _ Ho (Hi _ _ _ _ _ m)) as [_ H].
    unfold mon_vrun. fold (no_mclear (A := A)). destruct (vrun _ _ _ _ _ _ (v_init m) h). exact H.
  - intros A hr m h Ho. pose proof (run_order k_q (kev_step hr) no_kclear snk_get snk_get snk_get snk_takes (snk_hstep hr) snk_get_ok2 snk_get_ok snk_get_ok2 (fun _ => true) snk_eone snk_enone snk_eone h _ Ho (Hi _ _ _ _ _ m)) as [_ H].
    unfold snk_vrun. fold (no_kclear (A := A)). destruct (vrun _ _ _ _ _ _ (v_init m) h). exact H.
  - intros c m h Ho. pose proof (run_order _ _ no_nclear _ _ _ _ (amon_hstep c) (amon_enter_ok c) (amon_resume_ok c) amon_now_ok is_recv (x_eone _ _ _ _) (x_enone _ _ _ _) (x_rone _ _ _ _) h _ Ho (Hi _ _ _ _ _ m)) as [_ H].
    unfold amon_vrun. fold no_nclear. destruct (vrun _ _ _ _ _ _ (v_init m) h). exact H.
  - intros c m h Ho. pose proof (run_order _ _ no_zclear _ _ _ _ (asnk_hstep c) (asnk_enter_ok c) (asnk_resume_ok c) asnk_now_ok is_recv (x_eone _ _ _ _) (x_enone _ _ _ _) (x_rone _ _ _ _) h _ Ho (Hi _ _ _ _ _ m)) as [_ H].
    unfold asnk_vrun. fold no_zclear. destruct (vrun _ _ _ _ _ _ (v_init m) h). exact H.
Qed.
Print Assumptions C73_order.
Definition c73_ordered : list (vop unit (kev Z)) := firstn 8 c73_hist ++ [VOp (KClkE true 12) []; VRun 0; VRun 0; VCall 4 tt; VOp (KClkE true 13) []; VRun 0].
Example C73_order_ex : orderly k_q (kev_step true) no_kclear snk_get snk_get snk_get snk_takes (fun _ => true) (v_init (snk_init (-1))) c73_ordered /\
  called c73_ordered = [(1, tt); (2, tt); (3, tt); (4, tt)] /\ ended (snd (snk_vrun true (v_init (snk_init (-1))) c73_ordered)) = [(1, tt); (2, tt); (3, tt)].
Proof. split; [cbn; repeat split|]. vm_compute. repeat split. Qed.

(** ** without the last condition this is false: a call made between wake-up and continuation of another one takes the item of that one, which goes back to
    the end of the queue of waiting calls, behind calls made after it *)
Theorem C73_overtaking_refuted : exists h : list (vop unit (kev Z)), Forall (quiet snk_takes) h /\
  let '(x, evs) := snk_vrun true (v_init (snk_init (-1))) h in
  called h = [(1, tt); (2, tt); (3, tt)] /\ ended evs = [(3, tt)] /\ v_run x = [] /\ v_wait x = [(2, tt); (1, tt)].
Proof.
  exists [VOp (KOp KRun) []; VCall 1 tt; VCall 2 tt; VOp (KClkE false 0) []; VOp KWakeE []; VOp (KOp KRun) []; VOp (KClkE true 11) []; VCall 3 tt; VRun 0].
  split; [repeat constructor|]. vm_compute. repeat split.
Qed.
Print Assumptions C73_overtaking_refuted.

(** ** read(count) does not return as soon as there is a byte to read: the second of two waiting read() calls goes on waiting although the first one left bytes
    in the read queue, until another frame arrives *)
Theorem C73_read_waits_refuted : exists h : list (vop rcall zev), Forall (quiet asnk_takes) h /\
  let '(x, evs) := c73x h in rets_of is_read evs = [(1, CRead 1, RBytes [1])] /\ v_run x = [] /\ v_wait x = [(2, CRead 1)] /\ z_readq (v_s x) = [2; 3; 4].
Proof.
  exists (c73_start ++ [VCall 1 (CRead 1); VCall 2 (CRead 1); VOp (ZClkE true (c73b 0x04030201 15)) []; VRun 0]).
  split; [repeat constructor|]. vm_compute. repeat split.
Qed.
Print Assumptions C73_read_waits_refuted.
