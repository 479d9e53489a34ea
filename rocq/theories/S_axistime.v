(** Specification vocabulary for the time stamps of AXI stream frames. *)
From Coq Require Import ZArith List Bool.
From Verif Require Import Py M_stream M_axisframe M_axis M_axislink M_axistime S_axis S_axisrun S_axislink.
Import ListNotations.
Open Scope Z_scope.

(** ** what happens on the wires *)
Inductive wev :=
| WXfer (t : Z) (b : beat)    (* the edge at time t sees tvalid and tready: a transfer *)
| WPut (t : Z) (b : beat)     (* after the edge at time t the wires show a new beat *)
| WRst.                       (* reset asserted *)
Definition wire_ev (c : scfg) (l l' : alink) (o : top) : list wev :=
  match o with
  | TClk t =>
      let s := ac_src (k_ch l) in let s' := ac_src (k_ch l') in
      let x := a_valid s && (negb (x_ready c) || z_ready (ac_snk (k_ch l))) in
      (if x then [WXfer t (a_beat s)] else []) ++ (if a_valid s' && (negb (a_valid s) || x) then [WPut t (a_beat s')] else [])
  | TOp _ (LRst true) => [WRst]
  | _ => []
  end.
(** the beats with their times; None: a reset *)
Definition xfers (l : list wev) : list (option (Z * beat)) := flat_map (fun e => match e with WXfer t b => [Some (t, b)] | WRst => [None] | _ => [] end) l.
Definition puts (l : list wev) : list (option (Z * beat)) := flat_map (fun e => match e with WPut t b => [Some (t, b)] | WRst => [None] | _ => [] end) l.
(** beats cut into frames by tlast: (finished, open); a reset drops the open one *)
Definition gstep (g : list (list (Z * beat)) * list (Z * beat)) (e : option (Z * beat)) : list (list (Z * beat)) * list (Z * beat) :=
  match e with
  | None => (fst g, [])
  | Some x => if b_last (snd x) then (fst g ++ [snd g ++ [x]], []) else (fst g, snd g ++ [x])
  end.
Definition groups (l : list (option (Z * beat))) : list (list (Z * beat)) * list (Z * beat) := fold_left gstep l ([], []).
(** the same for a receiver: on a bus without tlast each transfer is a frame *)
Definition rx_gstep (c : scfg) (g : list (list (Z * beat)) * list (Z * beat)) (e : option (Z * beat)) : list (list (Z * beat)) * list (Z * beat) :=
  match e with
  | None => (fst g, [])
  | Some x => if x_last c && negb (b_last (snd x)) then (fst g, snd g ++ [x]) else (fst g ++ [snd g ++ [x]], [])
  end.
Definition rx_groups (c : scfg) (l : list (option (Z * beat))) : list (list (Z * beat)) * list (Z * beat) := fold_left (rx_gstep c) l ([], []).
Definition first_time (g : list (Z * beat)) : Z := fst (hd (0, zero_beat) g).
Definition last_time (g : list (Z * beat)) : Z := fst (last g (0, zero_beat)).

(** ** what the user gets *)
(** frames that leave the queue of the sink or the monitor, with their stamps *)
Definition z_pop (x : tlink) (o : top) : list (frame * (Z * Z)) :=
  let k := ac_snk (k_ch (t_l x)) in
  match o with
  | TOp _ (LSnk (ZRecv r)) => combine (taken r (z_readq k) (z_q k)) (rs_q (t_z x))
  | TOp _ (LSnk ZClear) => combine (z_q k) (rs_q (t_z x))
  | _ => []
  end.
Definition m_pop (x : tlink) (o : top) : list (frame * (Z * Z)) :=
  let m := k_mon (t_l x) in
  match o with
  | TOp _ (LMon (NRecv r)) => combine (taken r (n_readq m) (n_q m)) (rs_q (t_m x))
  | TOp _ (LMon NClear) => combine (n_q m) (rs_q (t_m x))
  | _ => []
  end.
Record tseen := { ev : list wev; zgot : list (frame * (Z * Z)); mgot : list (frame * (Z * Z)) }.
Fixpoint ttrace (c : scfg) (x : tlink) (ops : list top) : tseen * tlink :=
  match ops with
  | [] => ({| ev := []; zgot := []; mgot := [] |}, x)
  | o :: ops' =>
      let x1 := tstep c x o in let '(e, x2) := ttrace c x1 ops' in
      ({| ev := wire_ev c (t_l x) (t_l x1) o ++ ev e; zgot := z_pop x o ++ zgot e; mgot := m_pop x o ++ mgot e |}, x2)
  end.
Definition tlink_init (slb slf klb klf : Z) : tlink :=
  {| t_l := alink_init slb slf klb klf; t_s := {| ss_q := []; ss_cur := None; ss_done := [] |}; t_z := {| rs_part := 0; rs_q := [] |}; t_m := {| rs_part := 0; rs_q := [] |} |}.

(** (start, end) of the completed frames that have an end *)
Definition transmitted (l : list (option Z * option Z)) : list (option Z * Z) :=
  flat_map (fun p => match snd p with Some e => [(fst p, e)] | None => [] end) l.

(** operations: as in S_axislink.v *)
Definition top_ok (o : top) : Prop := match o with TOp _ o => lk_ok o | TClk _ => True end.
(** the edges have increasing times *)
Fixpoint increasing (t0 : Z) (ops : list top) : Prop :=
  match ops with [] => True | TClk t :: ops' => t0 < t /\ increasing t ops' | _ :: ops' => increasing t0 ops' end.

(** a received frame with its stamps, and the transfers it is made of *)
Definition stamped (c : scfg) (g : list (Z * beat)) (p : frame * (Z * Z)) : Prop :=
  reassemble c None (map snd g) = (None, [fst p]) /\ snd p = (first_time g, last_time g).
(** a transmitted frame and the beats that were put on the wires for it *)
Definition sent_stamped (g : list (Z * beat)) (p : option Z * Z) : Prop := exists s, p = (Some s, last_time g) /\ s <= first_time g.
Definition sent_exactly (g : list (Z * beat)) (p : option Z * Z) : Prop := p = (Some (first_time g), last_time g).
(** the stamps of a transmitted frame are before those of the received one *)
Definition before (p : option Z * Z) (r : Z * Z) : Prop := exists s, fst p = Some s /\ s < fst r /\ snd p < snd r.

(** the source is never paused; the reset is never used *)
Definition never_paused (ops : list top) : Prop := forall st, ~ In (TOp st (LSrc (APause true))) ops.
Definition never_reset (ops : list top) : Prop := forall st, ~ In (TOp st (LRst true)) ops.
