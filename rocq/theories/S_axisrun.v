(** Specification vocabulary for histories of AXI stream components. *)
From Coq Require Import ZArith List Bool.
From Verif Require Import Py M_stream M_axisframe M_axis S_axis.
Import ListNotations.
Open Scope Z_scope.

(** A source with an arbitrary receiver: (frames for which send succeeded, beats accepted at a clock
    edge with valid and ready, state). *)
Fixpoint asrc_trace (c : scfg) (s : asrc) (ops : list aop) : list tframe * list beat * asrc :=
  match ops with
  | [] => ([], [], s)
  | o :: ops' =>
      let '(sent, acc, s') := asrc_trace c (asrc_step c s o) ops' in
      ((match o with ASend t f => if asrc_full s then [] else [(t, f)] | _ => [] end) ++ sent,
       (match o with AEdge r => if a_valid s && (negb (x_ready c) || r) then [a_beat s] else [] | _ => [] end) ++ acc, s')
  end.

(** frames that leave a receive queue by a call *)
Definition taken (o : rop) (readq : list Z) (q : list frame) : list frame :=
  match o with
  | RRecv _ => firstn 1 q
  | RReadOne => match readq with [] => firstn 1 q | _ => [] end
  | RRead _ => q
  end.
(** bytes and frames a call returns *)
Definition bytes_res (r : rres) : list Z := match r with RBytes l => l | _ => [] end.
Definition frame_res (r : rres) : list (res frame) := match r with RFrame f => [f] | _ => [] end.

(** source connected to sink: (frames sent, frames taken from the sink, state) *)
Fixpoint achan_trace (c : scfg) (h : achan) (ops : list acop) : list tframe * list frame * achan :=
  match ops with
  | [] => ([], [], h)
  | o :: ops' =>
      let '(sent, got, h') := achan_trace c (achan_step c h o) ops' in
      ((match o with ACSrc (ASend t f) => if asrc_full (ac_src h) then [] else [(t, f)] | _ => [] end) ++ sent,
       (match o with ACSnk (ZRecv r) => taken r (z_readq (ac_snk h)) (z_q (ac_snk h)) | _ => [] end) ++ got, h')
  end.

Definition achan_init (slimb slimf klimb klimf : Z) : achan := {| ac_src := asrc_init slimb slimf; ac_snk := asnk_init klimb klimf |}.

Fixpoint aclocks (c : scfg) (n : nat) (h : achan) : achan :=
  match n with O => h | S n' => achan_step c (aclocks c n' h) ACClk end.

(** [r] is what a receiver makes of the frame [f] *)
Definition received_as (c : scfg) (f r : frame) : Prop :=
  exists g, normalize f = Ok g /\ reassemble c None (frame_beats c g) = (None, [r]).

(** monitor: (beats at clock edges with valid and ready, frames taken, bytes returned by read, state) *)
Fixpoint amon_trace (c : scfg) (m : amon) (ops : list nop) : list beat * list frame * list Z * amon :=
  match ops with
  | [] => ([], [], [], m)
  | o :: ops' =>
      let '(seen, got, rd, m') := amon_trace c (amon_step c m o) ops' in
      ((match o with NClk => if n_valid m && (negb (x_ready c) || n_ready m) then [n_beat m] else [] | _ => [] end) ++ seen,
       (match o with NRecv r => taken r (n_readq m) (n_q m) | _ => [] end) ++ got,
       (match o with NRecv r => bytes_res (snd (amon_recv m r)) | _ => [] end) ++ rd, m')
  end.

(** a sink in an arbitrary environment *)
Inductive zev := ZOp (o : zop) | ZClkE (v : bool) (b : beat) | ZWakeE.
Definition zev_step (c : scfg) (k : asnk) (e : zev) : asnk :=
  match e with ZOp o => asnk_step c k o | ZClkE v b => asnk_edge c k v b | ZWakeE => asnk_wake k end.
Definition zev_run (c : scfg) (k : asnk) (l : list zev) : asnk := fold_left (zev_step c) l k.

(** (frames put into the queue, bytes returned by read, state) *)
Fixpoint zev_trace (c : scfg) (k : asnk) (l : list zev) : list frame * list Z * asnk :=
  match l with
  | [] => ([], [], k)
  | e :: l' =>
      let '(arr, rd, k') := zev_trace c (zev_step c k e) l' in
      ((match e with ZClkE _ _ => skipn (length (z_q k)) (z_q (zev_step c k e)) | _ => [] end) ++ arr,
       (match e with ZOp (ZRecv r) => bytes_res (snd (asnk_recv k r)) | _ => [] end) ++ rd, k')
  end.

Definition nonempty (f : frame) : bool := 0 <? zlen (f_data f).
