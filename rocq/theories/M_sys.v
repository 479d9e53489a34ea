(** A master connected to a slave: the master's tasks (M_axieng.v), the channels between them and the slave's
    task, with every interleaving of their atomic pieces.

    Sources: /repo/cocotbext/axi/axi_master.py 206-226 / 648-668 (channels and tasks of the master), axi_slave.py 36-93,
    113-203 (write) / 207-257, 276-336 (read), stream.py 226-290 (source), 370-435 (sink).

    A channel is a StreamSource connected to a StreamSink: the source's queue, the transfer it drives with valid,
    the sink's queue.  queue_occupancy_limit is 2 on both sides (axi_master.py 212-216, 654-656; axi_slave.py 54-58,
    225-227).  [YLoad] is the source taking a transfer from its queue and driving it (stream.py 273-279), [YXfer] a
    clock edge with valid and ready (stream.py 418-421): possible only if the sink's queue is not full (pause and
    the sink's ready are in the order of the operations: a transfer may be delayed as long as it likes).  That source and sink do this
    is the subject of M_stream.v (C38, C40).  Simplification: no reset in this model (C32 treats it). *)
From Coq Require Import ZArith List Bool.
From Verif Require Import Py M_axi M_liteeng M_axieng.
Import ListNotations.
Open Scope Z_scope.

Record chan (A : Type) := { ch_src : list A; ch_reg : option A; ch_snk : list A }.
Arguments ch_src {A}. Arguments ch_reg {A}. Arguments ch_snk {A}.
Definition chan_new {A} : chan A := {| ch_src := []; ch_reg := None; ch_snk := [] |}.
Definition q_limit : nat := 2.
Definition q_room {A} (l : list A) : bool := Nat.ltb (length l) q_limit.

(** send (226-232) *)
Definition ch_push {A} (c : chan A) (x : A) : chan A := {| ch_src := ch_src c ++ [x]; ch_reg := ch_reg c; ch_snk := ch_snk c |}.
(** recv (315-317) leaves q *)
Definition ch_pop {A} (c : chan A) (q : list A) : chan A := {| ch_src := ch_src c; ch_reg := ch_reg c; ch_snk := q |}.
Definition ch_load {A} (c : chan A) : chan A :=
  match ch_reg c, ch_src c with
  | None, x :: l => {| ch_src := l; ch_reg := Some x; ch_snk := ch_snk c |}
  | _, _ => c
  end.
Definition ch_xfer {A} (c : chan A) : chan A :=
  match ch_reg c with
  | Some x => if q_room (ch_snk c) then {| ch_src := ch_src c; ch_reg := None; ch_snk := ch_snk c ++ [x] |} else c
  | None => c
  end.

(** What the slave's task does next: wait for a transfer of the first (true) or second (false) channel, send a
    response, run on, nothing. *)
Inductive sact (R S : Type) := AWait (k : bool) | AEmit (r : R) (s : S) | ATau (s : S) | ADead.
Arguments AWait {R S}. Arguments AEmit {R S}. Arguments ATau {R S}. Arguments ADead {R S}.

Section Sys.
Context {C E R S : Type}.
Variable sends : C -> Z -> list E.
Variable opens : E -> bool.
Variable epat : E -> list bool.
Variable chk : bool -> R -> bool.
Variable rtag : R -> Z.
Variable ask : C -> option Z.
Variable idn : Z.
Variable kind : E -> bool.           (* channel of a transfer: AW / AR true, W false *)
Variable act : S -> sact R S.
Variable sin : S -> E -> S.          (* the slave's task goes on with the transfer it received *)

Record sys := { y_m : xeng C E R; y_a : chan E; y_w : chan E; y_b : chan R; y_s : S }.
Definition sys_init (s0 : S) : sys := {| y_m := xeng_init; y_a := chan_new; y_w := chan_new; y_b := chan_new; y_s := s0 |}.

Definition fwd (y : sys) (k : bool) : chan E := if k then y_a y else y_w y.
Definition set_fwd (y : sys) (k : bool) (c : chan E) : sys :=
  if k then {| y_m := y_m y; y_a := c; y_w := y_w y; y_b := y_b y; y_s := y_s y |}
  else {| y_m := y_m y; y_a := y_a y; y_w := c; y_b := y_b y; y_s := y_s y |}.
Definition set_m (y : sys) (m : xeng C E R) : sys := {| y_m := m; y_a := y_a y; y_w := y_w y; y_b := y_b y; y_s := y_s y |}.
Definition set_b (y : sys) (c : chan R) : sys := {| y_m := y_m y; y_a := y_a y; y_w := y_w y; y_b := c; y_s := y_s y |}.
Definition set_s (y : sys) (s : S) : sys := {| y_m := y_m y; y_a := y_a y; y_w := y_w y; y_b := y_b y; y_s := s |}.

Inductive yop :=
| YIssue (c : C) | YInit (c : C) | YStart (n : nat)          (* user *)
| YGet | YSend | YRecv | YCGet (i : nat) | YCResp (i : nat)  (* the master's tasks *)
| YLoad (k : bool) | YXfer (k : bool) | YLoadB | YXferB      (* the channels *)
| YSlave                                                     (* the slave's task *)
| YPoke (f : S -> S).                                        (* somebody else changes the slave's target *)

Definition m_step (y : sys) (o : xop C R) : sys * list (xout C E R) :=
  let '(m, os) := x_step sends opens epat chk rtag ask idn (y_m y) o in (set_m y m, os).

(** the transfer the sender is about to hand to a channel *)
Definition next_send (m : xeng C E R) : option E :=
  match e_cur m with Some (_, _, e :: _) => Some e | _ => None end.

Definition y_step (y : sys) (o : yop) : sys * list (xout C E R) :=
  match o with
  | YIssue c => m_step y (PIssue c)
  | YInit c => m_step y (PInit c)
  | YStart n => m_step y (PStart n)
  | YGet => m_step y PGet
  | YSend =>
      match e_wtask (y_m y), next_send (y_m y) with
      | TRun, Some e => if q_room (ch_src (fwd y (kind e)))
                        then m_step (set_fwd y (kind e) (ch_push (fwd y (kind e)) e)) PSend
                        else (y, [])
      | _, _ => (y, [])
      end
  | YRecv =>
      match e_rtask (y_m y), ch_snk (y_b y) with
      | TRun, r :: q => m_step (set_b y (ch_pop (y_b y) q)) (PResp r)
      | _, _ => (y, [])
      end
  | YCGet i => m_step y (PCGet i)
  | YCResp i => m_step y (PCResp i)
  | YLoad k => (set_fwd y k (ch_load (fwd y k)), [])
  | YXfer k => (set_fwd y k (ch_xfer (fwd y k)), [])
  | YLoadB => (set_b y (ch_load (y_b y)), [])
  | YXferB => (set_b y (ch_xfer (y_b y)), [])
  | YSlave =>
      match act (y_s y) with
      | AWait k => match ch_snk (fwd y k) with
                   | e :: q => (set_s (set_fwd y k (ch_pop (fwd y k) q)) (sin (y_s y) e), [])
                   | [] => (y, [])
                   end
      | AEmit r s => if q_room (ch_src (y_b y)) then (set_s (set_b y (ch_push (y_b y) r)) s, []) else (y, [])
      | ATau s => (set_s y s, [])
      | ADead => (y, [])
      end
  | YPoke f => (set_s y (f (y_s y)), [])
  end.

Fixpoint y_run (y : sys) (h : list yop) : sys * list (xout C E R) :=
  match h with
  | [] => (y, [])
  | o :: h' => let '(y1, o1) := y_step y o in let '(y2, o2) := y_run y1 h' in (y2, o1 ++ o2)
  end.
End Sys.
Arguments sys : clear implicits. Arguments yop : clear implicits.

(* ------------------------------------------------------------------ *)
(** * The slaves' tasks *)
Section Slave.
Context {T : Type}.
Variable t_write : T -> Z -> list Z -> T * res unit.
Variable t_read : T -> Z -> Z -> T * res (list Z).
Variable lanes : Z.
Variable strb_present : bool.

(** axi_slave.py 113-203: waiting for AW; waiting for the next W of a burst; sending B; ended by an assertion.
    Simplification: the target's writes of a beat are one step. *)
Inductive wslv := WIdle (t : T) | WBeat (s : sst) (t : T) | WResp (b : bch) (t : T) | WDead (t : T).

Definition w_beats (s : sst) (t : T) : wslv :=
  if 0 <? ss_left s then WBeat s t else WResp {| b_id := ss_id s; b_resp := ss_resp s; b_user := 0 |} t.

Definition ws_act (s : wslv) : sact bch wslv :=
  match s with
  | WIdle _ => AWait true
  | WBeat _ _ => AWait false
  | WResp b t => AEmit b (WIdle t)
  | WDead _ => ADead
  end.
Definition ws_in (s : wslv) (e : wev) : wslv :=
  match s, e with
  | WIdle t, EvAW a => match sl_start lanes a with Ok s' => w_beats s' t | Err _ => WDead t end
  | WBeat s t, EvW w => match sw_beat t_write lanes strb_present s w t with
                        | (t', Ok s') => w_beats s' t'
                        | (t', Err _) => WDead t'
                        end
  | _, _ => s
  end.
Definition ws_target (s : wslv) : T := match s with WIdle t | WBeat _ t | WResp _ t | WDead t => t end.
Definition ws_poke (f : T -> T) (s : wslv) : wslv :=
  match s with WIdle t => WIdle (f t) | WBeat b t => WBeat b (f t) | WResp b t => WResp b (f t) | WDead t => WDead (f t) end.

(** axi_slave.py 276-336: waiting for AR; about to read the target for the next beat; sending R; ended. *)
Inductive rslv := RIdle (t : T) | RRead (s : sst) (t : T) | RResp (r : rch) (s : sst) (t : T) | RDead (t : T).

Definition r_beats (s : sst) (t : T) : rslv := if 0 <? ss_left s then RRead s t else RIdle t.

Definition rs_act (s : rslv) : sact rch rslv :=
  match s with
  | RIdle _ => AWait true
  | RRead s t => let '(t', r, s') := sr_beat t_read lanes s t in ATau (RResp r s' t')
  | RResp r s t => AEmit r (r_beats s t)
  | RDead _ => ADead
  end.
Definition rs_in (s : rslv) (a : axc) : rslv :=
  match s with
  | RIdle t => match sl_start lanes a with Ok s' => r_beats s' t | Err _ => RDead t end
  | _ => s
  end.
Definition rs_target (s : rslv) : T := match s with RIdle t | RRead _ t | RResp _ _ t | RDead t => t end.
Definition rs_poke (f : T -> T) (s : rslv) : rslv :=
  match s with RIdle t => RIdle (f t) | RRead b t => RRead b (f t) | RResp r b t => RResp r b (f t) | RDead t => RDead (f t) end.
End Slave.
Arguments wslv : clear implicits. Arguments rslv : clear implicits.

(** ** AxiMasterWrite - AxiSlaveWrite and AxiMasterRead - AxiSlaveRead *)
Definition r_kind (a : axc) : bool := true.
Definition wsys_step {T} (c : mcfg) (idn : Z) (tw : T -> Z -> list Z -> T * res unit) (lanes : Z) (sp : bool) :=
  y_step (w_sends c) w_opens w_epat w_chk b_id op_id idn w_opens ws_act (ws_in tw lanes sp).
Definition wsys_run {T} (c : mcfg) (idn : Z) (tw : T -> Z -> list Z -> T * res unit) (lanes : Z) (sp : bool) (t : T) :=
  y_run (w_sends c) w_opens w_epat w_chk b_id op_id idn w_opens ws_act (ws_in tw lanes sp) (sys_init (WIdle t)).
Definition rsys_step {T} (c : mcfg) (idn : Z) (tr : T -> Z -> Z -> T * res (list Z)) (lanes : Z) :=
  y_step (r_sends c) r_opens r_epat r_chk r_id op_id idn r_kind (rs_act tr lanes) (rs_in lanes).
Definition rsys_run {T} (c : mcfg) (idn : Z) (tr : T -> Z -> Z -> T * res (list Z)) (lanes : Z) (t : T) :=
  y_run (r_sends c) r_opens r_epat r_chk r_id op_id idn r_kind (rs_act tr lanes) (rs_in lanes) (sys_init (RIdle t)).
