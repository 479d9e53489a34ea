(** Tasks, queues, counters and reset of AxiLiteMasterWrite and AxiLiteMasterRead
    (/repo/cocotbext/axi/axil_master.py), as a state machine over the atomic pieces of the tasks
    (a task runs from one await that blocks to the next).

    Both classes have the same structure, so the model is generic: [C] commands, [E] transfers
    handed to the channels, [R] responses; [sends c] is the list of transfers of a command
    (M_axil.v: [lite_write] / [lite_read]) and [need c] the number of responses it waits for
    ([cycles]).

    Simplifications: the transfers of a command are one operation each ([GSend]: the channel had
    room), finer than the code, which continues without a break while the channel has room.  The
    channels themselves are stream components (M_stream.v).  Queue.put does not block (the Queue
    attribute queue_occupancy_limit set in 106 and 363 is not used by cocotb's Queue).  The arguments were
    accepted (M_axil.v: [lite_write_args]).  Tasks made with start_soon run in any order. *)
From Coq Require Import ZArith List Bool.
From Verif Require Import Py M_axi M_axil.
Import ListNotations.
Open Scope Z_scope.

Section Engine.
Context {C E R : Type}.
Variable sends : C -> list E.
Variable need : C -> nat.

Record eng := {
  g_pend : list C;                    (* init_write/init_read: wrapper tasks that did not run yet, 173 *)
  g_q : list C;                       (* write_command_queue, 105 *)
  g_cur : option (C * list E);        (* current_write_command, 107, with the transfers left *)
  g_wtask : bool;                     (* _process_write_cr is not None, 147 *)
  g_rq : list C;                      (* int_write_resp_command_queue, 109 *)
  g_rcur : option (C * list R);       (* current_write_resp_command, 110, with the responses got *)
  g_rtask : bool;                     (* _process_write_resp_cr, 148 *)
  g_inflight : Z;                     (* in_flight_operations, 112 *)
  g_idle : bool }.                    (* _idle event is set, 113-114 *)

(** 93-150 / 350-404, constructed with reset inactive: reset.py starts the tasks through
    _handle_reset(False), 247-254 *)
Definition eng_init : eng :=
  {| g_pend := []; g_q := []; g_cur := None; g_wtask := true; g_rq := []; g_rcur := None; g_rtask := true;
     g_inflight := 0; g_idle := true |}.

Inductive gop :=
| GIssue (c : C)          (* await write(...) / read(...), runs up to event.wait() *)
| GInit (c : C)           (* init_write(...) / init_read(...) *)
| GStart (n : nat)        (* the n-th waiting wrapper task runs *)
| GGet                    (* the sender takes a command *)
| GSend                   (* the sender hands over one transfer *)
| GRGet                   (* the response task takes a command *)
| GResp (r : R)           (* the response task receives r *)
| GReset (b : bool).      (* _handle_reset(b) *)

(** What happens, in order. *)
Inductive gout :=
| OStart (c : C)                          (* the operation is counted and queued *)
| OSent (e : E)                           (* a transfer was handed to its channel *)
| OResp (r : R)                           (* the response task received r *)
| ODone (c : C) (r : option (list R))     (* event.set(...): responses, or None *)
| OReset.                                 (* _handle_reset(True) is finished *)

(** 200-203 / 449-452 *)
Definition eng_issue (s : eng) (c : C) : eng :=
  {| g_pend := g_pend s; g_q := g_q s ++ [c]; g_cur := g_cur s; g_wtask := g_wtask s; g_rq := g_rq s;
     g_rcur := g_rcur s; g_rtask := g_rtask s; g_inflight := g_inflight s + 1; g_idle := false |}.

(** 173 / 426: cocotb.start_soon *)
Definition eng_set_pend (s : eng) (l : list C) : eng :=
  {| g_pend := l; g_q := g_q s; g_cur := g_cur s; g_wtask := g_wtask s; g_rq := g_rq s;
     g_rcur := g_rcur s; g_rtask := g_rtask s; g_inflight := g_inflight s; g_idle := g_idle s |}.

(** sender: what is left of a command; current_write_command := None after the last transfer, 314 / 532 *)
Definition left_of (c : C) (l : list E) : option (C * list E) :=
  match l with [] => None | _ => Some (c, l) end.

(** 258-272 / 509-517: get the command, queue the response command *)
Definition eng_get (s : eng) (c : C) (q' : list C) : eng :=
  {| g_pend := g_pend s; g_q := q'; g_cur := left_of c (sends c); g_wtask := g_wtask s; g_rq := g_rq s ++ [c];
     g_rcur := g_rcur s; g_rtask := g_rtask s; g_inflight := g_inflight s; g_idle := g_idle s |}.

(** 311-312 / 530 *)
Definition eng_sent (s : eng) (c : C) (l : list E) : eng :=
  {| g_pend := g_pend s; g_q := g_q s; g_cur := left_of c l; g_wtask := g_wtask s; g_rq := g_rq s;
     g_rcur := g_rcur s; g_rtask := g_rtask s; g_inflight := g_inflight s; g_idle := g_idle s |}.

(** response task: 318-343 / 536-579.  With all responses: set the event, count, set idle. *)
Definition eng_resp (s : eng) (c : C) (rq' : list C) (got : list R) : eng * list gout :=
  if Nat.leb (need c) (length got) then
    ({| g_pend := g_pend s; g_q := g_q s; g_cur := g_cur s; g_wtask := g_wtask s; g_rq := rq';
        g_rcur := None; g_rtask := g_rtask s; g_inflight := g_inflight s - 1;
        g_idle := if g_inflight s - 1 =? 0 then true else g_idle s |}, [ODone c (Some got)])
  else
    ({| g_pend := g_pend s; g_q := g_q s; g_cur := g_cur s; g_wtask := g_wtask s; g_rq := rq';
        g_rcur := Some (c, got); g_rtask := g_rtask s; g_inflight := g_inflight s; g_idle := g_idle s |}, []).

Definition opt_list {A B} (f : A -> B) (o : option A) : list B := match o with Some x => [f x] | None => [] end.

(** 210-254 / 462-505.  The channels are cleared (their own models). *)
Definition eng_reset (s : eng) (b : bool) : eng * list gout :=
  if b then
    ({| g_pend := g_pend s; g_q := []; g_cur := None; g_wtask := false; g_rq := []; g_rcur := None;
        g_rtask := false; g_inflight := 0; g_idle := true |},
     map (fun c => ODone c None) (g_q s ++ opt_list fst (g_cur s) ++ g_rq s ++ opt_list fst (g_rcur s)) ++ [OReset])
  else
    ({| g_pend := g_pend s; g_q := g_q s; g_cur := g_cur s; g_wtask := true; g_rq := g_rq s;
        g_rcur := g_rcur s; g_rtask := true; g_inflight := g_inflight s; g_idle := g_idle s |}, []).

(** One operation; an operation that is not possible changes nothing. *)
Definition eng_step (s : eng) (o : gop) : eng * list gout :=
  match o with
  | GIssue c => (eng_issue s c, [OStart c])
  | GInit c => (eng_set_pend s (g_pend s ++ [c]), [])
  | GStart n =>
      match nth_error (g_pend s) n with
      | Some c => (eng_issue (eng_set_pend s (firstn n (g_pend s) ++ skipn (S n) (g_pend s))) c, [OStart c])
      | None => (s, [])
      end
  | GGet =>
      match g_wtask s, g_cur s, g_q s with
      | true, None, c :: q' => (eng_get s c q', [])
      | _, _, _ => (s, [])
      end
  | GSend =>
      match g_wtask s, g_cur s with
      | true, Some (c, e :: l) => (eng_sent s c l, [OSent e])
      | _, _ => (s, [])
      end
  | GRGet =>
      match g_rtask s, g_rcur s, g_rq s with
      | true, None, c :: rq' => eng_resp s c rq' []
      | _, _, _ => (s, [])
      end
  | GResp r =>
      match g_rtask s, g_rcur s with
      | true, Some (c, got) => let '(s', o) := eng_resp s c (g_rq s) (got ++ [r]) in (s', OResp r :: o)
      | _, _ => (s, [])
      end
  | GReset b => eng_reset s b
  end.

Fixpoint eng_run (s : eng) (h : list gop) : eng * list gout :=
  match h with
  | [] => (s, [])
  | o :: h' => let '(s1, o1) := eng_step s o in let '(s2, o2) := eng_run s1 h' in (s2, o1 ++ o2)
  end.

(** 177-178 [idle()] *)
Definition eng_is_idle (s : eng) : bool := g_inflight s =? 0.
(** 180-182: [wait()] returns when it sees idle(); otherwise it looks again when [g_idle] is set. *)
End Engine.
Arguments gop : clear implicits. Arguments gout : clear implicits. Arguments eng : clear implicits.

(** ** The two masters.  An operation is its number (standing for its event) and its command; the
    result handed to the event is [lite_write_resp rs] resp. [lite_read_resp L cmd rs] (M_axil.v) of the
    responses [rs] in [ODone]. *)
Definition lite_w_sends (L : Z) (o : Z * lwcmd) : list lev := fst (lite_write L (snd o)).
Definition lite_w_need (L : Z) (o : Z * lwcmd) : nat :=
  Z.to_nat (lite_cycles L (lc_addr (snd o)) (zlen (lc_data (snd o)))).
Definition lite_r_sends (L : Z) (o : Z * lrcmd) : list lax := lite_read L (snd o).
Definition lite_r_need (L : Z) (o : Z * lrcmd) : nat :=
  Z.to_nat (lite_cycles L (lr_addr (snd o)) (lr_len (snd o))).
Definition lite_w_run (L : Z) : list (gop (Z * lwcmd) resp_t) -> _ :=
  eng_run (lite_w_sends L) (lite_w_need L) eng_init.
Definition lite_r_run (L : Z) : list (gop (Z * lrcmd) lrd) -> _ :=
  eng_run (lite_r_sends L) (lite_r_need L) eng_init.
