(** An AXI-Lite master connected to an AXI-Lite slave: the master's tasks (M_liteeng.v), the channels between them
    and the slave's task, with every interleaving of their atomic pieces.

    Sources: /repo/cocotbext/axi/axil_master.py 101-106 / 361-364 (channels, limit 2), 256-343 / 507-579 (tasks);
    axil_slave.py 53-58 / 179-182 (channels, limit 2), 107-158 (write task), 225-248 (read task).  The channels
    are those of M_sys.v ([chan], with the simplifications stated there).  No reset in this model (C34 treats it).
    The response task receives only while it has a command (324 / 547: recv inside the loop over the cycles), which
    is what [g_rcur] says; the AXI master's response task, in contrast, receives all the time. *)
From Coq Require Import ZArith List Bool.
From Verif Require Import Py M_axi M_axil M_liteeng M_sys.
Import ListNotations.
Open Scope Z_scope.

Section Sys.
Context {C E R S : Type}.
Variable sends : C -> list E.
Variable need : C -> nat.
Variable kind : E -> bool.           (* channel of a transfer: AW / AR true, W false *)
Variable act : S -> sact R S.
Variable sin : S -> E -> S.          (* the slave's task goes on with the transfer it received *)

Record usys := { u_m : eng C E R; u_a : chan E; u_w : chan E; u_b : chan R; u_s : S }.
Definition usys_init (s0 : S) : usys := {| u_m := eng_init; u_a := chan_new; u_w := chan_new; u_b := chan_new; u_s := s0 |}.

Definition ufwd (y : usys) (k : bool) : chan E := if k then u_a y else u_w y.
Definition uset_fwd (y : usys) (k : bool) (c : chan E) : usys :=
  if k then {| u_m := u_m y; u_a := c; u_w := u_w y; u_b := u_b y; u_s := u_s y |}
  else {| u_m := u_m y; u_a := u_a y; u_w := c; u_b := u_b y; u_s := u_s y |}.
Definition uset_m (y : usys) (m : eng C E R) : usys := {| u_m := m; u_a := u_a y; u_w := u_w y; u_b := u_b y; u_s := u_s y |}.
Definition uset_b (y : usys) (c : chan R) : usys := {| u_m := u_m y; u_a := u_a y; u_w := u_w y; u_b := c; u_s := u_s y |}.
Definition uset_s (y : usys) (s : S) : usys := {| u_m := u_m y; u_a := u_a y; u_w := u_w y; u_b := u_b y; u_s := s |}.

Inductive uop :=
| UIssue (c : C) | UInit (c : C) | UStart (n : nat)          (* user *)
| UGet | USend | URGet | URecv                               (* the master's tasks *)
| ULoad (k : bool) | UXfer (k : bool) | ULoadB | UXferB      (* the channels *)
| USlave                                                     (* the slave's task *)
| UPoke (f : S -> S).                                        (* somebody else changes the slave's target *)

Definition um_step (y : usys) (o : gop C R) : usys * list (gout C E R) :=
  let '(m, os) := eng_step sends need (u_m y) o in (uset_m y m, os).

(** the transfer the sender is about to hand to a channel (axil_master.py 311-312 / 530) *)
Definition unext (m : eng C E R) : option E :=
  match g_wtask m, g_cur m with true, Some (_, e :: _) => Some e | _, _ => None end.
(** the response task waits in recv (axil_master.py 324 / 547) *)
Definition uwaits (m : eng C E R) : bool :=
  match g_rtask m, g_rcur m with true, Some _ => true | _, _ => false end.

Definition u_step (y : usys) (o : uop) : usys * list (gout C E R) :=
  match o with
  | UIssue c => um_step y (GIssue c)
  | UInit c => um_step y (GInit c)
  | UStart n => um_step y (GStart n)
  | UGet => um_step y GGet
  | USend =>
      match unext (u_m y) with
      | Some e => if q_room (ch_src (ufwd y (kind e)))
                  then um_step (uset_fwd y (kind e) (ch_push (ufwd y (kind e)) e)) GSend
                  else (y, [])
      | None => (y, [])
      end
  | URGet => um_step y GRGet
  | URecv =>
      match uwaits (u_m y), ch_snk (u_b y) with
      | true, r :: q => um_step (uset_b y (ch_pop (u_b y) q)) (GResp r)
      | _, _ => (y, [])
      end
  | ULoad k => (uset_fwd y k (ch_load (ufwd y k)), [])
  | UXfer k => (uset_fwd y k (ch_xfer (ufwd y k)), [])
  | ULoadB => (uset_b y (ch_load (u_b y)), [])
  | UXferB => (uset_b y (ch_xfer (u_b y)), [])
  | USlave =>
      match act (u_s y) with
      | AWait k => match ch_snk (ufwd y k) with
                   | e :: q => (uset_s (uset_fwd y k (ch_pop (ufwd y k) q)) (sin (u_s y) e), [])
                   | [] => (y, [])
                   end
      | AEmit r s => if q_room (ch_src (u_b y)) then (uset_s (uset_b y (ch_push (u_b y) r)) s, []) else (y, [])
      | ATau s => (uset_s y s, [])
      | ADead => (y, [])
      end
  | UPoke f => (uset_s y (f (u_s y)), [])
  end.

Fixpoint u_run (y : usys) (h : list uop) : usys * list (gout C E R) :=
  match h with
  | [] => (y, [])
  | o :: h' => let '(y1, o1) := u_step y o in let '(y2, o2) := u_run y1 h' in (y2, o1 ++ o2)
  end.
End Sys.
Arguments usys : clear implicits. Arguments uop : clear implicits.

(* ------------------------------------------------------------------ *)
(** * The slaves' tasks *)
Section Slave.
Context {T : Type}.
Variable t_write : T -> Z -> list Z -> T * res unit.
Variable t_read : T -> Z -> Z -> T * res (list Z).
Variable lanes : Z.
Variable strb_present : bool.

(** axil_slave.py 107-158: waiting for AW (109); waiting for W (114); sending B (158); ended (to_bytes raised).
    Simplification: the target's writes of a word are one step. *)
Inductive lwslv := LWIdle (t : T) | LWGot (a : lax) (t : T) | LWResp (b : resp_t) (t : T) | LWDead (t : T).
Definition lws_act (s : lwslv) : sact resp_t lwslv :=
  match s with
  | LWIdle _ => AWait true
  | LWGot _ _ => AWait false
  | LWResp b t => AEmit b (LWIdle t)
  | LWDead _ => ADead
  end.
Definition lws_in (s : lwslv) (e : lev) : lwslv :=
  match s, e with
  | LWIdle t, LAW a => LWGot a t
  | LWGot a t, LW w => match lite_sw t_write lanes strb_present a w t with
                       | (t', Ok b) => LWResp b t'
                       | (t', Err _) => LWDead t'
                       end
  | _, _ => s
  end.
Definition lws_target (s : lwslv) : T := match s with LWIdle t | LWGot _ t | LWResp _ t | LWDead t => t end.
Definition lws_poke (f : T -> T) (s : lwslv) : lwslv :=
  match s with LWIdle t => LWIdle (f t) | LWGot a t => LWGot a (f t) | LWResp b t => LWResp b (f t) | LWDead t => LWDead (f t) end.

(** axil_slave.py 225-248: waiting for AR (227); about to read the target (236); sending R (244). *)
Inductive lrslv := LRIdle (t : T) | LRRead (a : lax) (t : T) | LRResp (r : lrd) (t : T).
Definition lrs_act (s : lrslv) : sact lrd lrslv :=
  match s with
  | LRIdle _ => AWait true
  | LRRead a t => let '(t', r) := lite_sr t_read lanes a t in ATau (LRResp r t')
  | LRResp r t => AEmit r (LRIdle t)
  end.
Definition lrs_in (s : lrslv) (a : lax) : lrslv := match s with LRIdle t => LRRead a t | _ => s end.
Definition lrs_target (s : lrslv) : T := match s with LRIdle t | LRRead _ t | LRResp _ t => t end.
Definition lrs_poke (f : T -> T) (s : lrslv) : lrslv :=
  match s with LRIdle t => LRIdle (f t) | LRRead a t => LRRead a (f t) | LRResp r t => LRResp r (f t) end.
End Slave.
Arguments lwslv : clear implicits. Arguments lrslv : clear implicits.

(** ** AxiLiteMasterWrite - AxiLiteSlaveWrite and AxiLiteMasterRead - AxiLiteSlaveRead *)
Definition lw_kind (e : lev) : bool := match e with LAW _ => true | LW _ => false end.
Definition lr_kind (a : lax) : bool := true.
Definition lwsys_step {T} (L : Z) (tw : T -> Z -> list Z -> T * res unit) (sp : bool) :=
  u_step (lite_w_sends L) (lite_w_need L) lw_kind lws_act (lws_in tw L sp).
Definition lwsys_run {T} (L : Z) (tw : T -> Z -> list Z -> T * res unit) (sp : bool) (t : T) :=
  u_run (lite_w_sends L) (lite_w_need L) lw_kind lws_act (lws_in tw L sp) (usys_init (LWIdle t)).
Definition lrsys_step {T} (L : Z) (tr : T -> Z -> Z -> T * res (list Z)) :=
  u_step (lite_r_sends L) (lite_r_need L) lr_kind (lrs_act tr L) lrs_in.
Definition lrsys_run {T} (L : Z) (tr : T -> Z -> Z -> T * res (list Z)) (t : T) :=
  u_run (lite_r_sends L) (lite_r_need L) lr_kind (lrs_act tr L) lrs_in (usys_init (LRIdle t)).
