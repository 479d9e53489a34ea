(** Model of the calls of a master and of the events of init_write and init_read:
    /repo/cocotbext/axi/axi_master.py 282-348, 415-427, 717-771, 826-840; axil_master.py 152-175, 198-208, 407-427, 449-460;
    apb.py 196-217, 219-241, 262-274, 289-300.

    The master itself is a machine with state [S], steps [O] and outputs [U] (M_axieng.v, M_liteeng.v, M_apb.v); here the tasks are added
    that wait for it: callers of write()/read(), and the tasks that init_write()/init_read() start.  cocotb's Event: set(data) stores data and
    wakes the waiting task, which runs some time later and then reads event.data, so the last set() before counts.
    Simplifications: the arguments were accepted (for the second check in the task see C81_write_args and the theorems after it);
    the Events of init_* are named by integers, and several calls may be given the same one; no task is cancelled. *)
From Coq Require Import ZArith List Bool.
From Verif Require Import Py M_axi M_axil M_liteeng M_axieng M_apb M_axiargs.
Import ListNotations.
Open Scope Z_scope.

Section Calls.
Context {S O U C X R : Type}.
Variable stp : S -> O -> S * list U.
Variable issue : C -> O.                   (* the part of write()/read() up to event.wait(): count and queue the command *)
Variable env : O -> bool.                  (* steps of the tasks of the master and of its surroundings *)
Variable beg : U -> option X.              (* the operation was queued *)
Variable fin : U -> option (X * R).        (* event.set(result) of the event in the command *)
Variable key : X -> Z.                     (* which command object *)

(** a task in write()/read(): not run yet; awaits the event of its command; that event was set and the task may go on *)
Inductive tst := TNew (c : C) | TWait (x : X) | TRet (x : X) (r : R).
(** [t_ev]: the event of init_*, which the wrapper task sets; None for a caller of write()/read() itself *)
Record task := { t_ev : option Z; t_st : tst }.

Inductive iop :=
| ICall (c : C)             (* await write(...) / read(...) *)
| IInit (c : C) (e : Z)     (* init_write(..., event=e) / init_read(..., event=e), also if init_* made the event *)
| IRun (n : nat)            (* the scheduler runs the n-th task *)
| IOp (o : O).              (* anything else that happens in or around the master *)
Inductive iout :=
| IO (u : U)                        (* something the master does *)
| IEnd (e : option Z) (x : X) (r : R).   (* write()/read() returns r to its caller (None), or e.set(r) *)

Definition ibegs (us : list U) : list X := flat_map (fun u => match beg u with Some x => [x] | None => [] end) us.

(** event.set(r) of a command: the task that waits for it may go on *)
Definition upd (t : task) (u : U) : task :=
  match fin u with
  | Some (y, r) =>
      match t_st t with
      | TWait x | TRet x _ => if key y =? key x then {| t_ev := t_ev t; t_st := TRet x r |} else t
      | TNew _ => t
      end
  | None => t
  end.
Definition deliver (us : list U) (ts : list task) : list task := map (fun t => fold_left upd us t) ts.

Record ist := { i_s : S; i_ts : list task }.

(** up to event.wait(): axi_master.py 415-422 and the like *)
Definition i_issue (s : S) (c : C) : S * list U * tst :=
  let '(s', us) := stp s (issue c) in
  (s', us, match ibegs us with x :: _ => TWait x | [] => TNew c end).

Definition istep (y : ist) (o : iop) : ist * list iout :=
  match o with
  | ICall c =>
      let '(s', us, t) := i_issue (i_s y) c in
      ({| i_s := s'; i_ts := deliver us (i_ts y) ++ [{| t_ev := None; t_st := t |}] |}, map IO us)
  | IInit c e => ({| i_s := i_s y; i_ts := i_ts y ++ [{| t_ev := Some e; t_st := TNew c |}] |}, [])
  | IRun n =>
      match nth_error (i_ts y) n with
      | Some t =>
          let rest := firstn n (i_ts y) ++ skipn (Datatypes.S n) (i_ts y) in
          match t_st t with
          | TNew c =>
              let '(s', us, t') := i_issue (i_s y) c in
              ({| i_s := s'; i_ts := deliver us rest ++ [{| t_ev := t_ev t; t_st := t' |}] |}, map IO us)
          | TWait _ => (y, [])
          | TRet x r => ({| i_s := i_s y; i_ts := rest |}, [IEnd (t_ev t) x r])     (* return event.data; event.set(await ...) *)
          end
      | None => (y, [])
      end
  | IOp o =>
      if env o then let '(s', us) := stp (i_s y) o in ({| i_s := s'; i_ts := deliver us (i_ts y) |}, map IO us)
      else (y, [])
  end.

Fixpoint irun (y : ist) (h : list iop) : ist * list iout :=
  match h with
  | [] => (y, [])
  | o :: h' => let '(y1, l1) := istep y o in let '(y2, l2) := irun y1 h' in (y2, l1 ++ l2)
  end.
Definition i_init (s : S) : ist := {| i_s := s; i_ts := [] |}.
End Calls.
Arguments iop : clear implicits. Arguments iout : clear implicits. Arguments ist : clear implicits. Arguments task : clear implicits. Arguments tst : clear implicits.

(** AxiLiteMasterWrite / AxiLiteMasterRead *)
Definition l_env {C R} (o : gop C R) : bool := match o with GIssue _ | GInit _ | GStart _ => false | _ => true end.
Definition l_beg {C E R} (u : gout C E R) : option C := match u with M_liteeng.OStart c => Some c | _ => None end.
Definition l_fin {C E R} (u : gout C E R) : option (C * option (list R)) := match u with ODone c r => Some (c, r) | _ => None end.
Definition lw_calls (L : Z) := irun (eng_step (R:=resp_t) (lite_w_sends L) (lite_w_need L)) GIssue l_env l_beg l_fin fst (i_init eng_init).
Definition lr_calls (L : Z) := irun (eng_step (R:=lrd) (lite_r_sends L) (lite_r_need L)) GIssue l_env l_beg l_fin fst (i_init eng_init).

(** AxiMasterWrite / AxiMasterRead *)
Definition x_env {C R} (o : xop C R) : bool := match o with PIssue _ | PInit _ | PStart _ => false | _ => true end.
Definition x_beg {C E R} (u : xout C E R) : option C := match u with XStart c => Some c | _ => None end.
Definition x_fin {C E R} (u : xout C E R) : option (C * option (list R)) :=
  match u with XDone c _ rs => Some (c, Some rs) | XFlush c => Some (c, None) | _ => None end.
Definition xw_calls (c : mcfg) (idn : Z) := irun (w_step c idn) PIssue x_env x_beg x_fin (fun o => fst (fst o)) (i_init xeng_init).
Definition xr_calls (c : mcfg) (idn : Z) := irun (r_step c idn) PIssue x_env x_beg x_fin (fun o => fst (fst o)) (i_init xeng_init).

(** ApbMaster *)
Definition a_env (o : bop) : bool := match o with BIssue _ | BInit _ | BStart _ | BReturn _ => false | _ => true end.   (* calls that return are tasks here *)
Definition a_beg (u : aout) : option aop := match u with OStart x => Some x | _ => None end.
Definition a_fin (u : aout) : option (aop * option aresp) := match u with OSet x d => Some (x, d) | _ => None end.
Definition a_calls (L : Z) (ep : bool) := irun (b_step L ep) BIssue a_env a_beg a_fin fst (i_init apb_init).

(** ** The arguments: init_write checks and converts them, then the task calls write, which checks again *)
(** axi_master.py 296-345: what init_write hands to the task *)
Definition rewrapped (c : acfg) (a : wargs) : wargs :=
  match write_args c a with
  | Ok (i, cmd) =>
      {| wa_com := {| g_addr := wc_addr cmd; g_id := i; g_burst := match wc_burst cmd with FIXED => 0 | INCR => 1 | WRAP => 2 end;
                      g_size := Some (wc_size cmd); g_side := wc_side cmd |};
         wa_data := DSeq (wc_data cmd);
         wa_wuser := match wc_wuser cmd with WInt u => UInt u | WList l => USeq l end |}
  | Err _ => a
  end.
(** 282-348, 425-428: the call, and the command that the task queues *)
Definition init_write_args (c : acfg) (a : wargs) : res unit * res (option Z * wcmd) :=
  match write_args c a with Ok _ => (Ok tt, write_args c (rewrapped c a)) | Err e => (Err e, Err e) end.
(** axi_master.py 731-768, 836-840 *)
Definition rrewrapped (c : acfg) (a : rargs) : rargs :=
  match read_args c a with
  | Ok (i, cmd) =>
      {| ra_com := {| g_addr := rc_addr cmd; g_id := i; g_burst := match rc_burst cmd with FIXED => 0 | INCR => 1 | WRAP => 2 end;
                      g_size := Some (rc_size cmd); g_side := rc_side cmd |};
         ra_len := rc_len cmd |}
  | Err _ => a
  end.
Definition init_read_args (c : acfg) (a : rargs) : res unit * res (option Z * rcmd) :=
  match read_args c a with Ok _ => (Ok tt, read_args c (rrewrapped c a)) | Err e => (Err e, Err e) end.

(** axil_master.py 152-175, 198-208; apb.py 196-217, 262-263: checked, made bytes (twice), and checked again in write *)
Definition init_lite_write_args (aw : Z) (pp : bool) (addr : Z) (data : list Z + Z) (prot : Z) : res unit * res lwcmd :=
  match lite_write_args aw pp addr data prot with
  | Ok cmd => (Ok tt, lite_write_args aw pp (lc_addr cmd) (inl (lc_data cmd)) (lc_prot cmd))
  | Err e => (Err e, Err e)
  end.
(** axil_master.py 405-427, 457-458; apb.py 219-241, 289-300 *)
Definition init_lite_read_args (aw : Z) (pp : bool) (addr len prot : Z) : res unit * res lrcmd :=
  match lite_read_args aw pp addr len prot with
  | Ok cmd => (Ok tt, lite_read_args aw pp (lr_addr cmd) (lr_len cmd) (lr_prot cmd))
  | Err e => (Err e, Err e)
  end.
