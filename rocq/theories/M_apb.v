(** Model of the APB master, slave and RAM: /repo/cocotbext/axi/apb.py.

    ApbMaster and ApbSlave have one task each; a task runs from one await that blocks to the next.  A clock edge
    resumes both tasks with the values the signals had before the edge (cocotb applies writes to signals after
    the tasks have run).  The arguments of the user's calls were accepted ([lite_write_args], [lite_read_args] of
    M_axil.v: lines 199-213, 224-237, 251-261, 277-287 are the checks of axil_master.py).
    Simplifications: signals have the widths of the values; pready is 0 or 1; [_write] and [_read] of the slave do not block (true for
    ApbRam, 630-634); pstrb is present (ApbBus requires it); logging is left out. *)
From Coq Require Import ZArith List Bool.
From Verif Require Import Py M_axi M_axil.
Import ListNotations.
Open Scope Z_scope.

(** 40-44 ApbWriteCmd, 54-58 ApbReadCmd (without the event): the fields of the AXI-Lite commands *)
Inductive acmd := ACW (c : lwcmd) | ACR (c : lrcmd).
(** an operation: a command with its number in the order of the calls of write() and read() *)
Notation aop := (Z * acmd)%type.
(** 47-50 ApbWriteResp, 61-64 ApbReadResp *)
Inductive aresp := AWResp (addr len : Z) (r : resp_t) | ARResp (addr : Z) (data : list Z) (r : resp_t).

(** the signals of a transfer: paddr, pprot, pwrite, pwdata, pstrb *)
Record pword := { pw_addr : Z; pw_prot : Z; pw_write : bool; pw_data : Z; pw_strb : Z }.
Definition pword0 : pword := {| pw_addr := 0; pw_prot := 0; pw_write := false; pw_data := 0; pw_strb := 0 |}.

Definition ac_addr (c : acmd) : Z := match c with ACW c => lc_addr c | ACR c => lr_addr c end.
(** 350-355 *)
Definition ac_len (c : acmd) : Z := match c with ACW c => zlen (lc_data c) | ACR c => lr_len c end.
(** 365 *)
Definition ac_cycles (L : Z) (c : acmd) : Z := lite_cycles L (ac_addr c) (ac_len c).

(** 379-415: the signals of word k and the data index after it.  Lines 357-363, 379-389 compute the lanes and strobes
    as axil_master.py 262-267, 280-292 do ([lite_start], [lite_stop], [lite_strb]). *)
Definition a_word (L : Z) (c : acmd) (k offset : Z) : res (pword * Z) :=
  match c with
  | ACW w =>
      match mw_val (lc_data w) (zrange (lite_start L (lc_addr w) k)
                      (lite_stop L (lc_addr w) (zlen (lc_data w)) (ac_cycles L c) k)) offset 0 with
      | Err e => Err e
      | Ok (val, offset') =>
          Ok ({| pw_addr := lite_addr L (lc_addr w) k; pw_prot := lc_prot w; pw_write := true; pw_data := val;
                 pw_strb := lite_strb L (lc_addr w) (zlen (lc_data w)) (ac_cycles L c) k |}, offset')
      end
  | ACR r => Ok ({| pw_addr := lite_addr L (lr_addr r) k; pw_prot := lr_prot r; pw_write := false; pw_data := 0; pw_strb := 0 |}, offset)
  end.
(** 431-441: bytes of prdata taken for word k *)
Definition a_bytes (L : Z) (c : acmd) (k prdata : Z) : list Z :=
  beat_bytes prdata (lite_start L (ac_addr c) k) (lite_stop L (ac_addr c) (ac_len c) (ac_cycles L c) k).
(** 448, 454 *)
Definition a_result (c : acmd) (data : list Z) (r : resp_t) : aresp :=
  match c with ACW _ => AWResp (ac_addr c) (ac_len c) r | ACR _ => ARResp (ac_addr c) data r end.

(** ** ApbMaster *)
(** the command in work: its word number, data index after the word, signals of the word, read_data, resp *)
Record arun := { ru_op : aop; ru_k : Z; ru_off : Z; ru_word : pword; ru_data : list Z; ru_resp : resp_t }.
(** where the task is: not running; line 337; 341; 342 with the command; 403; 419; 422 or 424; ended by an exception *)
Inductive atask := AKill | AStart | AGet | AGot (x : aop) | APaus (r : arun) | ASetup (r : arun) | AAcc (r : arun) | ADead.

Record apb := {
  b_task : atask;                               (* _run_cr, 191 *)
  b_q : list aop;                               (* command_queue, 145 *)
  b_cur : option aop;                           (* current_command, 147 *)
  b_inflight : Z;                               (* in_flight_operations, 149 *)
  b_idle : bool;                                (* _idle is set, 150-151 *)
  b_pend : list acmd;                           (* init_write / init_read: wrapper tasks that did not run yet, 216, 239 *)
  b_next : Z;                                   (* number of the next operation *)
  b_wait : list (aop * option (option aresp));  (* write() and read() calls waiting (270, 296): is the event set, event.data *)
  b_psel : bool; b_penable : bool; b_word : pword }.

(** 145-193, reset inactive: reset.py calls _handle_reset(False), 327-330 *)
Definition apb_init : apb :=
  {| b_task := AStart; b_q := []; b_cur := None; b_inflight := 0; b_idle := true; b_pend := []; b_next := 0; b_wait := [];
     b_psel := false; b_penable := false; b_word := pword0 |}.

Definition b_set_task (s : apb) (t : atask) : apb :=
  {| b_task := t; b_q := b_q s; b_cur := b_cur s; b_inflight := b_inflight s; b_idle := b_idle s; b_pend := b_pend s;
     b_next := b_next s; b_wait := b_wait s; b_psel := b_psel s; b_penable := b_penable s; b_word := b_word s |}.
Definition b_set_q (s : apb) (q : list aop) : apb :=
  {| b_task := b_task s; b_q := q; b_cur := b_cur s; b_inflight := b_inflight s; b_idle := b_idle s; b_pend := b_pend s;
     b_next := b_next s; b_wait := b_wait s; b_psel := b_psel s; b_penable := b_penable s; b_word := b_word s |}.
Definition b_set_cur (s : apb) (c : option aop) : apb :=
  {| b_task := b_task s; b_q := b_q s; b_cur := c; b_inflight := b_inflight s; b_idle := b_idle s; b_pend := b_pend s;
     b_next := b_next s; b_wait := b_wait s; b_psel := b_psel s; b_penable := b_penable s; b_word := b_word s |}.
Definition b_set_sig (s : apb) (psel penable : bool) (w : pword) : apb :=
  {| b_task := b_task s; b_q := b_q s; b_cur := b_cur s; b_inflight := b_inflight s; b_idle := b_idle s; b_pend := b_pend s;
     b_next := b_next s; b_wait := b_wait s; b_psel := psel; b_penable := penable; b_word := w |}.
Definition b_set_wait (s : apb) (w : list (aop * option (option aresp))) : apb :=
  {| b_task := b_task s; b_q := b_q s; b_cur := b_cur s; b_inflight := b_inflight s; b_idle := b_idle s; b_pend := b_pend s;
     b_next := b_next s; b_wait := w; b_psel := b_psel s; b_penable := b_penable s; b_word := b_word s |}.
Definition b_set_pend (s : apb) (l : list acmd) : apb :=
  {| b_task := b_task s; b_q := b_q s; b_cur := b_cur s; b_inflight := b_inflight s; b_idle := b_idle s; b_pend := l;
     b_next := b_next s; b_wait := b_wait s; b_psel := b_psel s; b_penable := b_penable s; b_word := b_word s |}.
Definition b_set_cnt (s : apb) (n : Z) (i : bool) : apb :=
  {| b_task := b_task s; b_q := b_q s; b_cur := b_cur s; b_inflight := n; b_idle := i; b_pend := b_pend s;
     b_next := b_next s; b_wait := b_wait s; b_psel := b_psel s; b_penable := b_penable s; b_word := b_word s |}.

(** event.set(d) of operation x *)
Definition ev_set (x : aop) (d : option aresp) (l : list (aop * option (option aresp))) : list (aop * option (option aresp)) :=
  map (fun e => if fst (fst e) =? fst x then (fst e, Some d) else e) l.

Inductive aout :=
| OStart (x : aop)                          (* the operation is counted and queued *)
| OSet (x : aop) (d : option aresp)         (* event.set(d) *)
| ORet (x : aop) (d : option aresp)         (* write() or read() returns *)
| OCrash.                                   (* the task ends with an exception *)

(** 263-269 / 289-294 *)
Definition b_issue (s : apb) (c : acmd) : apb * list aout :=
  let x := (b_next s, c) in
  ({| b_task := b_task s; b_q := b_q s ++ [x]; b_cur := b_cur s; b_inflight := b_inflight s + 1; b_idle := false; b_pend := b_pend s;
      b_next := b_next s + 1; b_wait := b_wait s ++ [(x, None)]; b_psel := b_psel s; b_penable := b_penable s; b_word := b_word s |},
   [OStart x]).

Section Master.
Variable L : Z.                 (* byte_lanes *)
Variable ep : bool.             (* pslverr_present *)

(** 445-462; line 457 assigns current_write_command, an attribute nobody reads: current_command keeps its value *)
Definition b_complete (s : apb) (x : aop) (d : aresp) : apb :=
  let n := b_inflight s - 1 in
  b_set_cnt (b_set_wait s (ev_set x (Some d) (b_wait s))) n (if n =? 0 then true else b_idle s).

(** 402-419: the word is driven when pause is off *)
Definition a_drive (s : apb) (r : arun) : apb :=
  b_set_task (b_set_sig s true (b_penable s) (ru_word r)) (ASetup r).
Definition a_beat (pause : bool) (s : apb) (x : aop) (k offset : Z) (data : list Z) (resp : resp_t) : apb * list aout :=
  match a_word L (snd x) k offset with
  | Err _ => (b_set_task s ADead, [OCrash])
  | Ok (w, offset') =>
      let r := {| ru_op := x; ru_k := k; ru_off := offset'; ru_word := w; ru_data := data; ru_resp := resp |} in
      (if pause then b_set_task s (APaus r) else a_drive s r, [])
  end.

(** 339-379: the head of the loop with the queue q; commands without cycles are completed at once *)
Fixpoint a_loop (pause : bool) (q : list aop) (s : apb) : apb * list aout :=
  match q with
  | [] => (b_set_task (b_set_q s []) AGet, [])
  | x :: q' =>
      let s1 := b_set_cur (b_set_q s q') (Some x) in
      if 0 <? ac_cycles L (snd x) then a_beat pause s1 x 0 0 [] OKAY
      else let d := a_result (snd x) [] OKAY in
           let '(s2, o) := a_loop pause q' (b_complete s1 x d) in (s2, OSet x (Some d) :: o)
  end.

(** 426-462: pready is seen *)
Definition a_ack (pause : bool) (prdata : Z) (pslverr : bool) (s : apb) (r : arun) : apb * list aout :=
  let x := ru_op r in
  let data := ru_data r ++ a_bytes L (snd x) (ru_k r) prdata in
  let resp := if ep && pslverr then SLVERR else ru_resp r in
  let s1 := b_set_sig s false false (b_word s) in
  if ru_k r + 1 <? ac_cycles L (snd x) then a_beat pause s1 x (ru_k r + 1) (ru_off r) data resp
  else let d := a_result (snd x) data resp in
       let '(s2, o) := a_loop pause (b_q s1) (b_complete s1 x d) in (s2, OSet x (Some d) :: o).

(** the task at a clock edge *)
Definition a_edge (pause pready : bool) (prdata : Z) (pslverr : bool) (s : apb) : apb * list aout :=
  match b_task s with
  | AStart => a_loop pause (b_q s) s
  | AGot x => a_loop pause (x :: b_q s) s
  | APaus r => (if pause then s else a_drive s r, [])
  | ASetup r => (b_set_task (b_set_sig s (b_psel s) true (b_word s)) (AAcc r), [])          (* 419-420 *)
  | AAcc r => if pready then a_ack pause prdata pslverr s r else (s, [])
  | AKill | AGet | ADead => (s, [])
  end.

(** 302-332 *)
Definition a_reset (s : apb) (b : bool) : apb * list aout :=
  if b then
    let flush := b_q s ++ match b_cur s with Some x => [x] | None => [] end in
    ({| b_task := AKill; b_q := []; b_cur := None; b_inflight := 0; b_idle := true; b_pend := b_pend s; b_next := b_next s;
        b_wait := fold_left (fun l x => ev_set x None l) flush (b_wait s); b_psel := false; b_penable := false; b_word := b_word s |},
     map (fun x => OSet x None) flush)
  else (match b_task s with AKill => b_set_task s AStart | _ => s end, []).

Inductive bop :=
| BIssue (c : acmd)                                                  (* write() or read() is called *)
| BInit (c : acmd) | BStart (n : nat)                                (* init_write() or init_read() is called; a wrapper task runs *)
| BWake                                                              (* the task continues after command_queue.get(), 341 *)
| BReturn (n : nat)                                                  (* a waiting call continues after event.wait() *)
| BEdge (pause pready : bool) (prdata : Z) (pslverr : bool)          (* clock edge with these inputs *)
| BReset (b : bool).                                                 (* _handle_reset(b) *)

Definition b_step (s : apb) (o : bop) : apb * list aout :=
  match o with
  | BIssue c => b_issue s c
  | BInit c => (b_set_pend s (b_pend s ++ [c]), [])
  | BStart n =>
      match nth_error (b_pend s) n with
      | Some c => b_issue (b_set_pend s (firstn n (b_pend s) ++ skipn (S n) (b_pend s))) c
      | None => (s, [])
      end
  | BWake => match b_task s, b_q s with AGet, x :: q => (b_set_task (b_set_q s q) (AGot x), []) | _, _ => (s, []) end
  | BReturn n =>
      match nth_error (b_wait s) n with
      | Some (x, Some d) => (b_set_wait s (firstn n (b_wait s) ++ skipn (S n) (b_wait s)), [ORet x d])
      | _ => (s, [])
      end
  | BEdge pause pready prdata pslverr => a_edge pause pready prdata pslverr s
  | BReset b => a_reset s b
  end.
Fixpoint b_run (s : apb) (h : list bop) : apb * list aout :=
  match h with
  | [] => (s, [])
  | o :: h' => let '(s1, o1) := b_step s o in let '(s2, o2) := b_run s1 h' in (s2, o1 ++ o2)
  end.
(** 243-244 *)
Definition b_is_idle (s : apb) : bool := b_inflight s =? 0.
End Master.

(** ** ApbSlave *)
Section Slave.
Context {T : Type}.
Variable t_write : T -> Z -> list Z -> T * res unit.
Variable t_read : T -> Z -> Z -> T * res (list Z).
Variable L : Z.
Variable ep : bool.

(** not running (or ended by an exception); 544; 558 with the address; 617 *)
Inductive stask := VKill | VIdle | VPaus (addr : Z) | VAck.
Record aslv := { v_task : stask; v_pready : bool; v_prdata : Z; v_pslverr : bool; v_t : T }.
(** 508-515, reset inactive *)
Definition slv_init (t : T) : aslv := {| v_task := VIdle; v_pready := false; v_prdata := 0; v_pslverr := false; v_t := t |}.

Definition v_err {A : Type} (r : res A) : bool := match r with Ok _ => false | Err _ => true end.
(** 560-612: the access with the signals w.  Lines 568-597 are the loops of axi_slave.py ([sw_ops], [sw_perform]). *)
Definition v_access (addr : Z) (w : pword) (t : T) : res (T * option Z * bool) :=
  if pw_write w then
    match to_bytes (pw_data w) L Little with
    | Err e => Err e
    | Ok data => let '(t', r) := sw_perform t_write t (sw_ops addr data (pw_strb w) (zrange 0 L) 0 None) in Ok (t', None, v_err r)
    end
  else
    let '(t', r) := t_read t addr L in
    Ok (t', Some (le_int (match r with Ok d => d | Err _ => zeros L end)), v_err r).

(** 557-616 *)
Definition v_serve (pause : bool) (addr : Z) (w : pword) (s : aslv) : aslv :=
  if pause then {| v_task := VPaus addr; v_pready := v_pready s; v_prdata := v_prdata s; v_pslverr := v_pslverr s; v_t := v_t s |}
  else match v_access addr w (v_t s) with
       | Ok (t', d, e) =>
           {| v_task := VAck; v_pready := true; v_prdata := match d with Some x => x | None => v_prdata s end;
              v_pslverr := if ep then e else v_pslverr s; v_t := t' |}
       | Err _ => {| v_task := VKill; v_pready := v_pready s; v_prdata := v_prdata s; v_pslverr := v_pslverr s; v_t := v_t s |}
       end.
(** the task at a clock edge: 544-624 *)
Definition v_edge (pause psel : bool) (w : pword) (s : aslv) : aslv :=
  match v_task s with
  | VKill => s
  | VIdle => if psel then v_serve pause (pw_addr w / L * L) w s else s
  | VPaus addr => v_serve pause addr w s
  | VAck => {| v_task := VIdle; v_pready := false; v_prdata := v_prdata s; v_pslverr := v_pslverr s; v_t := v_t s |}
  end.
(** 523-536, 541 *)
Definition v_reset (s : aslv) (b : bool) : aslv :=
  if b then {| v_task := VKill; v_pready := false; v_prdata := v_prdata s; v_pslverr := v_pslverr s; v_t := v_t s |}
  else match v_task s with
       | VKill => {| v_task := VIdle; v_pready := false; v_prdata := v_prdata s; v_pslverr := v_pslverr s; v_t := v_t s |}
       | _ => s
       end.

(** ** ApbMaster connected to ApbSlave *)
Record asys := { k_m : apb; k_s : aslv }.
Inductive kop :=
| KM (o : bop)                   (* anything of the master but a clock edge *)
| KEdge (mp sp : bool)           (* a clock edge; master and slave paused? *)
| KReset (b : bool).             (* reset of the slave *)
Definition sys0 (t : T) : asys := {| k_m := apb_init; k_s := slv_init t |}.
Definition k_step (y : asys) (o : kop) : asys * list aout :=
  match o with
  | KM (BEdge _ _ _ _) => (y, [])
  | KM o => let '(m, os) := b_step L ep (k_m y) o in ({| k_m := m; k_s := k_s y |}, os)
  | KEdge mp sp =>
      let '(m, os) := a_edge L ep mp (v_pready (k_s y)) (v_prdata (k_s y)) (v_pslverr (k_s y)) (k_m y) in
      ({| k_m := m; k_s := v_edge sp (b_psel (k_m y)) (b_word (k_m y)) (k_s y) |}, os)
  | KReset b => ({| k_m := k_m y; k_s := v_reset (k_s y) b |}, [])
  end.
Fixpoint k_run (y : asys) (h : list kop) : asys * list aout :=
  match h with
  | [] => (y, [])
  | o :: h' => let '(y1, o1) := k_step y o in let '(y2, o2) := k_run y1 h' in (y2, o1 ++ o2)
  end.
End Slave.
Arguments aslv : clear implicits. Arguments asys : clear implicits.
(** ApbRam 630-634: [ram_write], [ram_read] of M_axi.v *)
