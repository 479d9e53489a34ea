(** Tasks, queues, transaction IDs, counters and reset of AxiMasterWrite and AxiMasterRead, and the
    classes TagContext and TagContextManager (/repo/cocotbext/axi/axi_master.py), as a state machine
    over the atomic pieces of the tasks (a task runs from one await that blocks to the next).

    Both masters have the same structure, so the model is generic: [C] commands, [E] transfers
    handed to the AW/W (or AR) channels, [R] responses from the B (or R) channel.  [sends c id] is the list of
    transfers of a command (M_axi.v: [master_write] / [master_read]), [opens e] tells that e is an AW or AR transfer,
    [epat e] lists the responses that answer e: one boolean per response, true if it is the last
    one of the burst.  [chk b r] is the check of rlast (985-988; nothing for B), [rtag r] is bid / rid,
    [ask c] the requested ID and [idn] is id_count.

    Simplifications: one transfer, one response per operation, finer than the code, which continues
    without a break while it does not block.  The commands are those for which the sender does not
    raise.  The channels are stream components (M_stream.v).  Tasks made with start_soon run in any order. *)
From Coq Require Import ZArith List Bool.
From Verif Require Import Py M_axi M_liteeng.
Import ListNotations.
Open Scope Z_scope.

(** state of a task variable: None, running, ended by an exception *)
Inductive tstat := TNone | TRun | TCrash.

Fixpoint set_nth {A} (n : nat) (x : A) (l : list A) : list A :=
  match n, l with
  | _, [] => []
  | O, _ :: l' => x :: l'
  | S n', y :: l' => y :: set_nth n' x l'
  end.

Section Engine.
Context {C E R : Type}.
Variable sends : C -> Z -> list E.
Variable opens : E -> bool.
Variable epat : E -> list bool.
Variable chk : bool -> R -> bool.
Variable rtag : R -> Z.
Variable ask : C -> option Z.
Variable idn : Z.

(** AxiWriteRespCmd / AxiReadRespCmd (57-64, 92-99): command, ends of its bursts (burst_list) *)
Definition rcm : Type := C * list bool.

(* ------------------------------------------------------------------ *)
(** * TagContext, 110-152 *)
Record ctx := { x_tag : option Z;                            (* current_tag *)
                x_cmdq : list rcm;                           (* _cmd_queue *)
                x_cur : option (rcm * option Z * list R);    (* _current_cmd; bid and the responses got, locals of _process *)
                x_respq : list R;                            (* _resp_queue *)
                x_task : tstat }.                            (* _cr *)

(** 111-117 *)
Definition ctx_new : ctx := {| x_tag := Some 0; x_cmdq := []; x_cur := None; x_respq := []; x_task := TNone |}.

(** TagContextManager, 155-160.  The idle list is kept with its end first. *)
Record mgr := { m_ctxs : list ctx; m_idle : list nat; m_map : list (Z * nat) }.
Definition mgr_new : mgr := {| m_ctxs := []; m_idle := []; m_map := [] |}.

Fixpoint lookup (t : Z) (l : list (Z * nat)) : option nat :=
  match l with [] => None | (t', i) :: l' => if t' =? t then Some i else lookup t l' end.
Definition remove_tag (t : Z) (l : list (Z * nat)) : list (Z * nat) := filter (fun p => negb (fst p =? t)) l.

(** 125-127: [_start] *)
Definition ctx_start (x : ctx) : ctx :=
  {| x_tag := x_tag x; x_cmdq := x_cmdq x; x_cur := x_cur x; x_respq := x_respq x;
     x_task := match x_task x with TNone => TRun | t => t end |}.
Definition ctx_tag (x : ctx) (t : option Z) : ctx :=
  {| x_tag := t; x_cmdq := x_cmdq x; x_cur := x_cur x; x_respq := x_respq x; x_task := x_task x |}.

(** 162-173: [_get_context] *)
Definition get_ctx (m : mgr) (t : Z) : mgr * nat :=
  match lookup t (m_map m) with
  | Some i => (m, i)
  | None =>
      let '(cs, idle, i) :=
        match m_idle m with
        | i :: idle => (m_ctxs m, idle, i)
        | [] => (m_ctxs m ++ [ctx_new], [], length (m_ctxs m))
        end in
      ({| m_ctxs := set_nth i (ctx_tag (ctx_start (nth i cs ctx_new)) (Some t)) cs;
          m_idle := idle; m_map := (t, i) :: m_map m |}, i)
  end.

Definition mgr_set (m : mgr) (i : nat) (x : ctx) : mgr :=
  {| m_ctxs := set_nth i x (m_ctxs m); m_idle := m_idle m; m_map := m_map m |}.

(** 175-177: [start_cmd] *)
Definition start_cmd (m : mgr) (t : Z) (c : rcm) : mgr :=
  let '(m', i) := get_ctx m t in
  let x := nth i (m_ctxs m') ctx_new in
  mgr_set m' i {| x_tag := x_tag x; x_cmdq := x_cmdq x ++ [c]; x_cur := x_cur x; x_respq := x_respq x;
                  x_task := x_task x |}.

(** 179-181: [put_resp] *)
Definition put_resp (m : mgr) (t : Z) (r : R) : mgr :=
  let '(m', i) := get_ctx m t in
  let x := nth i (m_ctxs m') ctx_new in
  mgr_set m' i {| x_tag := x_tag x; x_cmdq := x_cmdq x; x_cur := x_cur x; x_respq := x_respq x ++ [r];
                  x_task := x_task x |}.

(** 183-187: [_set_idle] *)
Definition set_idle (m : mgr) (i : nat) : mgr :=
  let x := nth i (m_ctxs m) ctx_new in
  let m' := match x_tag x with
            | Some t => match lookup t (m_map m) with
                        | Some _ => {| m_ctxs := m_ctxs m; m_idle := i :: m_idle m; m_map := remove_tag t (m_map m) |}
                        | None => m
                        end
            | None => m
            end in
  mgr_set m' i (ctx_tag x None).

(** 129-142: [_flush] *)
Definition ctx_flush (m : mgr) (i : nat) : mgr * list C :=
  let m1 := set_idle m i in
  let x := nth i (m_ctxs m1) ctx_new in
  (mgr_set m1 i {| x_tag := x_tag x; x_cmdq := []; x_cur := None; x_respq := []; x_task := TNone |},
   opt_list (fun p => fst (fst (fst p))) (x_cur x) ++ map fst (x_cmdq x)).

(** 189-193: [flush] *)
Fixpoint flush_from (m : mgr) (i : nat) (n : nat) : mgr * list C :=
  match n with
  | O => (m, [])
  | S n' => let '(m1, l1) := ctx_flush m i in let '(m2, l2) := flush_from m1 (S i) n' in (m2, l1 ++ l2)
  end.
Definition mgr_flush (m : mgr) : mgr * list C := flush_from m 0 (length (m_ctxs m)).

(* ------------------------------------------------------------------ *)
(** * The master *)
Record xeng := {
  e_pend : list C;                        (* init_*: wrapper tasks that did not run yet, 343 *)
  e_q : list C;                           (* write_command_queue *)
  e_cur : option (C * Z * list E);        (* current_write_command, with its awid and the transfers left *)
  e_wtask : tstat;                        (* _process_write_cr *)
  e_mgr : mgr;                            (* tag_context_manager *)
  e_rtask : tstat;                        (* _process_write_resp_cr *)
  e_act : Z -> Z;                         (* active_id *)
  e_id : Z;                               (* cur_id *)
  e_inflight : Z;                         (* in_flight_operations *)
  e_idle : bool }.                        (* _idle event is set *)

Definition xeng_init : xeng :=
  {| e_pend := []; e_q := []; e_cur := None; e_wtask := TRun; e_mgr := mgr_new; e_rtask := TRun;
     e_act := fun _ => 0; e_id := 0; e_inflight := 0; e_idle := true |}.

Inductive xop :=
| PIssue (c : C)         (* await write(...) / read(...), runs up to event.wait() *)
| PInit (c : C)          (* init_write(...) / init_read(...) *)
| PStart (n : nat)       (* the n-th waiting wrapper task runs *)
| PGet                   (* the sender takes a command *)
| PSend                  (* the sender's transfer is accepted by the channel *)
| PResp (r : R)          (* the response task receives r *)
| PCGet (i : nat)        (* the task of context i takes a command *)
| PCResp (i : nat)       (* the task of context i takes a response *)
| PReset (b : bool).     (* _handle_reset(b) *)

Inductive xout :=
| XStart (c : C)                              (* the operation is counted and queued *)
| XSent (e : E)                               (* a transfer was handed to its channel *)
| XResp (r : R)                               (* the response task received r *)
| XDone (c : C) (bid : option Z) (rs : list R)   (* event.set(result made of rs) *)
| XFlush (c : C)                              (* event.set(None) *)
| XReset                                      (* _handle_reset(True) is finished *)
| XCrash.                                     (* a task ended with an exception *)

(** 409-414 / 819-825 *)
Definition x_issue (s : xeng) (c : C) : xeng :=
  {| e_pend := e_pend s; e_q := e_q s ++ [c]; e_cur := e_cur s; e_wtask := e_wtask s; e_mgr := e_mgr s;
     e_rtask := e_rtask s; e_act := e_act s; e_id := e_id s; e_inflight := e_inflight s + 1; e_idle := false |}.
Definition x_set_pend (s : xeng) (l : list C) : xeng :=
  {| e_pend := l; e_q := e_q s; e_cur := e_cur s; e_wtask := e_wtask s; e_mgr := e_mgr s;
     e_rtask := e_rtask s; e_act := e_act s; e_id := e_id s; e_inflight := e_inflight s; e_idle := e_idle s |}.

Definition bump (f : Z -> Z) (t d : Z) : Z -> Z := fun u => if u =? t then f u + d else f u.

(** sender, with the transfers [l] of c left: 545 active_id[awid] += 1 right before the send of an AW; at the
    end 580-583 start_cmd and current_write_command = None *)
Definition x_go (s : xeng) (q : list C) (id : Z) (c : C) (t : Z) (l : list E) : xeng :=
  match l with
  | [] =>
      {| e_pend := e_pend s; e_q := q; e_cur := None; e_wtask := e_wtask s;
         e_mgr := start_cmd (e_mgr s) t (c, flat_map epat (sends c t));
         e_rtask := e_rtask s; e_act := e_act s; e_id := id; e_inflight := e_inflight s; e_idle := e_idle s |}
  | e :: _ =>
      {| e_pend := e_pend s; e_q := q; e_cur := Some (c, t, l); e_wtask := e_wtask s; e_mgr := e_mgr s;
         e_rtask := e_rtask s; e_act := if opens e then bump (e_act s) t 1 else e_act s; e_id := id;
         e_inflight := e_inflight s; e_idle := e_idle s |}
  end.

(** 496-500 / 905-909: the ID of a command and the next automatic ID *)
Definition x_choose (s : xeng) (c : C) : Z * Z :=
  match ask c with Some t => (t, e_id s) | None => (e_id s, (e_id s + 1) mod idn) end.

(** 588-596 / 953-961 *)
Definition x_resp (s : xeng) (r : R) : xeng * list xout :=
  if 0 <? e_act s (rtag r) then
    ({| e_pend := e_pend s; e_q := e_q s; e_cur := e_cur s; e_wtask := e_wtask s; e_mgr := put_resp (e_mgr s) (rtag r) r;
        e_rtask := e_rtask s; e_act := e_act s; e_id := e_id s; e_inflight := e_inflight s; e_idle := e_idle s |}, [XResp r])
  else
    ({| e_pend := e_pend s; e_q := e_q s; e_cur := e_cur s; e_wtask := e_wtask s; e_mgr := e_mgr s;
        e_rtask := TCrash; e_act := e_act s; e_id := e_id s; e_inflight := e_inflight s; e_idle := e_idle s |}, [XResp r; XCrash]).

Definition x_mgr (s : xeng) (m : mgr) (act : Z -> Z) (n : Z) (idle : bool) : xeng :=
  {| e_pend := e_pend s; e_q := e_q s; e_cur := e_cur s; e_wtask := e_wtask s; e_mgr := m;
     e_rtask := e_rtask s; e_act := act; e_id := e_id s; e_inflight := n; e_idle := idle |}.

(** context task i with command c and responses [got]: with all responses 627-635 / 1021-1035 set the event and
    count, 149-152 clear _current_cmd and become idle *)
Definition x_ctx (s : xeng) (i : nat) (x : ctx) (c : rcm) (bid : option Z) (got : list R) (cmdq : list rcm) (respq : list R)
  (act : Z -> Z) : xeng * list xout :=
  if Nat.leb (length (snd c)) (length got) then
    let m := mgr_set (e_mgr s) i {| x_tag := x_tag x; x_cmdq := cmdq; x_cur := None; x_respq := respq; x_task := x_task x |} in
    let m := match cmdq, respq with [], [] => set_idle m i | _, _ => m end in
    (x_mgr s m act (e_inflight s - 1) (if e_inflight s - 1 =? 0 then true else e_idle s), [XDone (fst c) bid got])
  else
    (x_mgr s (mgr_set (e_mgr s) i {| x_tag := x_tag x; x_cmdq := cmdq; x_cur := Some (c, bid, got); x_respq := respq;
                                     x_task := x_task x |}) act (e_inflight s) (e_idle s), []).

Definition act_of (f : Z -> Z) (bid : option Z) : Z := match bid with Some t => f t | None => 0 end.
Definition act_dec (f : Z -> Z) (bid : option Z) (b : bool) : Z -> Z :=
  match bid with Some t => if b then bump f t (-1) else f | None => f end.

(** 430-471 / 841-881.  The channels are cleared (their own models). *)
Definition x_reset (s : xeng) (b : bool) : xeng * list xout :=
  if b then
    let '(m, l) := mgr_flush (e_mgr s) in
    ({| e_pend := e_pend s; e_q := []; e_cur := None; e_wtask := TNone; e_mgr := m; e_rtask := TNone;
        e_act := fun _ => 0; e_id := 0; e_inflight := 0; e_idle := true |},
     map XFlush (e_q s ++ opt_list (fun p => fst (fst p)) (e_cur s) ++ l) ++ [XReset])
  else
    ({| e_pend := e_pend s; e_q := e_q s; e_cur := e_cur s;
        e_wtask := match e_wtask s with TNone => TRun | t => t end; e_mgr := e_mgr s;
        e_rtask := match e_rtask s with TNone => TRun | t => t end; e_act := e_act s; e_id := e_id s;
        e_inflight := e_inflight s; e_idle := e_idle s |}, []).

(** One operation; an operation that is not possible changes nothing. *)
Definition x_step (s : xeng) (o : xop) : xeng * list xout :=
  match o with
  | PIssue c => (x_issue s c, [XStart c])
  | PInit c => (x_set_pend s (e_pend s ++ [c]), [])
  | PStart n =>
      match nth_error (e_pend s) n with
      | Some c => (x_issue (x_set_pend s (firstn n (e_pend s) ++ skipn (S n) (e_pend s))) c, [XStart c])
      | None => (s, [])
      end
  | PGet =>
      match e_wtask s, e_cur s, e_q s with
      | TRun, None, c :: q' => let '(t, id') := x_choose s c in (x_go s q' id' c t (sends c t), [])
      | _, _, _ => (s, [])
      end
  | PSend =>
      match e_wtask s, e_cur s with
      | TRun, Some (c, t, e :: l) => (x_go s (e_q s) (e_id s) c t l, [XSent e])
      | _, _ => (s, [])
      end
  | PResp r => match e_rtask s with TRun => x_resp s r | _ => (s, []) end
  | PCGet i =>
      (* 144-147 *)
      match nth_error (m_ctxs (e_mgr s)) i with
      | Some x =>
          match x_task x, x_cur x, x_cmdq x with
          | TRun, None, c :: q' => x_ctx s i x c (x_tag x) [] q' (x_respq x) (e_act s)
          | _, _, _ => (s, [])
          end
      | None => (s, [])
      end
  | PCResp i =>
      (* 604-619 / 983-1021 *)
      match nth_error (m_ctxs (e_mgr s)) i with
      | Some x =>
          match x_task x, x_cur x, x_respq x with
          | TRun, Some (c, bid, got), r :: q' =>
              let b := nth (length got) (snd c) false in
              if (0 <? act_of (e_act s) bid) && chk b r then
                x_ctx s i x c bid (got ++ [r]) (x_cmdq x) q' (act_dec (e_act s) bid b)
              else
                (x_mgr s (mgr_set (e_mgr s) i {| x_tag := x_tag x; x_cmdq := x_cmdq x; x_cur := x_cur x; x_respq := q';
                                                 x_task := TCrash |}) (e_act s) (e_inflight s) (e_idle s), [XCrash])
          | _, _, _ => (s, [])
          end
      | None => (s, [])
      end
  | PReset b => x_reset s b
  end.

Fixpoint x_run (s : xeng) (h : list xop) : xeng * list xout :=
  match h with
  | [] => (s, [])
  | o :: h' => let '(s1, o1) := x_step s o in let '(s2, o2) := x_run s1 h' in (s2, o1 ++ o2)
  end.

(** 351-352 [idle()] *)
Definition x_is_idle (s : xeng) : bool := e_inflight s =? 0.
End Engine.
Arguments xop : clear implicits. Arguments xout : clear implicits. Arguments xeng : clear implicits.
Arguments ctx : clear implicits. Arguments mgr : clear implicits.

(** ** The two masters.  An operation is its number (standing for its event), the requested ID and the
    command. *)
Definition wop : Type := Z * option Z * wcmd.
Definition rop : Type := Z * option Z * rcmd.
Definition op_id {A} (o : Z * option Z * A) : option Z := snd (fst o).

Definition w_sends (c : mcfg) (o : wop) (t : Z) : list wev := fst (master_write c t (snd o)).
Definition w_opens (e : wev) : bool := match e with EvAW _ => true | EvW _ => false end.
Definition w_epat (e : wev) : list bool := match e with EvAW _ => [true] | EvW _ => [] end.
Definition w_chk (b : bool) (r : bch) : bool := true.
Definition r_sends (c : mcfg) (o : rop) (t : Z) : list axc := master_read c t (snd o).
Definition r_opens (e : axc) : bool := true.
(** burst_length = arlen + 1 responses *)
Definition r_epat (e : axc) : list bool := repeat false (Z.to_nat (ax_len e)) ++ [true].
Definition r_chk (b : bool) (r : rch) : bool := Bool.eqb (r_last r) b.

Definition w_step (c : mcfg) (idn : Z) := x_step (w_sends c) w_opens w_epat w_chk b_id op_id idn.
Definition r_step (c : mcfg) (idn : Z) := x_step (r_sends c) r_opens r_epat r_chk r_id op_id idn.
Definition w_run (c : mcfg) (idn : Z) := x_run (w_sends c) w_opens w_epat w_chk b_id op_id idn xeng_init.
Definition r_run (c : mcfg) (idn : Z) := x_run (r_sends c) r_opens r_epat r_chk r_id op_id idn xeng_init.
