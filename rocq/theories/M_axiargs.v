(** Model of the argument checks of AxiMasterWrite.write / init_write and AxiMasterRead.read /
    init_read (/repo/cocotbext/axi/axi_master.py 282-348, 357-423, 717-777, 788-834).

    Integer arguments are Z.  [data] may also be an int, or any sequence of ints; other Python
    types are not modelled.  AxiProt is an IntFlag and keeps every integer.  The event argument
    of init_* is assumed to be an Event. *)
From Coq Require Import ZArith List Bool.
From Verif Require Import Py M_axi.
Import ListNotations.
Open Scope Z_scope.

(** axi_master.py 237-245 / 681-687: hasattr(bus, ...) *)
Record present := { p_lock : bool; p_cache : bool; p_prot : bool; p_qos : bool; p_region : bool;
                    p_user : bool; p_wuser : bool }.
(** axi_master.py 227-235: address_width, id_width, byte_lanes *)
Record acfg := { ac_aw : Z; ac_idw : Z; ac_lanes : Z; ac_pres : present }.
(** axi_master.py 222 / 662: id_count = 2**len(awid) *)
Definition id_count (c : acfg) : Z := 2 ^ ac_idw c.

Inductive dataarg := DInt (z : Z) | DSeq (l : list Z).
Inductive wuarg := UNone | UInt (z : Z) | USeq (l : list Z).

(** arguments common to write and read *)
Record cargs := { g_addr : Z; g_id : option Z; g_burst : Z; g_size : option Z; g_side : side }.
Record wargs := { wa_com : cargs; wa_data : dataarg; wa_wuser : wuarg }.
Record rargs := { ra_com : cargs; ra_len : Z }.

(** constants.py 30-33: AxiBurstType(burst) *)
Definition burst_of (b : Z) : res burst_t :=
  if b =? 0 then Ok FIXED else if b =? 1 then Ok INCR else if b =? 2 then Ok WRAP else Err ValueError.

Definition check (ok : bool) : res unit := if ok then Ok tt else Err ValueError.

(** axi_master.py 371-374 *)
Definition id_arg (c : acfg) (i : option Z) : res (option Z) :=
  match i with
  | None => Ok None
  | Some i => if i <? 0 then Ok None else if id_count c <? i then Err ValueError else Ok (Some i)
  end.

(** axi_master.py 378-381 *)
Definition size_arg (c : acfg) (s : option Z) : res Z :=
  match s with
  | None => Ok (max_burst_size (ac_lanes c))
  | Some s => if s <? 0 then Ok (max_burst_size (ac_lanes c))
              else if max_burst_size (ac_lanes c) <? s then Err ValueError else Ok s
  end.

(** axi_master.py 371-402 / 796-827: ID, burst, size, lock and sideband checks, in order *)
Definition com_check (c : acfg) (g : cargs) : res (option Z * burst_t * Z) :=
  let p := ac_pres c in
  let s := g_side g in
  do i <- id_arg c (g_id g);
  do b <- burst_of (g_burst g);
  do sz <- size_arg c (g_size g);
  do _ <- check ((s_lock s =? 0) || (s_lock s =? 1));
  do _ <- check (p_lock p || (s_lock s =? 0));
  do _ <- check (p_cache p || (s_cache s =? 3));
  do _ <- check (p_prot p || (s_prot s =? 2));
  do _ <- check (p_qos p || (s_qos s =? 0));
  do _ <- check (p_region p || (s_region s =? 0));
  do _ <- check (p_user p || (s_user s =? 0));
  Ok (i, b, sz).

(** axi_master.py 357-420: the queued command with the requested ID, or the exception *)
Definition write_args (c : acfg) (a : wargs) : res (option Z * wcmd) :=
  let g := wa_com a in
  do _ <- check (negb ((g_addr g <? 0) || (2 ^ ac_aw c <=? g_addr g)));
  match wa_data a with
  | DInt _ => Err ValueError
  | DSeq d =>
      do _ <- check ((g_burst g =? 0) || (g_addr g + zlen d <=? 2 ^ ac_aw c));
      do x <- com_check c g;
      do _ <- check (p_wuser (ac_pres c) || match wa_wuser a with UInt u => u =? 0 | _ => false end);
      (* data = bytes(data) *)
      do _ <- check (forallb is_byteb d);
      let '(i, b, sz) := x in
      Ok (i, {| wc_addr := g_addr g; wc_data := d; wc_burst := b; wc_size := sz; wc_side := g_side g;
                wc_wuser := match wa_wuser a with UNone => WInt 0 | UInt u => WInt u | USeq l => WList l end |})
  end.

(** axi_master.py 788-832 *)
Definition read_args (c : acfg) (a : rargs) : res (option Z * rcmd) :=
  let g := ra_com a in
  do _ <- check (negb ((g_addr g <? 0) || (2 ^ ac_aw c <=? g_addr g)));
  do _ <- check (negb (ra_len a <? 0));
  do _ <- check ((g_burst g =? 0) || (g_addr g + ra_len a <=? 2 ^ ac_aw c));
  do x <- com_check c g;
  let '(i, b, sz) := x in
  Ok (i, {| rc_addr := g_addr g; rc_len := ra_len a; rc_burst := b; rc_size := sz; rc_side := g_side g |}).

(** the state the call changes: (in_flight_operations, command queue); axi_master.py 415-420, 826-832 *)
Definition call {A} (r : res A) (st : Z * list A) : Z * list A * res unit :=
  match r with
  | Ok x => (fst st + 1, snd st ++ [x], Ok tt)
  | Err e => (st, Err e)
  end.
