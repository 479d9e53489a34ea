(** Model of the masters as memory interfaces and as regions of an address space: axi_master.py 196, 638, 1038, axil_master.py
    86, 346, 582, apb.py 130 derive from Region (address_space.py 183-185), so that read_words ... write_qword (74-129) and
    create_window (131-136) work on them and register_region (286-296) takes them.

    One read() or write() of a master together with what its slave does for it is one step; that the slave's target then is as
    given here, whatever the schedule, is C52, C54, C56, C57, C35.  The slave is AxiSlave, AxiLiteSlave or ApbSlave with any target [T], which nobody
    else accesses.  No reset during the call. *)
From Coq Require Import ZArith List Bool.
From Verif Require Import Py M_sparse M_memory M_buddy M_aspace M_axi M_axiargs M_axil.
Import ListNotations.
Open Scope Z_scope.

(** a master with its bus: AxiMaster (address, ID and data width, signals present, max_burst_len, IDs the master uses for writes
    and reads), AxiLiteMaster (byte lanes, address width, prot present), ApbMaster (the same, pslverr present) *)
Inductive bus :=
| BusAxi (c : acfg) (mbl idw idr : Z)
| BusLite (lanes aw : Z) (prot : bool)
| BusApb (lanes aw : Z) (prot slverr : bool).
Definition bus_lanes (b : bus) : Z := match b with BusAxi c _ _ _ => ac_lanes c | BusLite l _ _ | BusApb l _ _ _ => l end.
Definition bus_aw (b : bus) : Z := match b with BusAxi c _ _ _ => ac_aw c | BusLite _ a _ | BusApb _ a _ _ => a end.

(** axi_master.py 357-358, 780-781: the default arguments; AxiBurstType.INCR is 1, AxiProt.NONSECURE 2 *)
Definition dflt_side : side := {| s_lock := 0; s_cache := 3; s_prot := 2; s_qos := 0; s_region := 0; s_user := 0 |}.
Definition dflt (a : Z) : cargs := {| g_addr := a; g_id := None; g_burst := 1; g_size := None; g_side := dflt_side |}.

Section Bus.
Context {T : Type}.
Variable tw : T -> Z -> list Z -> T * res unit.
Variable tr : T -> Z -> Z -> T * res (list Z).

(** [await master.write(address, data)]: axi_master.py 357-423, 1075-1078; axil_master.py 184-206, 615-616; apb.py 250-271.  The
    result is the response (address and length of it are the arguments).  OutOfFuel: the call would not return. *)
Definition bus_wr (b : bus) (t : T) (a : Z) (d : list Z) : T * res resp_t :=
  match b with
  | BusAxi c mbl idw _ =>
      match write_args c {| wa_com := dflt a; wa_data := DSeq d; wa_wuser := UInt 0 |} with
      | Err e => (t, Err e)
      | Ok (_, cmd) =>
          let evs := fst (master_write {| m_lanes := ac_lanes c; m_mbl := mbl |} idw cmd) in
          let '(t', bs, _) := slave_write tw (ac_lanes c) true (aw_of evs) (w_of evs) t in
          (t', match mw_resp (bursts_of (aw_of evs)) bs OKAY [] with Some (r, _, _) => Ok r | None => Err OutOfFuel end)
      end
  | BusLite L aw pp =>
      match lite_write_args aw pp a (inl d) 2 with
      | Err e => (t, Err e)
      | Ok cmd =>
          let evs := fst (lite_write L cmd) in
          let '(t', bs, _) := lite_slave_write tw L true (law_of evs) (lw_of evs) t in (t', Ok (lite_write_resp bs))
      end
  | BusApb L aw pp ep =>
      match lite_write_args aw pp a (inl d) 2 with
      | Err e => (t, Err e)
      | Ok cmd =>
          let evs := fst (lite_write L cmd) in
          let '(t', bs, _) := lite_slave_write tw L true (law_of evs) (lw_of evs) t in
          (t', Ok (if ep then lite_write_resp bs else OKAY))
      end
  end.
(** [await master.read(address, length)]: axi_master.py 780-834, 1070-1073; axil_master.py 436-455, 612-613; apb.py 276-297.
    The data and the response of the result *)
Definition bus_rd (b : bus) (t : T) (a n : Z) : T * res (list Z * resp_t) :=
  match b with
  | BusAxi c mbl _ idr =>
      match read_args c {| ra_com := dflt a; ra_len := n |} with
      | Err e => (t, Err e)
      | Ok (_, cmd) =>
          let mc := {| m_lanes := ac_lanes c; m_mbl := mbl |} in
          let ars := master_read mc idr cmd in
          let '(t', rs, _) := slave_read tr (ac_lanes c) ars t in
          (t', match master_read_resp mc cmd (bursts_of ars) rs with
               | Some (Ok (d, r, _, _)) => Ok (d, r)
               | Some (Err e) => Err e
               | None => Err OutOfFuel
               end)
      end
  | BusLite L aw pp =>
      match lite_read_args aw pp a n 2 with
      | Err e => (t, Err e)
      | Ok cmd => let '(t', rs) := lite_slave_read tr L (lite_read L cmd) t in (t', Ok (lite_read_resp L cmd rs))
      end
  | BusApb L aw pp ep =>
      match lite_read_args aw pp a n 2 with
      | Err e => (t, Err e)
      | Ok cmd => let '(t', rs) := lite_slave_read tr L (lite_read L cmd) t in
                  (t', Ok (fst (lite_read_resp L cmd rs), if ep then snd (lite_read_resp L cmd rs) else OKAY))
      end
  end.

(** the same calls where only the bytes are of interest: address_space.py 311 [bytes(await region.read(..))], which is the
    data of the result (axi_master.py 106-107, axil_master.py 82-83, apb.py 66-67), and 332 [await region.write(..)], whose result is dropped *)
Definition reg_wr (b : bus) (t : T) (a : Z) (d : list Z) : T * res unit :=
  let '(t', r) := bus_wr b t a d in (t', do _ <- r; Ok tt).
Definition reg_rd (b : bus) (t : T) (a n : Z) : T * res (list Z) :=
  let '(t', r) := bus_rd b t a n in (t', do x <- r; Ok (fst x)).

(** ** The word and byte accessors of a master: address_space.py 74-129 *)
(** 74-79 *)
Definition m_read_words (b : bus) (t : T) (a count : Z) (bo : byteorder) (ws : Z) : T * res (list Z) :=
  let '(t', r) := reg_rd b t a (count * ws) in (t', do data <- r; Ok (bytes_to_words data count bo ws)).
(** 106-111 *)
Definition m_write_words (b : bus) (t : T) (a : Z) (words : list Z) (bo : byteorder) (ws : Z) : T * res unit :=
  match words_to_bytes words bo ws with Err e => (t, Err e) | Ok data => reg_wr b t a data end.
(** 87-88: [.data[0]] of the result *)
Definition m_read_byte (b : bus) (t : T) (a : Z) : T * res Z :=
  let '(t', r) := bus_rd b t a 1 in
  (t', do x <- r; match fst x with y :: _ => Ok y | [] => Err IndexError end).
(** 119-120: a list of one int; [bytes(data)] in write() *)
Definition m_write_byte (b : bus) (t : T) (a y : Z) : T * res unit := reg_wr b t a [y].
End Bus.

(** buses behind each other: the slave of each has an address space with the next master at address 0 as target *)
Fixpoint through {T} (bs : list bus) (tw : T -> Z -> list Z -> T * res unit) (tr : T -> Z -> Z -> T * res (list Z))
  : (T -> Z -> list Z -> T * res unit) * (T -> Z -> Z -> T * res (list Z)) :=
  match bs with
  | [] => (tw, tr)
  | b :: bs' => let '(w, r) := through bs' tw tr in (reg_wr w b, reg_rd r b)
  end.

(** ** A master as a region *)
Section Region.
Context {T : Type}.
Variable tw : T -> Z -> list Z -> T * res unit.
Variable tr : T -> Z -> Z -> T * res (list Z).
Variable b : bus.
Variable t0 : T.
(** the target after a sequence of calls of the master *)
Definition bus_after (log : list pcall) : T :=
  fold_left (fun t c => match c with PRead a n => fst (reg_rd tr b t a n) | PWrite a d => fst (reg_wr tw b t a d) end) log t0.
(** a new master as an object of the heap of M_aspace.v; its size is 2**address_width (axi_master.py 252, 689, 1046, axil_master.py 128, 384, 590,
    apb.py 163).  It has read() and write() of its own, not those of MemoryInterface (address_space.py 70-72, 102-104), but
    these check the range in the same way: C72_master_checks_range. *)
Definition new_bus (h : heap) : heap * res nat :=
  new_periph h true (fun log a n => snd (reg_rd tr b (bus_after log) a n))
    (fun log a d => snd (reg_wr tw b (bus_after log) a d)) (2 ^ bus_aw b).
End Region.

(** ** A master itself as target of AxiLiteSlave(target=master), without an address space in between *)
(** what target.read() may give: bytes, or the result object of a master, a NamedTuple (address, data, resp) *)
Inductive rdval := RBytes (d : list Z) | RTuple (address : Z) (d : list Z) (r : resp_t).
(** int.from_bytes and bytes() use __bytes__ *)
Definition rd_bytes (v : rdval) : list Z := match v with RBytes d | RTuple _ d _ => d end.
(** axil_slave.py 246-248: f'{c:02x}' for c in data; the element [data] of a result object is bytes, which have no such format *)
Definition log_line (v : rdval) : res unit := match v with RBytes _ => Ok tt | RTuple _ _ _ => Err TypeError end.

(** axil_slave.py 225-248, with the log line; [info]: the log level is INFO or lower.  Err: the task has ended with the
    exception, later transfers are not answered *)
Fixpoint lite_slave_read_log {T} (trv : T -> Z -> Z -> T * res rdval) (info : bool) (L : Z) (ars : list lax) (t : T)
  : T * list lrd * res unit :=
  match ars with
  | [] => (t, [], Ok tt)
  | a :: ars' =>
      let '(t', r) := trv t (la_addr a / L * L) L in
      let '(v, resp) := match r with Ok v => (v, OKAY) | Err _ => (RBytes (zeros L), SLVERR) end in
      let x := {| lr_data := le_int (rd_bytes v); lr_resp := resp |} in
      match (if info then log_line v else Ok tt) with
      | Err e => (t', [x], Err e)
      | Ok _ => let '(t'', rs, r) := lite_slave_read_log trv info L ars' t' in (t'', x :: rs, r)
      end
  end.
(** target.read() of a master *)
Definition direct_rd {T} (tr : T -> Z -> Z -> T * res (list Z)) (b : bus) (t : T) (a n : Z) : T * res rdval :=
  let '(t', r) := bus_rd tr b t a n in (t', do x <- r; Ok (RTuple a (fst x) (snd x))).
