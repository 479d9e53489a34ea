(** Model of the AXI master's burst generation and response assembly
    (/repo/cocotbext/axi/axi_master.py) and of the AXI slave's burst processing
    (/repo/cocotbext/axi/axi_slave.py, axi_ram.py).

    The tasks are modelled as functions from what they receive to what they send, in order;
    queues, scheduling, IDs contexts and reset are modelled in M_axieng.v.
    Logging is left out.  Values put on a channel are integers (signal widths are the subject
    of theorem C20, not assumed). *)
From Coq Require Import ZArith List Bool.
From Verif Require Import Py M_sparse M_memory.
Import ListNotations.
Open Scope Z_scope.

(** constants.py 30-33 *)
Inductive burst_t := FIXED | INCR | WRAP.
(** constants.py 98-102 *)
Inductive resp_t := OKAY | EXOKAY | SLVERR | DECERR.

Definition burst_eqb (a b : burst_t) : bool :=
  match a, b with FIXED, FIXED | INCR, INCR | WRAP, WRAP => true | _, _ => false end.
Definition resp_eqb (a b : resp_t) : bool :=
  match a, b with
  | OKAY, OKAY | EXOKAY, EXOKAY | SLVERR, SLVERR | DECERR, DECERR => true | _, _ => false
  end.

(** sideband values that the master copies unchanged into every AW/AR transfer
    (axi_master.py 536-541 and 926-931) *)
Record side := { s_lock : Z; s_cache : Z; s_prot : Z; s_qos : Z; s_region : Z; s_user : Z }.

(** an AW or AR transfer; [ax_len] is the wire value, i.e. beats-1 (axi_channels.py 28-33, 49-54) *)
Record axc := { ax_id : Z; ax_addr : Z; ax_len : Z; ax_size : Z; ax_burst : burst_t; ax_side : side }.
(** a W transfer (axi_channels.py 36-40) *)
Record wch := { w_data : Z; w_strb : Z; w_last : bool; w_user : Z }.
(** a B transfer (axi_channels.py 43-47) *)
Record bch := { b_id : Z; b_resp : resp_t; b_user : Z }.
(** an R transfer (axi_channels.py 57-61) *)
Record rch := { r_id : Z; r_data : Z; r_resp : resp_t; r_last : bool; r_user : Z }.

(* ------------------------------------------------------------------ *)
(** * Master *)

(** axi_master.py 196-280 / 638-715: the part of the configuration used by the tasks.
    [m_lanes] is byte_lanes, [m_mbl] the constructor argument max_burst_len. *)
Record mcfg := { m_lanes : Z; m_mbl : Z }.

(** axi_master.py 234 / 678: max(min(max_burst_len, 256), 1) *)
Definition max_burst_len (c : mcfg) : Z := Z.max (Z.min (m_mbl c) 256) 1.
(** axi_master.py 232: strb_mask = 2**byte_lanes-1 *)
Definition strb_mask (lanes : Z) : Z := 2 ^ lanes - 1.
(** axi_master.py 235 / 679: (byte_lanes-1).bit_length() *)
Definition max_burst_size (lanes : Z) : Z := bit_length (lanes - 1).

(** wuser argument, after axi_master.py 398-403: an int or a list *)
Inductive wuser_t := WInt (u : Z) | WList (l : list Z).

(** axi_master.py 40-54 AxiWriteCmd (without the event) *)
Record wcmd := { wc_addr : Z; wc_data : list Z; wc_burst : burst_t; wc_size : Z;
                 wc_side : side; wc_wuser : wuser_t }.

(** what [_process_write] awaits on, in order: aw_channel.send(aw) or w_channel.send(w) *)
Inductive wev := EvAW (a : axc) | EvW (w : wch).

(** local variables of the loop at axi_master.py 506-578 *)
Record mwst := { mw_cur_addr : Z; mw_offset : Z; mw_cycle_offset : Z; mw_n : Z; mw_blen : Z }.

(** axi_master.py 517-520: val |= cmd.data[offset] << j*8; offset += 1, for j in range(start,stop) *)
Fixpoint mw_val (data : list Z) (js : list Z) (offset val : Z) : res (Z * Z) :=
  match js with
  | [] => Ok (val, offset)
  | j :: js' =>
      if offset <? zlen data
      then mw_val data js' (offset + 1) (Z.lor val (Z.shiftl (znth 0 data offset) (j * 8)))
      else Err IndexError
  end.

(** x << n, x >> n: ValueError for a negative count *)
Definition py_shl (x n : Z) : res Z := if n <? 0 then Err ValueError else Ok (Z.shiftl x n).
Definition py_shr (x n : Z) : res Z := if n <? 0 then Err ValueError else Ok (Z.shiftr x n).

(** axi_master.py 515 *)
Definition mw_strb (lanes start stop : Z) : res Z :=
  do a <- py_shl (strb_mask lanes) start;
  do b <- py_shr (strb_mask lanes) (lanes - stop);
  Ok (Z.land (Z.land a (strb_mask lanes)) b).

(** axi_master.py 526-529 and 908-911: burst length in beats, cut at max_burst_len and at the
    4 kB boundary.  [Z.land cur_addr 4095] is cur_addr & 0xfff. *)
Definition burst_len (c : mcfg) (cycles k num_bytes cur_addr : Z) : Z :=
  let bl := Z.min (cycles - k) (Z.min (Z.max (max_burst_len c) 1) 256) in
  (Z.min (bl * num_bytes) (4096 - Z.land cur_addr 4095) + num_bytes - 1) / num_bytes.

(** axi_master.py 563-569 *)
Definition mw_user (wu : wuser_t) (k : Z) : Z :=
  match wu with
  | WInt u => u
  | WList l => match l with [] => 0 | _ => if k <? zlen l then znth 0 l k else 0 end
  end.

(** axi_master.py 476-486: values computed before the loop *)
Definition num_bytes (size : Z) : Z := 2 ^ size.
Definition aligned_addr (addr size : Z) : Z := addr / num_bytes size * num_bytes size.
Definition word_addr (lanes addr : Z) : Z := addr / lanes * lanes.
Definition start_offset (lanes addr : Z) : Z := addr mod lanes.
Definition end_offset (lanes addr len : Z) : Z := (addr + len - 1) mod lanes + 1.
(** axi_master.py 484 and 893 (the two expressions differ only in the order of the summands) *)
Definition cycles_of (addr len size : Z) : Z :=
  (len + addr mod num_bytes size + num_bytes size - 1) / num_bytes size.

(** axi_master.py 572-577: next cur_addr *)
Definition next_addr (burst : burst_t) (addr size k cur : Z) : Z :=
  match burst with
  | FIXED => addr
  | _ => if k =? 0 then aligned_addr addr size + num_bytes size else cur + num_bytes size
  end.

(** One iteration of the loop at axi_master.py 506-578.  Returns the sends performed before the
    iteration ended or raised. *)
Definition mw_iter (c : mcfg) (awid : Z) (cmd : wcmd) (cycles k : Z) (st : mwst)
  : list wev * res mwst :=
  let L := m_lanes c in
  let nb := num_bytes (wc_size cmd) in
  let start := if k =? 0 then start_offset L (wc_addr cmd) else mw_cycle_offset st in
  let stop := if k =? cycles - 1 then end_offset L (wc_addr cmd) (zlen (wc_data cmd))
              else mw_cycle_offset st + nb in
  match mw_strb L start stop with
  | Err e => ([], Err e)
  | Ok strb =>
  match mw_val (wc_data cmd) (zrange start stop) (mw_offset st) 0 with
  | Err e => ([], Err e)
  | Ok (val, offset) =>
      let newb := mw_blen st <=? mw_n st in
      let bl := if newb then burst_len c cycles k nb (mw_cur_addr st) else mw_blen st in
      let n := (if newb then 0 else mw_n st) + 1 in
      let aw := {| ax_id := awid; ax_addr := mw_cur_addr st; ax_len := bl - 1;
                   ax_size := wc_size cmd; ax_burst := wc_burst cmd; ax_side := wc_side cmd |} in
      let w := {| w_data := val; w_strb := strb; w_last := bl <=? n;
                  w_user := mw_user (wc_wuser cmd) k |} in
      ((if newb then [EvAW aw] else []) ++ [EvW w],
       Ok {| mw_cur_addr := next_addr (wc_burst cmd) (wc_addr cmd) (wc_size cmd) k (mw_cur_addr st);
             mw_offset := offset;
             mw_cycle_offset := (mw_cycle_offset st + nb) mod L;
             mw_n := n; mw_blen := bl |})
  end end.

(** axi_master.py 506: for k in range(cycles); [todo] iterations are left *)
Fixpoint mw_loop (c : mcfg) (awid : Z) (cmd : wcmd) (cycles : Z) (todo : nat) (k : Z) (st : mwst)
  : list wev * res unit :=
  match todo with
  | O => ([], Ok tt)
  | S todo' =>
      let '(ev, r) := mw_iter c awid cmd cycles k st in
      match r with
      | Err e => (ev, Err e)
      | Ok st' => let '(ev', r') := mw_loop c awid cmd cycles todo' (k + 1) st' in (ev ++ ev', r')
      end
  end.

(** axi_master.py 473-580: one pass of [_process_write] for a dequeued command, with awid
    already chosen (496-500, modelled in M_axieng.v).  The burst_list that is passed on
    (580) is the list of burst lengths of the AW transfers sent, see [bursts_of]. *)
Definition master_write (c : mcfg) (awid : Z) (cmd : wcmd) : list wev * res unit :=
  let L := m_lanes c in
  let cycles := cycles_of (wc_addr cmd) (zlen (wc_data cmd)) (wc_size cmd) in
  mw_loop c awid cmd cycles (Z.to_nat cycles) 0
    {| mw_cur_addr := wc_addr cmd; mw_offset := 0;
       mw_cycle_offset := aligned_addr (wc_addr cmd) (wc_size cmd) - word_addr L (wc_addr cmd);
       mw_n := 0; mw_blen := 0 |}.

Fixpoint aw_of (l : list wev) : list axc :=
  match l with [] => [] | EvAW a :: l' => a :: aw_of l' | EvW _ :: l' => aw_of l' end.
Fixpoint w_of (l : list wev) : list wch :=
  match l with [] => [] | EvAW _ :: l' => w_of l' | EvW w :: l' => w :: w_of l' end.
(** axi_master.py 531 / 913: burst_list.append(burst_length) next to awlen = burst_length-1 *)
Definition bursts_of (l : list axc) : list Z := map (fun a => ax_len a + 1) l.

(** axi_master.py 83-95 AxiReadCmd (without the event) *)
Record rcmd := { rc_addr : Z; rc_len : Z; rc_burst : burst_t; rc_size : Z; rc_side : side }.

(** axi_master.py 910-946: for k in range(cycles) of [_process_read] *)
Fixpoint mr_loop (c : mcfg) (arid : Z) (cmd : rcmd) (cycles : Z) (todo : nat)
  (k cur n blen : Z) : list axc :=
  match todo with
  | O => []
  | S todo' =>
      let nb := num_bytes (rc_size cmd) in
      let n := n + 1 in
      let newb := blen <=? n in
      let n := if newb then 0 else n in
      let bl := if newb then burst_len c cycles k nb cur else blen in
      let ar := {| ax_id := arid; ax_addr := cur; ax_len := bl - 1; ax_size := rc_size cmd;
                   ax_burst := rc_burst cmd; ax_side := rc_side cmd |} in
      (if newb then [ar] else []) ++
      mr_loop c arid cmd cycles todo' (k + 1)
        (next_addr (rc_burst cmd) (rc_addr cmd) (rc_size cmd) k cur) n bl
  end.

(** axi_master.py 883-949: the AR transfers sent for a dequeued command *)
Definition master_read (c : mcfg) (arid : Z) (cmd : rcmd) : list axc :=
  let cycles := cycles_of (rc_addr cmd) (rc_len cmd) (rc_size cmd) in
  mr_loop c arid cmd cycles (Z.to_nat cycles) 0 (rc_addr cmd) 0 0.

(** axi_master.py 609-610 / 1004-1005: if resp != OKAY: resp = it *)
Definition agg_resp (acc r : resp_t) : resp_t := if resp_eqb r OKAY then acc else r.

(** axi_master.py 598-631 [_process_write_resp_id]: one B per burst is taken from the context's
    response queue [bs].  None: still waiting.  The active_id assertions are modelled in
    M_axieng.v.  Result: (resp, user list) and the responses left in the queue. *)
Fixpoint mw_resp (burst_list : list Z) (bs : list bch) (resp : resp_t) (user : list Z)
  : option (resp_t * list Z * list bch) :=
  match burst_list with
  | [] => Some (resp, user, bs)
  | _ :: bl =>
      match bs with
      | [] => None
      | b :: bs' => mw_resp bl bs' (agg_resp resp (b_resp b)) (user ++ [b_user b])
      end
  end.

(** state of the beat loop at axi_master.py 982-1019 *)
Record mrst := { mr_co : Z; mr_data : list Z; mr_resp : resp_t; mr_user : list Z; mr_first : bool }.

(** axi_master.py 1014-1015: data.append((cycle_data >> j*8) & 0xff) for j in range(start,stop) *)
Definition beat_bytes (cycle_data start stop : Z) : list Z :=
  map (fun j => Z.land (Z.shiftr cycle_data (j * 8)) 255) (zrange start stop).

(** axi_master.py 983-1019: one R beat; [lastk] is k == burst_length-1 *)
Definition mr_beat (lanes addr size : Z) (lastk : bool) (r : rch) (st : mrst) : res mrst :=
  if Bool.eqb (r_last r) lastk then
    let nb := num_bytes size in
    let start := if mr_first st then start_offset lanes addr else mr_co st in
    let stop := mr_co st + nb in
    Ok {| mr_co := (mr_co st + nb) mod lanes;
          mr_data := mr_data st ++ beat_bytes (r_data r) start stop;
          mr_resp := agg_resp (mr_resp st) (r_resp r);
          mr_user := mr_user st ++ [r_user r];
          mr_first := false |}
  else Err AssertionError.

(** axi_master.py 982: for k in range(burst_length); [todo] beats left. *)
Fixpoint mr_burst (lanes addr size : Z) (todo : nat) (rs : list rch) (st : mrst)
  : option (res (mrst * list rch)) :=
  match todo with
  | O => Some (Ok (st, rs))
  | S todo' =>
      match rs with
      | [] => None
      | r :: rs' =>
          match mr_beat lanes addr size (Nat.eqb todo' 0) r st with
          | Err e => Some (Err e)
          | Ok st' => mr_burst lanes addr size todo' rs' st'
          end
      end
  end.

(** axi_master.py 981 *)
Fixpoint mr_bursts (lanes addr size : Z) (bl : list Z) (rs : list rch) (st : mrst)
  : option (res (mrst * list rch)) :=
  match bl with
  | [] => Some (Ok (st, rs))
  | b :: bl' =>
      match mr_burst lanes addr size (Z.to_nat b) rs st with
      | Some (Ok (st', rs')) => mr_bursts lanes addr size bl' rs' st'
      | r => r
      end
  end.

(** axi_master.py 963-1031 [_process_read_resp_id]; 1025: data[:cmd.length].
    None: still waiting for responses. *)
Definition master_read_resp (c : mcfg) (cmd : rcmd) (bl : list Z) (rs : list rch)
  : option (res (list Z * resp_t * list Z * list rch)) :=
  let L := m_lanes c in
  match mr_bursts L (rc_addr cmd) (rc_size cmd) bl rs
          {| mr_co := aligned_addr (rc_addr cmd) (rc_size cmd) - word_addr L (rc_addr cmd);
             mr_data := []; mr_resp := OKAY; mr_user := []; mr_first := true |} with
  | None => None
  | Some (Err e) => Some (Err e)
  | Some (Ok (st, rs')) => Some (Ok (zslice (mr_data st) 0 (rc_len cmd), mr_resp st, mr_user st, rs'))
  end.

(* ------------------------------------------------------------------ *)
(** * Slave *)

(** axi_slave.py 122-139 (burst set up), also 285-302 *)
Record sst := { ss_id : Z; ss_nb : Z; ss_left : Z; ss_burst : burst_t;
                ss_lo : Z; ss_hi : Z; ss_cur : Z; ss_resp : resp_t }.

(** axi_slave.py 114-144 / 277-307: start of a burst.  [ss_left] counts the beats to go. *)
Definition sl_start (lanes : Z) (a : axc) : res sst :=
  let nb := num_bytes (ax_size a) in
  if (0 <? nb) && (nb <=? lanes) then
    let aligned := ax_addr a / nb * nb in
    let length := ax_len a + 1 in
    let ts := nb * length in
    let lo := ax_addr a / ts * ts in
    if burst_eqb (ax_burst a) INCR && (4096 - Z.land aligned 4095 <? ts) then Err AssertionError
    else Ok {| ss_id := ax_id a; ss_nb := nb; ss_left := length; ss_burst := ax_burst a;
               ss_lo := lo; ss_hi := lo + ts; ss_cur := aligned; ss_resp := OKAY |}
  else Err AssertionError.

(** axi_slave.py 193-198 / 331-336: address of the next beat *)
Definition sl_next (s : sst) : Z :=
  match ss_burst s with
  | FIXED => ss_cur s
  | INCR => ss_cur s + ss_nb s
  | WRAP => if ss_cur s + ss_nb s =? ss_hi s then ss_lo s else ss_cur s + ss_nb s
  end.

(** axi_slave.py 157-180: maximal runs of strobed lanes.  [i] is offset as well as i. *)
Fixpoint sw_ops (word : Z) (data : list Z) (strb : Z) (is : list Z) (i : Z) (so : option Z)
  : list (Z * list Z) :=
  let flush := match so with
               | Some s => if i =? s then [] else [(word + s, zslice data s i)]
               | None => [] end in
  match is with
  | [] => flush
  | l :: is' =>
      if Z.testbit strb l
      then sw_ops word data strb is' (i + 1) (match so with None => Some i | Some s => Some s end)
      else flush ++ sw_ops word data strb is' (i + 1) None
  end.

Section Target.
  (** the target: AxiSlaveWrite._write / AxiSlaveRead._read (axi_slave.py 95-96, 258-259),
      any state-transforming functions that may raise *)
  Variable T : Type.
  Variable t_write : T -> Z -> list Z -> T * res unit.
  Variable t_read : T -> Z -> Z -> T * res (list Z).

  (** axi_slave.py 183-185: for addr, data in write_ops, stops at the first exception *)
  Fixpoint sw_perform (t : T) (ops : list (Z * list Z)) : T * res unit :=
    match ops with
    | [] => (t, Ok tt)
    | (a, d) :: ops' =>
        match t_write t a d with
        | (t', Ok _) => sw_perform t' ops'
        | (t', Err e) => (t', Err e)
        end
    end.

  (** axi_slave.py 140-198: one beat; [strb_present] is self.wstrb_present *)
  Definition sw_beat (lanes : Z) (strb_present : bool) (s : sst) (w : wch) (t : T) : T * res sst :=
    let word := ss_cur s / lanes * lanes in
    let strb := if strb_present then w_strb w else strb_mask lanes in
    match to_bytes (w_data w) lanes Little with
    | Err e => (t, Err e)
    | Ok data =>
        let '(t', r) := sw_perform t (sw_ops word data strb (zrange 0 lanes) 0 None) in
        let resp := match r with Ok _ => ss_resp s | Err _ => SLVERR end in
        if Bool.eqb (w_last w) (ss_left s =? 1)
        then (t', Ok {| ss_id := ss_id s; ss_nb := ss_nb s; ss_left := ss_left s - 1;
                        ss_burst := ss_burst s; ss_lo := ss_lo s; ss_hi := ss_hi s;
                        ss_cur := sl_next s; ss_resp := resp |})
        else (t', Err AssertionError)
    end.

  (** axi_slave.py 142-202: all beats of a burst.  None: waiting for W. *)
  Fixpoint sw_beats (lanes : Z) (strb_present : bool) (todo : nat) (s : sst) (ws : list wch) (t : T)
    : T * option (res (bch * list wch)) :=
    match todo with
    | O => (t, Some (Ok ({| b_id := ss_id s; b_resp := ss_resp s; b_user := 0 |}, ws)))
    | S todo' =>
        match ws with
        | [] => (t, None)
        | w :: ws' =>
            match sw_beat lanes strb_present s w t with
            | (t', Err e) => (t', Some (Err e))
            | (t', Ok s') => sw_beats lanes strb_present todo' s' ws' t'
            end
        end
    end.

  (** axi_slave.py 113-200: one burst *)
  Definition sw_burst (lanes : Z) (strb_present : bool) (a : axc) (ws : list wch) (t : T)
    : T * option (res (bch * list wch)) :=
    match sl_start lanes a with
    | Err e => (t, Some (Err e))
    | Ok s => sw_beats lanes strb_present (Z.to_nat (ss_left s)) s ws t
    end.

  (** axi_slave.py 113-203: the write task fed with the AW and W transfers received.
      Result: B transfers sent; Err if the task died in an assertion; the transfers not
      consumed when it is waiting. *)
  Fixpoint slave_write (lanes : Z) (strb_present : bool) (aws : list axc) (ws : list wch) (t : T)
    : T * list bch * res (list wch) :=
    match aws with
    | [] => (t, [], Ok ws)
    | a :: aws' =>
        match sw_burst lanes strb_present a ws t with
        | (t', None) => (t', [], Ok [])
        | (t', Some (Err e)) => (t', [], Err e)
        | (t', Some (Ok (b, ws'))) =>
            let '(t'', bs, r) := slave_write lanes strb_present aws' ws' t' in (t'', b :: bs, r)
        end
    end.

  (** axi_slave.py 306-336: one R beat *)
  Definition sr_beat (lanes : Z) (s : sst) (t : T) : T * rch * sst :=
    let word := ss_cur s / lanes * lanes in
    let '(t', r) := t_read t word lanes in
    let '(data, resp) := match r with Ok d => (d, OKAY) | Err _ => (zeros lanes, SLVERR) end in
    (t', {| r_id := ss_id s; r_data := le_int data; r_resp := resp; r_last := ss_left s =? 1;
            r_user := 0 |},
     {| ss_id := ss_id s; ss_nb := ss_nb s; ss_left := ss_left s - 1;
        ss_burst := ss_burst s; ss_lo := ss_lo s; ss_hi := ss_hi s;
        ss_cur := sl_next s; ss_resp := ss_resp s |}).

  Fixpoint sr_beats (lanes : Z) (todo : nat) (s : sst) (t : T) : T * list rch :=
    match todo with
    | O => (t, [])
    | S todo' =>
        let '(t', r, s') := sr_beat lanes s t in
        let '(t'', rs) := sr_beats lanes todo' s' t' in (t'', r :: rs)
    end.

  (** axi_slave.py 276-336: the read task fed with the AR transfers received *)
  Fixpoint slave_read (lanes : Z) (ars : list axc) (t : T) : T * list rch * res unit :=
    match ars with
    | [] => (t, [], Ok tt)
    | a :: ars' =>
        match sl_start lanes a with
        | Err e => (t, [], Err e)
        | Ok s =>
            let '(t', rs) := sr_beats lanes (Z.to_nat (ss_left s)) s t in
            let '(t'', rs', r) := slave_read lanes ars' t' in (t'', rs ++ rs', r)
        end
    end.
End Target.
Arguments sw_perform {T}. Arguments sw_beat {T}. Arguments sw_beats {T}. Arguments sw_burst {T}.
Arguments slave_write {T}. Arguments sr_beat {T}. Arguments sr_beats {T}. Arguments slave_read {T}.

(* ------------------------------------------------------------------ *)
(** * AxiRam targets *)

(** axi_ram.py 33-34: self.write(address % self.size, data), self.size = len(mem) *)
Definition ram_write (m : sparse) (address : Z) (data : list Z) : sparse * res unit :=
  mem_write m (address mod sm_size m) data.
(** axi_ram.py 41-42 *)
Definition ram_read (m : sparse) (address length : Z) : sparse * res (list Z) :=
  (m, mem_read m (address mod sm_size m) length).
