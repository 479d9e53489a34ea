(** Model of the AXI-Lite master's and slave's data path: /repo/cocotbext/axi/axil_master.py,
    axil_slave.py, axil_ram.py.

    As in M_axi.v the tasks are functions from what they receive to what they send, in order; queues,
    scheduling and reset are modelled in M_liteeng.v and M_litesys.v.  Logging is left out. *)
From Coq Require Import ZArith List Bool.
From Verif Require Import Py M_axi.
Import ListNotations.
Open Scope Z_scope.

(** an AW or AR transfer (axil_channels.py 28-31, 46-49) *)
Record lax := { la_addr : Z; la_prot : Z }.
(** a W transfer (axil_channels.py 34-37) *)
Record lwd := { lw_data : Z; lw_strb : Z }.
(** an R transfer (axil_channels.py 52-55); a B transfer is its response *)
Record lrd := { lr_data : Z; lr_resp : resp_t }.

(** axil_master.py 40-44 AxiLiteWriteCmd, 62-66 AxiLiteReadCmd (without the event) *)
Record lwcmd := { lc_addr : Z; lc_data : list Z; lc_prot : Z }.
Record lrcmd := { lr_addr : Z; lr_len : Z; lr_prot : Z }.

(** axil_master.py 269 and 514 *)
Definition lite_cycles (L addr len : Z) : Z := (len + addr mod L + L - 1) / L.

Inductive lev := LAW (a : lax) | LW (w : lwd).

(** axil_master.py 280-292: lanes [start, stop) and strobe of cycle k *)
Definition lite_start (L addr k : Z) : Z := if k =? 0 then addr mod L else 0.
Definition lite_stop (L addr len cycles k : Z) : Z :=
  if k =? cycles - 1 then (addr + len - 1) mod L + 1 else L.
Definition lite_strb (L addr len cycles k : Z) : Z :=
  let strb := strb_mask L in
  let strb := if k =? 0 then Z.land strb (Z.land (Z.shiftl (strb_mask L) (addr mod L)) (strb_mask L)) else strb in
  if k =? cycles - 1 then Z.land strb (Z.shiftr (strb_mask L) (L - ((addr + len - 1) mod L + 1))) else strb.
(** axil_master.py 300-303 and 522-525 *)
Definition lite_addr (L addr k : Z) : Z := if k =? 0 then addr else addr / L * L + k * L.

(** axil_master.py 280-312: the loop of [_process_write] *)
Fixpoint lite_write_loop (L : Z) (cmd : lwcmd) (cycles : Z) (todo : nat) (k offset : Z)
  : list lev * res unit :=
  match todo with
  | O => ([], Ok tt)
  | S todo' =>
      match mw_val (lc_data cmd)
              (zrange (lite_start L (lc_addr cmd) k)
                      (lite_stop L (lc_addr cmd) (zlen (lc_data cmd)) cycles k)) offset 0 with
      | Err e => ([], Err e)
      | Ok (val, offset') =>
          let '(ev, r) := lite_write_loop L cmd cycles todo' (k + 1) offset' in
          (LAW {| la_addr := lite_addr L (lc_addr cmd) k; la_prot := lc_prot cmd |} ::
           LW {| lw_data := val; lw_strb := lite_strb L (lc_addr cmd) (zlen (lc_data cmd)) cycles k |} :: ev, r)
      end
  end.

(** axil_master.py 256-312: what is sent for a dequeued command *)
Definition lite_write (L : Z) (cmd : lwcmd) : list lev * res unit :=
  let cycles := lite_cycles L (lc_addr cmd) (zlen (lc_data cmd)) in
  lite_write_loop L cmd cycles (Z.to_nat cycles) 0 0.

Fixpoint law_of (l : list lev) : list lax :=
  match l with [] => [] | LAW a :: l' => a :: law_of l' | LW _ :: l' => law_of l' end.
Fixpoint lw_of (l : list lev) : list lwd :=
  match l with [] => [] | LAW _ :: l' => lw_of l' | LW w :: l' => w :: lw_of l' end.

(** axil_master.py 321-331: the response made of the responses to the words *)
Definition lite_write_resp (bs : list resp_t) : resp_t := fold_left agg_resp bs OKAY.

(** axil_master.py 507-530 *)
Definition lite_read (L : Z) (cmd : lrcmd) : list lax :=
  map (fun k => {| la_addr := lite_addr L (lr_addr cmd) k; la_prot := lr_prot cmd |})
      (zrange 0 (lite_cycles L (lr_addr cmd) (lr_len cmd))).

(** axil_master.py 546-566: for k in range(cmd.cycles); the responses are those received *)
Fixpoint lite_read_loop (L : Z) (cmd : lrcmd) (cycles k : Z) (rs : list lrd) (data : list Z) (resp : resp_t)
  : list Z * resp_t :=
  match rs with
  | [] => (data, resp)
  | r :: rs' =>
      lite_read_loop L cmd cycles (k + 1) rs'
        (data ++ beat_bytes (lr_data r) (lite_start L (lr_addr cmd) k)
                   (lite_stop L (lr_addr cmd) (lr_len cmd) cycles k))
        (agg_resp resp (lr_resp r))
  end.
Definition lite_read_resp (L : Z) (cmd : lrcmd) (rs : list lrd) : list Z * resp_t :=
  lite_read_loop L cmd (lite_cycles L (lr_addr cmd) (lr_len cmd)) 0 rs [] OKAY.

(* ------------------------------------------------------------------ *)
(** * Argument checks *)

(** axil_master.py 184-198 (also 159-171) and 436-447 (413-424); [aw] is the address width, [pp] tells
    whether the prot signal is present.  AxiProt.NONSECURE is 2. *)
Definition lite_write_args (aw : Z) (pp : bool) (addr : Z) (data : list Z + Z) (prot : Z) : res lwcmd :=
  if (addr <? 0) || (2 ^ aw <=? addr) then Err ValueError
  else match data with
       | inr _ => Err ValueError
       | inl d =>
           if 2 ^ aw <? addr + zlen d then Err ValueError
           else if negb pp && negb (prot =? 2) then Err ValueError
           else if forallb is_byteb d then Ok {| lc_addr := addr; lc_data := d; lc_prot := prot |}
           else Err ValueError   (* bytes(data) *)
       end.
Definition lite_read_args (aw : Z) (pp : bool) (addr len prot : Z) : res lrcmd :=
  if (addr <? 0) || (2 ^ aw <=? addr) then Err ValueError
  else if len <? 0 then Err ValueError
  else if 2 ^ aw <? addr + len then Err ValueError
  else if negb pp && negb (prot =? 2) then Err ValueError
  else Ok {| lr_addr := addr; lr_len := len; lr_prot := prot |}.

(* ------------------------------------------------------------------ *)
(** * Slave *)
Section Target.
  (** the target: [_write] / [_read] (axil_slave.py 89-90, 207-208) *)
  Variable T : Type.
  Variable t_write : T -> Z -> list Z -> T * res unit.
  Variable t_read : T -> Z -> Z -> T * res (list Z).

  (** axil_slave.py 107-158: one pass of [_process_write] with a received AW and W.  The code that
      collects and performs the write operations (136-156) is the same as axi_slave.py 157-190 and is
      modelled by [sw_ops] and [sw_perform].  to_bytes cannot overflow: wdata has 8*L bits. *)
  Definition lite_sw (L : Z) (sp : bool) (a : lax) (w : lwd) (t : T) : T * res resp_t :=
    let addr := la_addr a / L * L in
    let strb := if sp then lw_strb w else strb_mask L in
    match to_bytes (lw_data w) L Little with
    | Err e => (t, Err e)
    | Ok data =>
        let '(t', r) := sw_perform t_write t (sw_ops addr data strb (zrange 0 L) 0 None) in
        (t', Ok (match r with Ok _ => OKAY | Err _ => SLVERR end))
    end.

  (** the write task fed with the AW and W transfers received: responses sent, transfers left *)
  Fixpoint lite_slave_write (L : Z) (sp : bool) (aws : list lax) (ws : list lwd) (t : T)
    : T * list resp_t * res (list lax * list lwd) :=
    match aws, ws with
    | a :: aws', w :: ws' =>
        match lite_sw L sp a w t with
        | (t', Err e) => (t', [], Err e)
        | (t', Ok b) => let '(t'', bs, r) := lite_slave_write L sp aws' ws' t' in (t'', b :: bs, r)
        end
    | _, _ => (t, [], Ok (aws, ws))
    end.

  (** axil_slave.py 225-248: one pass of [_process_read] *)
  Definition lite_sr (L : Z) (a : lax) (t : T) : T * lrd :=
    let '(t', r) := t_read t (la_addr a / L * L) L in
    let '(data, resp) := match r with Ok d => (d, OKAY) | Err _ => (zeros L, SLVERR) end in
    (t', {| lr_data := le_int data; lr_resp := resp |}).

  Fixpoint lite_slave_read (L : Z) (ars : list lax) (t : T) : T * list lrd :=
    match ars with
    | [] => (t, [])
    | a :: ars' =>
        let '(t', r) := lite_sr L a t in
        let '(t'', rs) := lite_slave_read L ars' t' in (t'', r :: rs)
    end.
End Target.
Arguments lite_sw {T}. Arguments lite_slave_write {T}. Arguments lite_sr {T}. Arguments lite_slave_read {T}.

(** axil_ram.py 33-34 and 41-42 are the same as axi_ram.py 33-34 and 41-42: [ram_write], [ram_read]
    of M_axi.v. *)
