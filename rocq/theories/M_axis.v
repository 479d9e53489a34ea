(** Model of AxiStreamSource, AxiStreamMonitor and AxiStreamSink (/repo/cocotbext/axi/axis.py 256-849).

    State machines over operations, as in M_stream.v: API calls, clock edges and (for the
    monitor) signal changes.  Tasks run to their next await; a clock edge samples the values from
    before it.

    Simplifications: tvalid is present, the other optional signals are given by the
    configuration; signals are unbounded ints (values that do not fit a signal raise in cocotb);
    a frame in the source queue is paired with a tag that identifies its tx_complete, and
    handle_tx_complete (163-167) appends the tag to a log; simulation times and the [active] flag of
    monitor and sink are left out; blocking send/recv/read are modelled at the moment they proceed.
    If normalize raises, the task ends (cocotb reports the exception): the task is then dead. *)
From Coq Require Import ZArith List Bool.
From Verif Require Import Py M_stream M_axisframe.
Import ListNotations.
Open Scope Z_scope.

(** axis.py 268-347: what the components derive from the bus; a byte has [x_bsize] bits *)
Record scfg := { x_lanes : Z; x_bsize : Z; x_ready : bool; x_last : bool; x_keep : bool; x_id : bool; x_dest : bool; x_user : bool }.

(** values of tdata, tkeep, tid, tdest, tuser, tlast *)
Record beat := { b_data : Z; b_keep : Z; b_id : Z; b_dest : Z; b_user : Z; b_last : bool }.
Definition zero_beat : beat := {| b_data := 0; b_keep := 0; b_id := 0; b_dest := 0; b_user := 0; b_last := false |}.

Definition byte_mask (c : scfg) : Z := 2 ^ x_bsize c - 1.
Definition sbl (s : sb) : list Z := match s with SList l => l | _ => [] end.
Definition keepl (f : frame) : list Z := match f_keep f with Some k => k | None => [] end.

(* ------------------------------------------------------------------ *)
(** * AxiStreamSource *)

(** axis.py 555-569: the loop over the byte lanes from [offset] on; the frame is normalized.
    Result: beat, new frame_offset, frame finished. *)
Fixpoint drive (c : scfg) (f : frame) (n : nat) (offset fo : Z) (b : beat) : beat * Z * bool :=
  match n with
  | O => (b, fo, false)
  | S n' =>
      let data := Z.lor (b_data b) (Z.shiftl (Z.land (znth 0 (f_data f) fo) (byte_mask c)) (offset * x_bsize c)) in
      let keep := Z.lor (b_keep b) (Z.shiftl (Z.land (znth 0 (keepl f) fo) 1) offset) in
      let id := znth 0 (sbl (f_id f)) fo in
      let dest := znth 0 (sbl (f_dest f)) fo in
      let user := znth 0 (sbl (f_user f)) fo in
      let fin := zlen (f_data f) <=? fo + 1 in
      let b' := {| b_data := data; b_keep := keep; b_id := id; b_dest := dest; b_user := user; b_last := fin |} in
      if fin then (b', fo + 1, true) else drive c f n' (offset + 1) (fo + 1) b'
  end.

(** axis.py 548-569 *)
Definition drive_beat (c : scfg) (f : frame) (fo : Z) : beat * Z * bool :=
  drive c f (Z.to_nat (x_lanes c)) 0 fo zero_beat.

(** a frame with its tag *)
Definition tframe := (Z * frame)%type.
(** [frame] as a truth value: not None and len(frame) > 0 (229) *)
Definition ftrue (o : option (tframe * Z)) : bool :=
  match o with Some (_, f, _) => 0 <? zlen (f_data f) | None => false end.

Record asrc := { a_q : list tframe;
                 a_cur : option (tframe * Z);   (* locals frame, frame_offset of _run *)
                 a_current : option tframe;     (* self.current_frame *)
                 a_active : bool; a_idle : bool; a_actev : bool; a_pause : bool;
                 a_occb : Z; a_occf : Z; a_limb : Z; a_limf : Z;
                 a_task : stask; a_valid : bool; a_beat : beat;
                 a_done : list Z }.             (* log of handle_tx_complete *)

(** axis.py 268-347, 439-445; the limits are attributes that the user sets *)
Definition asrc_init (limb limf : Z) : asrc :=
  {| a_q := []; a_cur := None; a_current := None; a_active := false; a_idle := true; a_actev := false; a_pause := false;
     a_occb := 0; a_occf := 0; a_limb := limb; a_limf := limf; a_task := TEdge; a_valid := false; a_beat := zero_beat; a_done := [] |}.

(** axis.py 474-480 and 758-764 [full] *)
Definition occ_full (limb limf occb occf : Z) : bool :=
  if (0 <? limb) && (limb <? occb) then true
  else if (0 <? limf) && (limf <? occf) then true else false.
Definition asrc_full (s : asrc) : bool := occ_full (a_limb s) (a_limf s) (a_occb s) (a_occf s).

(** axis.py 482-483 [idle] *)
Definition asrc_is_idle (s : asrc) : bool := match a_q s with [] => negb (a_active s) | _ => false end.

(** axis.py 535-545: take the next frame; Err: normalize raised *)
Definition asrc_fetch (s : asrc) : res asrc :=
  match ftrue (a_cur s), a_q s with
  | false, (t, f) :: q =>
      do g <- normalize f;
      Ok {| a_q := q; a_cur := Some ((t, g), 0); a_current := Some (t, g); a_active := true; a_idle := a_idle s;
            a_actev := a_actev s; a_pause := a_pause s; a_occb := a_occb s - zlen (f_data f); a_occf := a_occf s - 1;
            a_limb := a_limb s; a_limf := a_limf s; a_task := a_task s; a_valid := a_valid s; a_beat := a_beat s; a_done := a_done s |}
  | _, _ => Ok s
  end.

(** the state in which the exception leaves the component *)
Definition asrc_crash (s : asrc) : asrc :=
  {| a_q := tl (a_q s); a_cur := None; a_current := hd_error (a_q s); a_active := a_active s; a_idle := a_idle s;
     a_actev := a_actev s; a_pause := a_pause s;
     a_occb := a_occb s - match a_q s with (_, f) :: _ => zlen (f_data f) | [] => 0 end; a_occf := a_occf s - 1;
     a_limb := a_limb s; a_limf := a_limf s; a_task := TDead; a_valid := a_valid s; a_beat := a_beat s; a_done := a_done s |}.

(** axis.py 547-583 *)
Definition asrc_drive (c : scfg) (s : asrc) (t : Z) (f : frame) (fo : Z) : asrc :=
  let '(b, fo', fin) := drive_beat c f fo in
  {| a_q := a_q s; a_cur := if fin then None else Some ((t, f), fo'); a_current := if fin then None else a_current s;
     a_active := a_active s; a_idle := a_idle s; a_actev := a_actev s; a_pause := a_pause s;
     a_occb := a_occb s; a_occf := a_occf s; a_limb := a_limb s; a_limf := a_limf s; a_task := TEdge;
     a_valid := true; a_beat := b; a_done := if fin then a_done s ++ [t] else a_done s |}.

(** axis.py 584-594 *)
Definition asrc_hold (s : asrc) : asrc :=
  let b := a_beat s in
  let sleep := negb (ftrue (a_cur s)) && match a_q s with [] => true | _ => false end in
  {| a_q := a_q s; a_cur := a_cur s; a_current := a_current s;
     a_active := ftrue (a_cur s); a_idle := if sleep then true else a_idle s; a_actev := if sleep then false else a_actev s; a_pause := a_pause s;
     a_occb := a_occb s; a_occf := a_occf s; a_limb := a_limb s; a_limf := a_limf s; a_task := if sleep then TSleep else TEdge;
     a_valid := false;
     a_beat := {| b_data := b_data b; b_keep := b_keep b; b_id := b_id b; b_dest := b_dest b; b_user := b_user b; b_last := false |};
     a_done := a_done s |}.

(** axis.py 526-594, one pass after the clock edge *)
Definition asrc_edge (c : scfg) (s : asrc) (ready : bool) : asrc :=
  match a_task s with
  | TEdge =>
      let ready_sample := negb (x_ready c) || ready in
      if (ready_sample && a_valid s) || negb (a_valid s) then
        match asrc_fetch s with
        | Err _ => asrc_crash s
        | Ok s1 =>
            match a_cur s1 with
            | Some ((t, f), fo) =>
                if (0 <? zlen (f_data f)) && negb (a_pause s1) then asrc_drive c s1 t f fo else asrc_hold s1
            | None => asrc_hold s1
            end
        end
      else s
  | _ => s
  end.

Inductive aop := ASend (tag : Z) (f : frame)   (* send / send_nowait / write, 447-472 *)
               | APause (b : bool)             (* 403-407 *)
               | ALimits (lb lf : Z)
               | AClear                        (* 357-366 *)
               | AReset (b : bool)             (* 368-382, 488-509 *)
               | AEdge (ready : bool).

Definition asrc_step (c : scfg) (s : asrc) (o : aop) : asrc :=
  match o with
  | ASend t f =>
      if asrc_full s then s else
      {| a_q := a_q s ++ [(t, f)]; a_cur := a_cur s; a_current := a_current s;
         a_active := a_active s; a_idle := false; a_actev := true; a_pause := a_pause s;
         a_occb := a_occb s + zlen (f_data f); a_occf := a_occf s + 1; a_limb := a_limb s; a_limf := a_limf s;
         a_task := match a_task s with TSleep => TEdge | t => t end; a_valid := a_valid s; a_beat := a_beat s; a_done := a_done s |}
  | APause b =>
      {| a_q := a_q s; a_cur := a_cur s; a_current := a_current s;
         a_active := a_active s; a_idle := a_idle s; a_actev := a_actev s; a_pause := b;
         a_occb := a_occb s; a_occf := a_occf s; a_limb := a_limb s; a_limf := a_limf s;
         a_task := a_task s; a_valid := a_valid s; a_beat := a_beat s; a_done := a_done s |}
  | ALimits lb lf =>
      {| a_q := a_q s; a_cur := a_cur s; a_current := a_current s;
         a_active := a_active s; a_idle := a_idle s; a_actev := a_actev s; a_pause := a_pause s;
         a_occb := a_occb s; a_occf := a_occf s; a_limb := lb; a_limf := lf;
         a_task := a_task s; a_valid := a_valid s; a_beat := a_beat s; a_done := a_done s |}
  | AClear =>
      {| a_q := []; a_cur := a_cur s; a_current := a_current s;
         a_active := a_active s; a_idle := true; a_actev := false; a_pause := a_pause s;
         a_occb := 0; a_occf := 0; a_limb := a_limb s; a_limf := a_limf s;
         a_task := a_task s; a_valid := a_valid s; a_beat := a_beat s; a_done := a_done s ++ map fst (a_q s) |}
  | AReset true =>
      let flush := match a_current s with Some (t, f) => if 0 <? zlen (f_data f) then [t] else [] | None => [] end in
      {| a_q := a_q s; a_cur := None; a_current := match flush with [] => a_current s | _ => None end;
         a_active := false; a_idle := match a_q s with [] => true | _ => a_idle s end; a_actev := a_actev s; a_pause := a_pause s;
         a_occb := a_occb s; a_occf := a_occf s; a_limb := a_limb s; a_limf := a_limf s;
         a_task := TDead; a_valid := false; a_beat := zero_beat; a_done := a_done s ++ flush |}
  | AReset false =>
      {| a_q := a_q s; a_cur := a_cur s; a_current := a_current s;
         a_active := a_active s; a_idle := a_idle s; a_actev := a_actev s; a_pause := a_pause s;
         a_occb := a_occb s; a_occf := a_occf s; a_limb := a_limb s; a_limf := a_limf s;
         a_task := match a_task s with TDead => TEdge | t => t end; a_valid := a_valid s; a_beat := a_beat s; a_done := a_done s |}
  | AEdge r => asrc_edge c s r
  end.

(* ------------------------------------------------------------------ *)
(** * receiving: shared by AxiStreamMonitor and AxiStreamSink *)

(** axis.py 705-708 / 806-809 *)
Definition rx_new (c : scfg) : frame :=
  {| f_ba := x_bsize c =? 8; f_data := []; f_keep := Some []; f_id := SList []; f_dest := SList []; f_user := SList [] |}.

(** axis.py 712-721 / 813-822: the lanes from [offset] on *)
Fixpoint rx_lanes (c : scfg) (b : beat) (n : nat) (offset : Z) (f : frame) : frame :=
  match n with
  | O => f
  | S n' =>
      rx_lanes c b n' (offset + 1)
        {| f_ba := f_ba f;
           f_data := f_data f ++ [Z.land (Z.shiftr (b_data b) (offset * x_bsize c)) (byte_mask c)];
           f_keep := Some (if x_keep c then keepl f ++ [Z.land (Z.shiftr (b_keep b) offset) 1] else keepl f);
           f_id := SList (if x_id c then sbl (f_id f) ++ [b_id b] else sbl (f_id f));
           f_dest := SList (if x_dest c then sbl (f_dest f) ++ [b_dest b] else sbl (f_dest f));
           f_user := SList (if x_user c then sbl (f_user f) ++ [b_user b] else sbl (f_user f)) |}
  end.

(** axis.py 703-733 / 804-834: a beat arrives; (local frame, frame put into the queue) *)
Definition rx_beat (c : scfg) (part : option frame) (b : beat) : option frame * list frame :=
  let f0 := match part with Some f => if 0 <? zlen (f_data f) then f else rx_new c | None => rx_new c end in
  let f := rx_lanes c b (Z.to_nat (x_lanes c)) 0 f0 in
  if negb (x_last c) || b_last b then (None, [f]) else (Some f, []).

Definition bytes_of (q : list frame) : Z := fold_right (fun f n => zlen (f_data f) + n) 0 q.

(** axis.py 621-653: a frame leaves the queue (recv), compacted or not; bytes read *)
Inductive rop := RRecv (compacted : bool)    (* recv / recv_nowait *)
               | RReadOne                    (* read(): one frame into an empty read_queue, 640-642 *)
               | RRead (count : Z).          (* read_nowait / the rest of read *)

(** what a call returned *)
Inductive rres := RFrame (f : res frame) | RBytes (l : list Z) | RNothing.

(** tdata of a compacted frame; compact raising ends the caller's call *)
Definition cdata (f : frame) : list Z := match compact f with Ok g => f_data g | Err _ => [] end.

(** axis.py 645-653 with the frames [q] in the queue; (read_queue, result) *)
Definition read_all (rq : list Z) (q : list frame) (count : Z) : list Z * list Z :=
  let rq' := rq ++ concat (map cdata q) in
  let n := if count <? 0 then length rq' else Z.to_nat count in
  (skipn n rq', firstn n rq').

(* ------------------------------------------------------------------ *)
(** * AxiStreamMonitor, axis.py 597-738 *)

Record amon := { n_q : list frame; n_part : option frame; n_readq : list Z; n_occb : Z; n_occf : Z;
                 n_wake : bool; n_task : mtask; n_valid : bool; n_ready : bool; n_beat : beat }.

Definition amon_init (v r : bool) (b : beat) : amon :=
  {| n_q := []; n_part := None; n_readq := []; n_occb := 0; n_occf := 0; n_wake := false; n_task := MStart;
     n_valid := v; n_ready := r; n_beat := b |}.

Inductive nop := NSig (v r : bool) (b : beat) | NRecv (o : rop) | NClear | NReset (b : bool) | NRunStart | NClk.

Definition amon_start (m : amon) : amon :=
  {| n_q := n_q m; n_part := match n_task m with MStart => None | _ => n_part m end; n_readq := n_readq m; n_occb := n_occb m; n_occf := n_occf m; n_wake := n_wake m;
     n_task := match n_task m with MStart => MEdge (n_wake m) | t => t end;
     n_valid := n_valid m; n_ready := n_ready m; n_beat := n_beat m |}.

(** axis.py 696-738, the pass after the clock edge *)
Definition amon_edge (c : scfg) (m0 : amon) : amon :=
  let m := amon_start m0 in
  match n_task m with
  | MEdge null =>
      if (negb (x_ready c) || n_ready m) && n_valid m then
        let '(part, fs) := rx_beat c (n_part m) (n_beat m) in
        {| n_q := n_q m ++ fs; n_part := part; n_readq := n_readq m; n_occb := n_occb m + bytes_of fs; n_occf := n_occf m + zlen fs;
           n_wake := n_wake m; n_task := MEdge null; n_valid := n_valid m; n_ready := n_ready m; n_beat := n_beat m |}
      else
        {| n_q := n_q m; n_part := n_part m; n_readq := n_readq m; n_occb := n_occb m; n_occf := n_occf m;
           n_wake := false; n_task := if null then MEdge null else MSleep;
           n_valid := n_valid m; n_ready := n_ready m; n_beat := n_beat m |}
  | _ => m
  end.

(** axis.py 621-653 for the monitor: (state, result) *)
Definition amon_recv (m : amon) (o : rop) : amon * rres :=
  match o, n_q m with
  | RRecv cp, f :: q =>
      ({| n_q := q; n_part := n_part m; n_readq := n_readq m; n_occb := n_occb m - zlen (f_data f); n_occf := n_occf m - 1;
          n_wake := n_wake m; n_task := n_task m; n_valid := n_valid m; n_ready := n_ready m; n_beat := n_beat m |},
       RFrame (if cp then compact f else Ok f))
  | RReadOne, f :: q =>
      match n_readq m with
      | [] => ({| n_q := q; n_part := n_part m; n_readq := cdata f; n_occb := n_occb m - zlen (f_data f); n_occf := n_occf m - 1;
                  n_wake := n_wake m; n_task := n_task m; n_valid := n_valid m; n_ready := n_ready m; n_beat := n_beat m |}, RNothing)
      | _ => (m, RNothing)
      end
  | RRead count, q =>
      let '(rq, r) := read_all (n_readq m) q count in
      ({| n_q := []; n_part := n_part m; n_readq := rq; n_occb := n_occb m - bytes_of q; n_occf := n_occf m - zlen q;
          n_wake := n_wake m; n_task := n_task m; n_valid := n_valid m; n_ready := n_ready m; n_beat := n_beat m |}, RBytes r)
  | _, [] => (m, RNothing)
  end.

Definition amon_step (c : scfg) (m : amon) (o : nop) : amon :=
  match o with
  | NSig v r b =>
      let w := rises (n_valid m) v || (x_ready c && rises (n_ready m) r) in
      {| n_q := n_q m; n_part := n_part m; n_readq := n_readq m; n_occb := n_occb m; n_occf := n_occf m; n_wake := n_wake m || w;
         n_task := match n_task m with MSleep => if w then MEdge false else MSleep | t => t end;
         n_valid := v; n_ready := r; n_beat := b |}
  | NRecv o => fst (amon_recv m o)
  | NClear =>
      {| n_q := []; n_part := n_part m; n_readq := n_readq m; n_occb := 0; n_occf := 0; n_wake := n_wake m; n_task := n_task m;
         n_valid := n_valid m; n_ready := n_ready m; n_beat := n_beat m |}
  | NReset true =>
      {| n_q := n_q m; n_part := None; n_readq := n_readq m; n_occb := n_occb m; n_occf := n_occf m; n_wake := n_wake m; n_task := MDead;
         n_valid := n_valid m; n_ready := n_ready m; n_beat := n_beat m |}
  | NReset false =>
      {| n_q := n_q m; n_part := n_part m; n_readq := n_readq m; n_occb := n_occb m; n_occf := n_occf m; n_wake := n_wake m;
         n_task := match n_task m with MDead => MStart | t => t end;
         n_valid := n_valid m; n_ready := n_ready m; n_beat := n_beat m |}
  | NRunStart => amon_start m
  | NClk => amon_edge c m
  end.

(* ------------------------------------------------------------------ *)
(** * AxiStreamSink, axis.py 741-849 *)

Record asnk := { z_q : list frame; z_part : option frame; z_readq : list Z; z_occb : Z; z_occf : Z; z_limb : Z; z_limf : Z;
                 z_pause : bool; z_wake : bool; z_task : ktask; z_ready : bool }.

(** axis.py 750-756, tready initialised to 0 (748) *)
Definition asnk_init (limb limf : Z) : asnk :=
  {| z_q := []; z_part := None; z_readq := []; z_occb := 0; z_occf := 0; z_limb := limb; z_limf := limf;
     z_pause := false; z_wake := false; z_task := KStart; z_ready := false |}.

Definition asnk_full (k : asnk) : bool := occ_full (z_limb k) (z_limf k) (z_occb k) (z_occf k).

(** wake_event.set() *)
Definition asnk_wake (k : asnk) : asnk :=
  {| z_q := z_q k; z_part := z_part k; z_readq := z_readq k; z_occb := z_occb k; z_occf := z_occf k; z_limb := z_limb k; z_limf := z_limf k;
     z_pause := z_pause k; z_wake := true; z_task := match z_task k with KSleep => KWoken false | t => t end; z_ready := z_ready k |}.

(** a woken or just started task runs to the await of the clock edge (780-798) *)
Definition asnk_run (k : asnk) : asnk :=
  {| z_q := z_q k; z_part := match z_task k with KStart => None | _ => z_part k end; z_readq := z_readq k;
     z_occb := z_occb k; z_occf := z_occf k; z_limb := z_limb k; z_limf := z_limf k;
     z_pause := z_pause k; z_wake := z_wake k;
     z_task := match z_task k with
               | KStart => KEdge (z_wake k) (z_pause k)
               | KWoken n => KEdge n (z_pause k)
               | t => t end;
     z_ready := z_ready k |}.

(** axis.py 796-849: the pass after the clock edge *)
Definition asnk_edge (c : scfg) (k0 : asnk) (valid : bool) (b : beat) : asnk :=
  let k := asnk_run k0 in
  match z_task k with
  | KEdge null ps =>
      let ready_sample := negb (x_ready c) || z_ready k in
      let '(part, fs) := if ready_sample && valid then rx_beat c (z_part k) b else (z_part k, []) in
      let occb := z_occb k + bytes_of fs in
      let occf := z_occf k + zlen fs in
      let paused := occ_full (z_limb k) (z_limf k) occb occf || ps in
      let sleep := if x_ready c then (negb valid || paused) && Bool.eqb ps (z_pause k) else negb valid in
      {| z_q := z_q k ++ fs; z_part := part; z_readq := z_readq k; z_occb := occb; z_occf := occf; z_limb := z_limb k; z_limf := z_limf k;
         z_pause := z_pause k; z_wake := if sleep then false else z_wake k;
         z_task := if sleep then (if null then KWoken null else KSleep) else KEdge null (z_pause k);
         z_ready := if x_ready c then negb paused else z_ready k |}
  | _ => k
  end.

(** axis.py 621-653, 776-777: every frame that leaves the queue sets wake_event *)
Definition asnk_recv (k : asnk) (o : rop) : asnk * rres :=
  match o, z_q k with
  | RRecv cp, f :: q =>
      (asnk_wake {| z_q := q; z_part := z_part k; z_readq := z_readq k; z_occb := z_occb k - zlen (f_data f); z_occf := z_occf k - 1;
          z_limb := z_limb k; z_limf := z_limf k; z_pause := z_pause k; z_wake := z_wake k; z_task := z_task k; z_ready := z_ready k |},
       RFrame (if cp then compact f else Ok f))
  | RReadOne, f :: q =>
      match z_readq k with
      | [] => (asnk_wake {| z_q := q; z_part := z_part k; z_readq := cdata f; z_occb := z_occb k - zlen (f_data f); z_occf := z_occf k - 1;
                  z_limb := z_limb k; z_limf := z_limf k; z_pause := z_pause k; z_wake := z_wake k; z_task := z_task k; z_ready := z_ready k |}, RNothing)
      | _ => (k, RNothing)
      end
  | RRead count, q =>
      let '(rq, r) := read_all (z_readq k) q count in
      let k' := {| z_q := []; z_part := z_part k; z_readq := rq; z_occb := z_occb k - bytes_of q; z_occf := z_occf k - zlen q;
          z_limb := z_limb k; z_limf := z_limf k; z_pause := z_pause k; z_wake := z_wake k; z_task := z_task k; z_ready := z_ready k |} in
      (match q with [] => k' | _ => asnk_wake k' end, RBytes r)
  | _, [] => (k, RNothing)
  end.

Inductive zop := ZPause (b : bool) | ZLimits (lb lf : Z) | ZRecv (o : rop) | ZClear | ZReset (b : bool) | ZRun.

Definition asnk_step (c : scfg) (k : asnk) (o : zop) : asnk :=
  match o with
  | ZPause b =>      (* 403-407, 773-774 *)
      let k' := if Bool.eqb (z_pause k) b then k else asnk_wake k in
      {| z_q := z_q k'; z_part := z_part k'; z_readq := z_readq k'; z_occb := z_occb k'; z_occf := z_occf k'; z_limb := z_limb k'; z_limf := z_limf k';
         z_pause := b; z_wake := z_wake k'; z_task := z_task k'; z_ready := z_ready k' |}
  | ZLimits lb lf =>
      {| z_q := z_q k; z_part := z_part k; z_readq := z_readq k; z_occb := z_occb k; z_occf := z_occf k; z_limb := lb; z_limf := lf;
         z_pause := z_pause k; z_wake := z_wake k; z_task := z_task k; z_ready := z_ready k |}
  | ZRecv o => fst (asnk_recv k o)
  | ZClear =>        (* 357-366 *)
      {| z_q := []; z_part := z_part k; z_readq := z_readq k; z_occb := 0; z_occf := 0; z_limb := z_limb k; z_limf := z_limf k;
         z_pause := z_pause k; z_wake := z_wake k; z_task := z_task k; z_ready := z_ready k |}
  | ZReset true =>   (* 368-377, 766-771 *)
      {| z_q := z_q k; z_part := None; z_readq := z_readq k; z_occb := z_occb k; z_occf := z_occf k; z_limb := z_limb k; z_limf := z_limf k;
         z_pause := z_pause k; z_wake := z_wake k; z_task := KDead; z_ready := if x_ready c then false else z_ready k |}
  | ZReset false =>
      {| z_q := z_q k; z_part := z_part k; z_readq := z_readq k; z_occb := z_occb k; z_occf := z_occf k; z_limb := z_limb k; z_limf := z_limf k;
         z_pause := z_pause k; z_wake := z_wake k; z_task := match z_task k with KDead => KStart | t => t end; z_ready := z_ready k |}
  | ZRun => asnk_run k
  end.

(* ------------------------------------------------------------------ *)
(** * a source connected to a sink *)

Record achan := { ac_src : asrc; ac_snk : asnk }.
Inductive acop := ACSrc (o : aop) | ACSnk (o : zop) | ACClk.

(** valid and ready changes reach the sink's signal monitors (666-678) *)
Definition asettle (c : scfg) (h h' : achan) : achan :=
  if rises (a_valid (ac_src h)) (a_valid (ac_src h')) || (x_ready c && rises (z_ready (ac_snk h)) (z_ready (ac_snk h')))
  then {| ac_src := ac_src h'; ac_snk := asnk_wake (ac_snk h') |} else h'.

(** [ACSrc (AEdge _)] is not an operation of the composed system (ignored) *)
Definition achan_step (c : scfg) (h : achan) (o : acop) : achan :=
  match o with
  | ACSrc (AEdge _) => h
  | ACSrc o => {| ac_src := asrc_step c (ac_src h) o; ac_snk := ac_snk h |}
  | ACSnk o => {| ac_src := ac_src h; ac_snk := asnk_step c (ac_snk h) o |}
  | ACClk =>
      asettle c h {| ac_src := asrc_edge c (ac_src h) (z_ready (ac_snk h));
                     ac_snk := asnk_edge c (ac_snk h) (a_valid (ac_src h)) (a_beat (ac_src h)) |}
  end.
