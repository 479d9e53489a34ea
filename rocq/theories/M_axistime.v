(** Time stamps of AXI stream frames: sim_time_start and sim_time_end.

    Sources: /repo/cocotbext/axi/axis.py 49-50, 75-76 (constructor), 357-366 (clear), 488-509 (reset), 535-565 (source), 703-733 (monitor), 804-834 (sink).

    The stamps are kept beside the components of M_axis.v, on the link of M_axislink.v; every definition takes the state of the component before the step.
    Each clock edge has a time.  A completed frame is logged with its stamps as tx_complete shows it (ss_done, in the order of a_done). *)
From Coq Require Import ZArith List Bool.
From Verif Require Import Py M_stream M_axisframe M_axis M_axislink.
Import ListNotations.
Open Scope Z_scope.

(** sim_time_start of the frames in the queue and of the frame in the task; start and end of the completed ones *)
Record sstamp := { ss_q : list (option Z); ss_cur : option Z; ss_done : list (option Z * option Z) }.
(** start of the frame being received; start and end of the frames in the queue *)
Record rstamp := { rs_part : Z; rs_q : list (Z * Z) }.

(** axis.py 535-545: is a frame taken from the queue? *)
Definition fetches (s : asrc) : bool := negb (ftrue (a_cur s)) && match a_q s with [] => false | _ => true end.
(** axis.py 526-594 at time t *)
Definition src_edge_stamp (c : scfg) (s : asrc) (ready : bool) (t : Z) (x : sstamp) : sstamp :=
  match a_task s with
  | TEdge =>
      if ((negb (x_ready c) || ready) && a_valid s) || negb (a_valid s) then
        let x1 := if fetches s then {| ss_q := tl (ss_q x); ss_cur := Some t; ss_done := ss_done x |} else x in      (* 540-541 *)
        match asrc_fetch s with
        | Err _ => x1
        | Ok s1 =>
            match a_cur s1 with
            | Some ((_, f), fo) =>
                if (0 <? zlen (f_data f)) && negb (a_pause s1) then
                  let '(_, _, fin) := drive_beat c f fo in
                  {| ss_q := ss_q x1; ss_cur := ss_cur x1; ss_done := if fin then ss_done x1 ++ [(ss_cur x1, Some t)] else ss_done x1 |}   (* 565-566 *)
                else x1
            | None => x1
            end
        end
      else x
  | _ => x
  end.
(** the other operations; [st]: sim_time_start of the frame that is sent, which the copy keeps (75) *)
Definition src_stamp (s : asrc) (st : option Z) (o : aop) (x : sstamp) : sstamp :=
  match o with
  | ASend _ _ => if asrc_full s then x else {| ss_q := ss_q x ++ [st]; ss_cur := ss_cur x; ss_done := ss_done x |}
  | AClear => {| ss_q := []; ss_cur := ss_cur x; ss_done := ss_done x ++ map (fun a => (a, None)) (ss_q x) |}                (* 358-361 *)
  | AReset true =>                                                                                                          (* 506-509; the end is None since 541 *)
      match a_current s with
      | Some (_, f) => if 0 <? zlen (f_data f) then {| ss_q := ss_q x; ss_cur := ss_cur x; ss_done := ss_done x ++ [(ss_cur x, None)] |} else x
      | None => x
      end
  | _ => x
  end.

(** axis.py 704-710, 723-731 / 805-811, 824-832: a transfer at time t *)
Definition rx_stamp (c : scfg) (part : option frame) (b : beat) (t : Z) (r : rstamp) : rstamp :=
  let s := match part with Some f => if 0 <? zlen (f_data f) then rs_part r else t | None => t end in
  {| rs_part := s; rs_q := rs_q r ++ (if negb (x_last c) || b_last b then [(s, t)] else []) |}.
(** axis.py 621-653: frames leave the queue *)
Definition rx_take (o : rop) (readq : list Z) (r : rstamp) : rstamp :=
  match o with
  | RRecv _ => {| rs_part := rs_part r; rs_q := tl (rs_q r) |}
  | RReadOne => match readq with [] => {| rs_part := rs_part r; rs_q := tl (rs_q r) |} | _ => r end
  | RRead _ => {| rs_part := rs_part r; rs_q := [] |}
  end.
Definition rx_clear (r : rstamp) : rstamp := {| rs_part := rs_part r; rs_q := [] |}.
(** axis.py 804-834 *)
Definition snk_edge_stamp (c : scfg) (k0 : asnk) (valid : bool) (b : beat) (t : Z) (r : rstamp) : rstamp :=
  let k := asnk_run k0 in
  match z_task k with
  | KEdge _ _ => if (negb (x_ready c) || z_ready k) && valid then rx_stamp c (z_part k) b t r else r
  | _ => r
  end.
Definition snk_stamp (k : asnk) (o : zop) (r : rstamp) : rstamp :=
  match o with ZRecv o => rx_take o (z_readq k) r | ZClear => rx_clear r | _ => r end.
(** axis.py 703-733 *)
Definition mon_edge_stamp (c : scfg) (m0 : amon) (t : Z) (r : rstamp) : rstamp :=
  let m := amon_start m0 in
  match n_task m with
  | MEdge _ => if (negb (x_ready c) || n_ready m) && n_valid m then rx_stamp c (n_part m) (n_beat m) t r else r
  | _ => r
  end.
Definition mon_stamp (m : amon) (o : nop) (r : rstamp) : rstamp :=
  match o with NRecv o => rx_take o (n_readq m) r | NClear => rx_clear r | _ => r end.

(** ** the link *)
Record tlink := { t_l : alink; t_s : sstamp; t_z : rstamp; t_m : rstamp }.
(** TOp st o: the operation o between two edges, st as above; TClk t: a clock edge at time t *)
Inductive top := TOp (st : option Z) (o : lop) | TClk (t : Z).

Definition tstep (c : scfg) (x : tlink) (o : top) : tlink :=
  let l := t_l x in let s := ac_src (k_ch l) in let k := ac_snk (k_ch l) in let m := k_mon l in
  match o with
  | TClk t => {| t_l := lstep c l LClk; t_s := src_edge_stamp c s (z_ready k) t (t_s x);
                 t_z := snk_edge_stamp c k (a_valid s) (a_beat s) t (t_z x); t_m := mon_edge_stamp c m t (t_m x) |}
  | TOp st LClk => x                    (* edges are TClk *)
  | TOp st o =>
      {| t_l := lstep c l o;
         t_s := match o with LSrc o => src_stamp s st o (t_s x) | LRst b => src_stamp s None (AReset b) (t_s x) | _ => t_s x end;
         t_z := match o with LSnk o => snk_stamp k o (t_z x) | _ => t_z x end;
         t_m := match o with LMon o => mon_stamp m o (t_m x) | _ => t_m x end |}
  end.
