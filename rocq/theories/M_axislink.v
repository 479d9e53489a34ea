(** An AXI stream link: AxiStreamSource, AxiStreamSink and AxiStreamMonitor on the same bus, clock and reset. *)
From Coq Require Import ZArith List Bool.
From Verif Require Import Py M_stream M_axisframe M_axis.
Import ListNotations.
Open Scope Z_scope.

(** The three components of M_axis.v; the monitor keeps its own copy of the bus signals, which
    follows the source's tvalid and payload and the sink's tready. *)
Record alink := { k_ch : achan; k_mon : amon }.

(** LSrc (AReset b), LSnk (ZReset b), LMon (NReset b): the reset of one component only;
    LRst b: the common reset signal (reset.py 28-60; axis.py 306-307, 368-382, 488-509, 766-771) *)
Inductive lop := LSrc (o : aop) | LSnk (o : zop) | LMon (o : nop) | LRst (b : bool) | LClk.

(** axis.py 666-678: the new values of the signals reach the monitor *)
Definition lsig (c : scfg) (h : achan) (m : amon) : amon :=
  amon_step c m (NSig (a_valid (ac_src h)) (z_ready (ac_snk h)) (a_beat (ac_src h))).

(** Simplification: as in [achan_step] an operation between two clock edges is seen by all
    components before the next edge.  Clock edges and signals of the components are not
    operations of the user (ignored). *)
Definition lstep (c : scfg) (l : alink) (o : lop) : alink :=
  match o with
  | LSrc o => let h := achan_step c (k_ch l) (ACSrc o) in {| k_ch := h; k_mon := lsig c h (k_mon l) |}
  | LSnk o => let h := achan_step c (k_ch l) (ACSnk o) in {| k_ch := h; k_mon := lsig c h (k_mon l) |}
  | LMon (NSig _ _ _) | LMon NClk => l
  | LMon o => {| k_ch := k_ch l; k_mon := amon_step c (k_mon l) o |}
  | LRst b =>
      let h := achan_step c (achan_step c (k_ch l) (ACSrc (AReset b))) (ACSnk (ZReset b)) in
      {| k_ch := h; k_mon := lsig c h (amon_step c (k_mon l) (NReset b)) |}
  | LClk => let h := achan_step c (k_ch l) ACClk in {| k_ch := h; k_mon := lsig c h (amon_edge c (k_mon l)) |}
  end.
