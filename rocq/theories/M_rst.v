(** Reset of the clocked systems of M_clk.v: master, slave and all their stream components hang on one reset signal.

    Sources: /repo/cocotbext/axi/reset.py; stream.py 145-166, 253-258, 388-393 (clear and reset of the stream components); axi_master.py 430-471, 841-881;
    axi_slave.py 98-112, 262-274; axil_master.py 210-254, 462-505; axil_slave.py 92-106, 211-223.
    [VReset b], [ZReset b]: a change of the reset signal: every component's _run_reset task is resumed by the same trigger and calls _handle_reset(b) of its component, so the
    handlers run one after the other and no other task runs in between; each changes its own component only, so that their order does not matter.  On assertion a stream component
    kills its task and deasserts valid or ready, the master flushes its operations, the slave's task is killed, and both clear their channels.  A pass of a stream component that is
    still to come after a clock edge is not made.  On release all tasks start again.
    A reset signal that does not change does nothing (reset.py 53-57).  User calls are possible during reset.
    Simplification: a slave is not killed inside a call of its target (the target's coroutines do not block).
    [rt] only serves the record of the calls in the specification (S_rst.v): the recorded calls are those since the last reset; it leaves the target as it is. *)
From Coq Require Import ZArith List Bool.
From Verif Require Import Py M_stream M_axi M_axil M_liteeng M_axieng M_cchan M_sys M_litesys M_axisys M_literw M_clk.
Import ListNotations.
Open Scope Z_scope.

(** source and sink of a channel are reset and cleared (stream.py 152-166, 253-258, 388-393; 145-150) *)
Definition cc_rst {A} (c : cchan A) (b : bool) : cchan A :=
  if b then {| cc_src := src_step true (src_step true (cc_src c) (SReset true)) SClear;
               cc_snk := snk_step true (snk_step true (cc_snk c) (KReset true)) KClear; cc_edge := None |}
  else {| cc_src := src_step true (cc_src c) (SReset false); cc_snk := snk_step true (cc_snk c) (KReset false); cc_edge := cc_edge c |}.

(** ** AXI-Lite *)
Section Half.
Context {C E R S : Type}.
Variable sends : C -> list E.
Variable need : C -> nat.
Variable restart : S -> S.        (* the slave's task starts anew *)
Definition hu_rst (y : husys C E R S) (b : bool) : husys C E R S * list (gout C E R) :=
  let '(m, os) := eng_step sends need (hu_m y) (GReset b) in
  ({| hu_m := m; hu_a := cc_rst (hu_a y) b; hu_w := cc_rst (hu_w y) b; hu_b := cc_rst (hu_b y) b; hu_s := if b then restart (hu_s y) else hu_s y |}, os).
End Half.

Inductive vrop (TW TR : Type) := VO (o : hlxop TW TR) | VReset (b : bool).
Arguments VO {TW TR}. Arguments VReset {TW TR}.
(** the system, and whether reset is asserted *)
Definition vrsys (TW TR : Type) : Type := hlxs TW TR * bool.

Section Lx.
Context {TW TR : Type}.
Variable L : Z.
Variable tw : TW -> Z -> list Z -> TW * res unit.
Variable tr : TR -> Z -> Z -> TR * res (list Z).
Variable w2r : TW -> TR -> TR.
Variable r2w : TR -> TW -> TW.
Variables (rtw : TW -> TW) (rtr : TR -> TR).
Variables (dW : lev) (dB : resp_t) (dA : lax) (dRd : lrd).

(** a step of the slave's task: there is none during reset *)
Definition v_slave (o : hlxop TW TR) : bool := match o with QW (HUT USlave) | QR (HUT USlave) => true | _ => false end.
Definition vr_step (x : vrsys TW TR) (o : vrop TW TR) : vrsys TW TR * list lxout :=
  let '(z, on) := x in
  match o with
  | VO o => if on && v_slave o then (x, []) else let '(z', os) := hlx_step L tw tr w2r r2w dW dB dA dRd z o in ((z', on), os)
  | VReset b =>
      if Bool.eqb b on then (x, []) else
      let '(w, ow) := hu_rst (lite_w_sends L) (lite_w_need L) (fun s => LWIdle (rtw (lws_target s))) (hv_w z) b in
      let '(r, or) := hu_rst (lite_r_sends L) (lite_r_need L) (fun s => LRIdle (rtr (lrs_target s))) (hv_r z) b in
      (({| hv_w := w; hv_r := r |}, b), map inl ow ++ map inr or)
  end.
Fixpoint vr_run (x : vrsys TW TR) (h : list (vrop TW TR)) : vrsys TW TR * list lxout :=
  match h with
  | [] => (x, [])
  | o :: h' => let '(x1, o1) := vr_step x o in let '(x2, o2) := vr_run x1 h' in (x2, o1 ++ o2)
  end.
End Lx.

(** ** AXI *)
Section XHalf.
Context {C E R S : Type}.
Variable sends : C -> Z -> list E.
Variable opens : E -> bool.
Variable epat : E -> list bool.
Variable chk : bool -> R -> bool.
Variable rtag : R -> Z.
Variable ask : C -> option Z.
Variable idn : Z.
Variable restart : S -> S.
Definition h_rst (y : hsys C E R S) (b : bool) : hsys C E R S * list (xout C E R) :=
  let '(m, os) := x_step sends opens epat chk rtag ask idn (h_m y) (PReset b) in
  ({| h_m := m; h_a := cc_rst (h_a y) b; h_w := cc_rst (h_w y) b; h_b := cc_rst (h_b y) b; h_s := if b then restart (h_s y) else h_s y |}, os).
End XHalf.

Inductive zrop (TW TR : Type) := ZO (o : haop TW TR) | ZReset (b : bool).
Arguments ZO {TW TR}. Arguments ZReset {TW TR}.
Definition zrsys (TW TR : Type) : Type := haxs TW TR * bool.

Section Ax.
Context {TW TR : Type}.
Variable c : mcfg.
Variables widn ridn : Z.
Variable tw : TW -> Z -> list Z -> TW * res unit.
Variable tr : TR -> Z -> Z -> TR * res (list Z).
Variable w2r : TW -> TR -> TR.
Variable r2w : TR -> TW -> TW.
Variables (rtw : TW -> TW) (rtr : TR -> TR).
Variables (dW : wev) (dB : bch) (dA : axc) (dRd : rch).

Definition z_slave (o : haop TW TR) : bool := match o with KW (HT YSlave) | KR (HT YSlave) => true | _ => false end.
Definition zr_step (x : zrsys TW TR) (o : zrop TW TR) : zrsys TW TR * list aout :=
  let '(z, on) := x in
  match o with
  | ZO o => if on && z_slave o then (x, []) else let '(z', os) := hax_step c widn ridn tw tr w2r r2w dW dB dA dRd z o in ((z', on), os)
  | ZReset b =>
      if Bool.eqb b on then (x, []) else
      let '(w, ow) := h_rst (w_sends c) w_opens w_epat w_chk b_id op_id widn (fun s => WIdle (rtw (ws_target s))) (hz_w z) b in
      let '(r, or) := h_rst (r_sends c) r_opens r_epat r_chk r_id op_id ridn (fun s => RIdle (rtr (rs_target s))) (hz_r z) b in
      (({| hz_w := w; hz_r := r |}, b), map inl ow ++ map inr or)
  end.
Fixpoint zr_run (x : zrsys TW TR) (h : list (zrop TW TR)) : zrsys TW TR * list aout :=
  match h with
  | [] => (x, [])
  | o :: h' => let '(x1, o1) := zr_step x o in let '(x2, o2) := zr_run x1 h' in (x2, o1 ++ o2)
  end.
End Ax.
