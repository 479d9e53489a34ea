(** Specification vocabulary for the systems with reset (M_rst.v). *)
From Coq Require Import ZArith List Bool.
From Verif Require Import Py M_stream M_cchan M_axi S_axi M_axil M_liteeng M_axieng M_sys S_sys M_litesys S_litesys M_axisys S_axisys M_literw S_literw S_live M_clk S_clk M_rst.
Import ListNotations.
Open Scope Z_scope.

(** the target stays, the record of its calls starts anew *)
Definition anew {T X} (tl : T * list X) : T * list X := (fst tl, []).

(** nothing is on the wires of a channel and nothing is queued *)
Definition cc_silent {A} (c : cchan A) : Prop := s_valid (cc_src c) = false /\ k_ready (cc_snk c) = false /\ s_q (cc_src c) = [] /\ k_q (cc_snk c) = [] /\ cc_edge c = None.
Definition hu_silent {C E R S} (y : husys C E R S) : Prop := cc_silent (hu_a y) /\ cc_silent (hu_w y) /\ cc_silent (hu_b y).
Definition h_silent {C E R S} (y : hsys C E R S) : Prop := cc_silent (h_a y) /\ cc_silent (h_w y) /\ cc_silent (h_b y).

(** ** AXI-Lite: both halves on one target, the calls recorded *)
Definition vrw_init {T} (t : T) : vrsys (T * list call) (T * list rcall) := (hlrw_init t, false).
Definition vrw_run {T} (L : Z) (tw : T -> Z -> list Z -> T * res unit) (tr : T -> Z -> Z -> T * res (list Z)) (dW : lev) (dB : resp_t) (dA : lax) (dR : lrd) :=
  vr_run L (log_write tw) (log_read tr) cp_w2r cp_r2w anew anew dW dB dA dR.
(** the steps of user and tasks; no reset is asserted *)
Definition vrtasks {TW TR} (h : list (vrop TW TR)) : list (lxop TW TR) := flat_map (fun o => match o with VO o => vtasks [o] | VReset _ => [] end) h.
Definition v_calm {TW TR} (o : vrop TW TR) : Prop := match o with VReset true => False | _ => True end.
(** init_write()/init_read() calls whose started tasks did not run yet *)
Definition v_wpend {TW TR} (x : vrsys TW TR) : list (Z * lwcmd) := g_pend (hu_m (hv_w (fst x))).
Definition v_rpend {TW TR} (x : vrsys TW TR) : list (Z * lrcmd) := g_pend (hu_m (hv_r (fst x))).
Definition v_inits {TW TR} (x : vrsys TW TR) : list (lxop TW TR) := map VW (map UInit (v_wpend x)) ++ map VR (map UInit (v_rpend x)).

Definition vrw_target {T} (x : vrsys (T * list call) (T * list rcall)) : T := hlrw_target (fst x).
(** others may change the target at any moment *)
Definition lx_others {T} (o : lxop (T * list call) (T * list rcall)) : Prop := match o with VW o => lwothers o | VR o => lrothers o end.

(** ** AXI *)
Definition zrw_target {T} (x : zrsys (T * list call) (T * list rcall)) : T := hrw_target (fst x).
Definition zrw_init {T} (t : T) : zrsys (T * list call) (T * list rcall) := (hrw_init t, false).
Definition zrw_run {T} (c : mcfg) (widn ridn : Z) (tw : T -> Z -> list Z -> T * res unit) (tr : T -> Z -> Z -> T * res (list Z)) (dW : wev) (dB : bch) (dA : axc) (dR : rch) :=
  zr_run c widn ridn (log_write tw) (log_read tr) cp_w2r cp_r2w anew anew dW dB dA dR.
Definition zrtasks {TW TR} (h : list (zrop TW TR)) : list (aop TW TR) := flat_map (fun o => match o with ZO o => ztasks [o] | ZReset _ => [] end) h.
Definition z_calm {TW TR} (o : zrop TW TR) : Prop := match o with ZReset true => False | _ => True end.
Definition z_wpend {TW TR} (x : zrsys TW TR) : list wop := e_pend (h_m (hz_w (fst x))).
Definition z_rpend {TW TR} (x : zrsys TW TR) : list rop := e_pend (h_m (hz_r (fst x))).
Definition z_inits {TW TR} (x : zrsys TW TR) : list (aop TW TR) := map BW (map YInit (z_wpend x)) ++ map BR (map YInit (z_rpend x)).
