(** Masters connected to slaves through clocked stream sources and sinks: M_sys.v and M_litesys.v with the channels of M_cchan.v.

    Sources: as M_sys.v, M_litesys.v, M_axisys.v, M_literw.v and M_cchan.v.  The steps of the user, of the master's tasks and of the slave's task are those of
    M_sys.v / M_litesys.v (which see for the lines); send and recv act on the queues of the clocked components.  [HC i o] is a step of channel i: its clock
    edge, a pass of its source or sink, a change of pause.  Every channel may see its edges independently of the others; a common clock is the special case in which the
    edges of all channels come together.  [HT o] with a channel step o of M_sys.v does nothing. *)
From Coq Require Import ZArith List Bool.
From Verif Require Import Py M_axi M_axil M_liteeng M_axieng M_cchan M_sys M_litesys M_axisys M_literw.
Import ListNotations.
Open Scope Z_scope.

Inductive chid := ChA | ChW | ChB.

(** ** AXI *)
Inductive hop (C S : Type) := HT (o : yop C S) | HC (i : chid) (o : chop).
Arguments HT {C S}. Arguments HC {C S}.

Section Sys.
Context {C E R S : Type}.
Variable sends : C -> Z -> list E.
Variable opens : E -> bool.
Variable epat : E -> list bool.
Variable chk : bool -> R -> bool.
Variable rtag : R -> Z.
Variable ask : C -> option Z.
Variable idn : Z.
Variable kind : E -> bool.
Variable act : S -> sact R S.
Variable sin : S -> E -> S.
Variable dE : E.
Variable dR : R.

Record hsys := { h_m : xeng C E R; h_a : cchan E; h_w : cchan E; h_b : cchan R; h_s : S }.
Definition hsys_init (s0 : S) : hsys := {| h_m := xeng_init; h_a := cc_init; h_w := cc_init; h_b := cc_init; h_s := s0 |}.

Definition hfwd (y : hsys) (k : bool) : cchan E := if k then h_a y else h_w y.
Definition hset_fwd (y : hsys) (k : bool) (c : cchan E) : hsys :=
  if k then {| h_m := h_m y; h_a := c; h_w := h_w y; h_b := h_b y; h_s := h_s y |}
  else {| h_m := h_m y; h_a := h_a y; h_w := c; h_b := h_b y; h_s := h_s y |}.
Definition hset_m (y : hsys) (m : xeng C E R) : hsys := {| h_m := m; h_a := h_a y; h_w := h_w y; h_b := h_b y; h_s := h_s y |}.
Definition hset_b (y : hsys) (c : cchan R) : hsys := {| h_m := h_m y; h_a := h_a y; h_w := h_w y; h_b := c; h_s := h_s y |}.
Definition hset_s (y : hsys) (s : S) : hsys := {| h_m := h_m y; h_a := h_a y; h_w := h_w y; h_b := h_b y; h_s := s |}.

Definition hm_step (y : hsys) (o : xop C R) : hsys * list (xout C E R) :=
  let '(m, os) := x_step sends opens epat chk rtag ask idn (h_m y) o in (hset_m y m, os).

Definition h_step (y : hsys) (o : hop C S) : hsys * list (xout C E R) :=
  match o with
  | HT (YIssue c) => hm_step y (PIssue c)
  | HT (YInit c) => hm_step y (PInit c)
  | HT (YStart n) => hm_step y (PStart n)
  | HT YGet => hm_step y PGet
  | HT YSend =>
      match e_wtask (h_m y), next_send (h_m y) with
      | TRun, Some e => if cc_room (hfwd y (kind e))
                        then hm_step (hset_fwd y (kind e) (cc_send (hfwd y (kind e)) e)) PSend
                        else (y, [])
      | _, _ => (y, [])
      end
  | HT YRecv =>
      match e_rtask (h_m y), cc_got (h_b y) with
      | TRun, r :: _ => hm_step (hset_b y (cc_recv (h_b y))) (PResp r)
      | _, _ => (y, [])
      end
  | HT (YCGet i) => hm_step y (PCGet i)
  | HT (YCResp i) => hm_step y (PCResp i)
  | HT (YLoad _) | HT (YXfer _) | HT YLoadB | HT YXferB => (y, [])
  | HT YSlave =>
      match act (h_s y) with
      | AWait k => match cc_got (hfwd y k) with
                   | e :: _ => (hset_s (hset_fwd y k (cc_recv (hfwd y k))) (sin (h_s y) e), [])
                   | [] => (y, [])
                   end
      | AEmit r s => if cc_room (h_b y) then (hset_s (hset_b y (cc_send (h_b y) r)) s, []) else (y, [])
      | ATau s => (hset_s y s, [])
      | ADead => (y, [])
      end
  | HT (YPoke f) => (hset_s y (f (h_s y)), [])
  | HC ChA o => (hset_fwd y true (cc_step dE (h_a y) o), [])
  | HC ChW o => (hset_fwd y false (cc_step dE (h_w y) o), [])
  | HC ChB o => (hset_b y (cc_step dR (h_b y) o), [])
  end.
Fixpoint h_run (y : hsys) (h : list (hop C S)) : hsys * list (xout C E R) :=
  match h with
  | [] => (y, [])
  | o :: h' => let '(y1, o1) := h_step y o in let '(y2, o2) := h_run y1 h' in (y2, o1 ++ o2)
  end.
End Sys.
Arguments hsys : clear implicits.

(** AxiMasterWrite - AxiSlaveWrite, AxiMasterRead - AxiSlaveRead *)
Definition whsys_step {T} (c : mcfg) (idn : Z) (tw : T -> Z -> list Z -> T * res unit) (lanes : Z) (sp : bool) :=
  h_step (w_sends c) w_opens w_epat w_chk b_id op_id idn w_opens ws_act (ws_in tw lanes sp).
Definition rhsys_step {T} (c : mcfg) (idn : Z) (tr : T -> Z -> Z -> T * res (list Z)) (lanes : Z) :=
  h_step (r_sends c) r_opens r_epat r_chk r_id op_id idn r_kind (rs_act tr lanes) (rs_in lanes).

(** AxiMaster - AxiSlave on one target, as M_axisys.v *)
Record haxs (TW TR : Type) := { hz_w : hsys wop wev bch (wslv TW); hz_r : hsys rop axc rch (rslv TR) }.
Arguments hz_w {TW TR}. Arguments hz_r {TW TR}.
Inductive haop (TW TR : Type) := KW (o : hop wop (wslv TW)) | KR (o : hop rop (rslv TR)).
Arguments KW {TW TR}. Arguments KR {TW TR}.

Section Ax.
Context {TW TR : Type}.
Variable c : mcfg.
Variables widn ridn : Z.
Variable tw : TW -> Z -> list Z -> TW * res unit.
Variable tr : TR -> Z -> Z -> TR * res (list Z).
Variable w2r : TW -> TR -> TR.
Variable r2w : TR -> TW -> TW.
Variables (dW : wev) (dB : bch) (dA : axc) (dRd : rch).

Definition hax_init (t : TW) (t' : TR) : haxs TW TR := {| hz_w := hsys_init (WIdle t); hz_r := hsys_init (RIdle t') |}.
Definition hax_step (z : haxs TW TR) (o : haop TW TR) : haxs TW TR * list aout :=
  match o with
  | KW o => let '(w, os) := whsys_step c widn tw (m_lanes c) true dW dB (hz_w z) o in
            ({| hz_w := w; hz_r := hset_s (hz_r z) (rs_poke (w2r (ws_target (h_s w))) (h_s (hz_r z))) |}, map inl os)
  | KR o => let '(r, os) := rhsys_step c ridn tr (m_lanes c) dA dRd (hz_r z) o in
            ({| hz_w := hset_s (hz_w z) (ws_poke (r2w (rs_target (h_s r))) (h_s (hz_w z))); hz_r := r |}, map inr os)
  end.
Fixpoint hax_run (z : haxs TW TR) (h : list (haop TW TR)) : haxs TW TR * list aout :=
  match h with
  | [] => (z, [])
  | o :: h' => let '(z1, o1) := hax_step z o in let '(z2, o2) := hax_run z1 h' in (z2, o1 ++ o2)
  end.
End Ax.

(** ** AXI-Lite *)
Inductive huop (C S : Type) := HUT (o : uop C S) | HUC (i : chid) (o : chop).
Arguments HUT {C S}. Arguments HUC {C S}.

Section USys.
Context {C E R S : Type}.
Variable sends : C -> list E.
Variable need : C -> nat.
Variable kind : E -> bool.
Variable act : S -> sact R S.
Variable sin : S -> E -> S.
Variable dE : E.
Variable dR : R.

Record husys := { hu_m : eng C E R; hu_a : cchan E; hu_w : cchan E; hu_b : cchan R; hu_s : S }.
Definition husys_init (s0 : S) : husys := {| hu_m := eng_init; hu_a := cc_init; hu_w := cc_init; hu_b := cc_init; hu_s := s0 |}.

Definition hufwd (y : husys) (k : bool) : cchan E := if k then hu_a y else hu_w y.
Definition huset_fwd (y : husys) (k : bool) (c : cchan E) : husys :=
  if k then {| hu_m := hu_m y; hu_a := c; hu_w := hu_w y; hu_b := hu_b y; hu_s := hu_s y |}
  else {| hu_m := hu_m y; hu_a := hu_a y; hu_w := c; hu_b := hu_b y; hu_s := hu_s y |}.
Definition huset_m (y : husys) (m : eng C E R) : husys := {| hu_m := m; hu_a := hu_a y; hu_w := hu_w y; hu_b := hu_b y; hu_s := hu_s y |}.
Definition huset_b (y : husys) (c : cchan R) : husys := {| hu_m := hu_m y; hu_a := hu_a y; hu_w := hu_w y; hu_b := c; hu_s := hu_s y |}.
Definition huset_s (y : husys) (s : S) : husys := {| hu_m := hu_m y; hu_a := hu_a y; hu_w := hu_w y; hu_b := hu_b y; hu_s := s |}.

Definition hum_step (y : husys) (o : gop C R) : husys * list (gout C E R) :=
  let '(m, os) := eng_step sends need (hu_m y) o in (huset_m y m, os).

Definition hu_step (y : husys) (o : huop C S) : husys * list (gout C E R) :=
  match o with
  | HUT (UIssue c) => hum_step y (GIssue c)
  | HUT (UInit c) => hum_step y (GInit c)
  | HUT (UStart n) => hum_step y (GStart n)
  | HUT UGet => hum_step y GGet
  | HUT USend =>
      match unext (hu_m y) with
      | Some e => if cc_room (hufwd y (kind e))
                  then hum_step (huset_fwd y (kind e) (cc_send (hufwd y (kind e)) e)) GSend
                  else (y, [])
      | None => (y, [])
      end
  | HUT URGet => hum_step y GRGet
  | HUT URecv =>
      match uwaits (hu_m y), cc_got (hu_b y) with
      | true, r :: _ => hum_step (huset_b y (cc_recv (hu_b y))) (GResp r)
      | _, _ => (y, [])
      end
  | HUT (ULoad _) | HUT (UXfer _) | HUT ULoadB | HUT UXferB => (y, [])
  | HUT USlave =>
      match act (hu_s y) with
      | AWait k => match cc_got (hufwd y k) with
                   | e :: _ => (huset_s (huset_fwd y k (cc_recv (hufwd y k))) (sin (hu_s y) e), [])
                   | [] => (y, [])
                   end
      | AEmit r s => if cc_room (hu_b y) then (huset_s (huset_b y (cc_send (hu_b y) r)) s, []) else (y, [])
      | ATau s => (huset_s y s, [])
      | ADead => (y, [])
      end
  | HUT (UPoke f) => (huset_s y (f (hu_s y)), [])
  | HUC ChA o => (huset_fwd y true (cc_step dE (hu_a y) o), [])
  | HUC ChW o => (huset_fwd y false (cc_step dE (hu_w y) o), [])
  | HUC ChB o => (huset_b y (cc_step dR (hu_b y) o), [])
  end.
Fixpoint hu_run (y : husys) (h : list (huop C S)) : husys * list (gout C E R) :=
  match h with
  | [] => (y, [])
  | o :: h' => let '(y1, o1) := hu_step y o in let '(y2, o2) := hu_run y1 h' in (y2, o1 ++ o2)
  end.
End USys.
Arguments husys : clear implicits.

(** AxiLiteMasterWrite - AxiLiteSlaveWrite, AxiLiteMasterRead - AxiLiteSlaveRead *)
Definition lwhsys_step {T} (L : Z) (tw : T -> Z -> list Z -> T * res unit) (sp : bool) :=
  hu_step (lite_w_sends L) (lite_w_need L) lw_kind lws_act (lws_in tw L sp).
Definition lrhsys_step {T} (L : Z) (tr : T -> Z -> Z -> T * res (list Z)) :=
  hu_step (lite_r_sends L) (lite_r_need L) lr_kind (lrs_act tr L) lrs_in.

(** AxiLiteMaster - AxiLiteSlave on one target, as M_literw.v *)
Record hlxs (TW TR : Type) := { hv_w : husys (Z * lwcmd) lev resp_t (lwslv TW); hv_r : husys (Z * lrcmd) lax lrd (lrslv TR) }.
Arguments hv_w {TW TR}. Arguments hv_r {TW TR}.
Inductive hlxop (TW TR : Type) := QW (o : huop (Z * lwcmd) (lwslv TW)) | QR (o : huop (Z * lrcmd) (lrslv TR)).
Arguments QW {TW TR}. Arguments QR {TW TR}.

Section Lx.
Context {TW TR : Type}.
Variable L : Z.
Variable tw : TW -> Z -> list Z -> TW * res unit.
Variable tr : TR -> Z -> Z -> TR * res (list Z).
Variable w2r : TW -> TR -> TR.
Variable r2w : TR -> TW -> TW.
Variables (dW : lev) (dB : resp_t) (dA : lax) (dRd : lrd).

Definition hlx_init (t : TW) (t' : TR) : hlxs TW TR := {| hv_w := husys_init (LWIdle t); hv_r := husys_init (LRIdle t') |}.
Definition hlx_step (z : hlxs TW TR) (o : hlxop TW TR) : hlxs TW TR * list lxout :=
  match o with
  | QW o => let '(w, os) := lwhsys_step L tw true dW dB (hv_w z) o in
            ({| hv_w := w; hv_r := huset_s (hv_r z) (lrs_poke (w2r (lws_target (hu_s w))) (hu_s (hv_r z))) |}, map inl os)
  | QR o => let '(r, os) := lrhsys_step L tr dA dRd (hv_r z) o in
            ({| hv_w := huset_s (hv_w z) (lws_poke (r2w (lrs_target (hu_s r))) (hu_s (hv_w z))); hv_r := r |}, map inr os)
  end.
Fixpoint hlx_run (z : hlxs TW TR) (h : list (hlxop TW TR)) : hlxs TW TR * list lxout :=
  match h with
  | [] => (z, [])
  | o :: h' => let '(z1, o1) := hlx_step z o in let '(z2, o2) := hlx_run z1 h' in (z2, o1 ++ o2)
  end.
End Lx.
