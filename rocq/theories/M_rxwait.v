(** wait() and idle() of the stream receivers: active_event, active and the calls that wait. *)
From Coq Require Import ZArith List Bool.
From Verif Require Import Py M_stream S_stream M_axisframe M_axis S_axis S_axisrun.
Import ListNotations.
Open Scope Z_scope.

(** active_event of a receiver, calls of wait() that block, calls that have returned (no timeout).
    Simplified: active_event.set() lets the waiting calls return in the same step.
    stream.py 106, 309-312, 323-329, 364, 422; axis.py 312, 621-630, 658-664, 733, 833 *)
Record rxw := { w_ev : bool; w_blocked : list Z; w_done : list Z }.
Definition w_init : rxw := {| w_ev := false; w_blocked := []; w_done := [] |}.

Definition isnil {X} (l : list X) : bool := match l with [] => true | _ => false end.

(** put_nowait; active_event.set() for each of the arrivals that turn q into q': all that wait return *)
Definition w_arrive {X} (q q' : list X) (w : rxw) : rxw :=
  if (length q <? length q')%nat then {| w_ev := true; w_blocked := []; w_done := w_done w ++ w_blocked w |} else w.
(** _recv for each item taken: the event is cleared when the queue became empty *)
Definition w_take {X} (q q' : list X) (w : rxw) : rxw :=
  if (length q' <? length q)%nat && isnil q' then {| w_ev := false; w_blocked := w_blocked w; w_done := w_done w |} else w.
(** clear() *)
Definition w_clear (w : rxw) : rxw := {| w_ev := false; w_blocked := w_blocked w; w_done := w_done w |}.
(** wait(): returns at once if not empty or the event is set *)
Definition w_wait {X} (q : list X) (t : Z) (w : rxw) : rxw :=
  if negb (isnil q) || w_ev w then {| w_ev := w_ev w; w_blocked := w_blocked w; w_done := w_done w ++ [t] |}
  else {| w_ev := w_ev w; w_blocked := w_blocked w ++ [t]; w_done := w_done w |}.

(** an operation or event of the receiver, or a call of wait() with a tag *)
Inductive wop (E : Type) := WEv (e : E) | WWait (t : Z).
Arguments WEv {E} e. Arguments WWait {E} t.

(** ** StreamMonitor and StreamSink *)
Definition wmon_step {A} (hr : bool) (x : mon A * rxw) (o : wop (mop A)) : mon A * rxw :=
  let '(m, w) := x in
  match o with
  | WWait t => (m, w_wait (m_q m) t w)
  | WEv e =>
      let m' := mon_step hr m e in
      (m', match e with MRecv => w_take (m_q m) (m_q m') w | MClear => w_clear w | MClk => w_arrive (m_q m) (m_q m') w | _ => w end)
  end.
Definition wsnk_step {A} (hr : bool) (x : snk A * rxw) (o : wop (kev A)) : snk A * rxw :=
  let '(k, w) := x in
  match o with
  | WWait t => (k, w_wait (k_q k) t w)
  | WEv e =>
      let k' := kev_step hr k e in
      (k', match e with KOp KRecv => w_take (k_q k) (k_q k') w | KOp KClear => w_clear w | KClkE _ _ => w_arrive (k_q k) (k_q k') w | _ => w end)
  end.

(** ** AxiStreamMonitor and AxiStreamSink, with self.active *)
(** bool(frame) of the local frame *)
Definition part_true (p : option frame) : bool := match p with Some f => 0 <? zlen (f_data f) | None => false end.

(** axis.py 375, 682, 704-738 *)
Definition amon_act (c : scfg) (m : amon) (act : bool) (o : nop) : bool :=
  let act0 := match n_task m with MStart => false | _ => act end in
  match o with
  | NReset true => false
  | NRunStart => act0
  | NClk =>
      let m1 := amon_start m in
      match n_task m1 with
      | MEdge _ => if (negb (x_ready c) || n_ready m) && n_valid m then (if part_true (n_part m1) then act0 else true) else part_true (n_part m1)
      | _ => act0
      end
  | _ => act
  end.
(** axis.py 375, 781, 805-836 *)
Definition asnk_act (c : scfg) (k : asnk) (act : bool) (e : zev) : bool :=
  let act0 := match z_task k with KStart => false | _ => act end in
  match e with
  | ZOp (ZReset true) => false
  | ZOp ZRun => act0
  | ZClkE v _ =>
      let k1 := asnk_run k in
      match z_task k1 with
      | KEdge _ _ => if (negb (x_ready c) || z_ready k) && v then (if part_true (z_part k1) then act0 else true) else part_true (z_part k1)
      | _ => act0
      end
  | _ => act
  end.

Record wamon := { wn_m : amon; wn_act : bool; wn_w : rxw }.
Record wasnk := { wz_k : asnk; wz_act : bool; wz_w : rxw }.
Definition wamon_init v r b : wamon := {| wn_m := amon_init v r b; wn_act := false; wn_w := w_init |}.
Definition wasnk_init lb lf : wasnk := {| wz_k := asnk_init lb lf; wz_act := false; wz_w := w_init |}.

Definition wamon_step (c : scfg) (x : wamon) (o : wop nop) : wamon :=
  let m := wn_m x in
  match o with
  | WWait t => {| wn_m := m; wn_act := wn_act x; wn_w := w_wait (n_q m) t (wn_w x) |}
  | WEv e =>
      let m' := amon_step c m e in
      {| wn_m := m'; wn_act := amon_act c m (wn_act x) e;
         wn_w := match e with NRecv _ => w_take (n_q m) (n_q m') (wn_w x) | NClear => w_clear (wn_w x) | NClk => w_arrive (n_q m) (n_q m') (wn_w x) | _ => wn_w x end |}
  end.
Definition wasnk_step (c : scfg) (x : wasnk) (o : wop zev) : wasnk :=
  let k := wz_k x in
  match o with
  | WWait t => {| wz_k := k; wz_act := wz_act x; wz_w := w_wait (z_q k) t (wz_w x) |}
  | WEv e =>
      let k' := zev_step c k e in
      {| wz_k := k'; wz_act := asnk_act c k (wz_act x) e;
         wz_w := match e with ZOp (ZRecv _) => w_take (z_q k) (z_q k') (wz_w x) | ZOp ZClear => w_clear (wz_w x) | ZClkE _ _ => w_arrive (z_q k) (z_q k') (wz_w x) | _ => wz_w x end |}
  end.

(** idle(), axis.py 655-656 *)
Definition wamon_idle (x : wamon) : bool := negb (wn_act x).
Definition wasnk_idle (x : wasnk) : bool := negb (wz_act x).
