(** wait(timeout) of the stream receivers, with simulation time. *)
From Coq Require Import ZArith List Bool.
From Verif Require Import Py M_stream S_stream M_axisframe M_axis S_axis S_axisrun M_rxwait.
Import ListNotations.
Open Scope Z_scope.

(** active_event of a receiver, the simulation time, calls of wait() that block (tag, time at which the Timer fires, if there is
    one), calls that have returned (tag, time).  stream.py 323-329; axis.py 658-664.
    Simplified: active_event.set() and the Timer let the waiting calls return in the same step; the timers of an instant fire before
    anything else happens at it; timeouts are in steps of the simulator and not negative (Timer refuses those). *)
Record rxt := { t_ev : bool; t_now : Z; t_blocked : list (Z * option Z); t_done : list (Z * Z) }.
Definition t_init : rxt := {| t_ev := false; t_now := 0; t_blocked := []; t_done := [] |}.

(** What an event does to the queue: put_nowait and active_event.set() for each item (stream.py 364, 422; axis.py 733, 833); an item or frame is taken
    (stream.py 308-312; axis.py 621-653); clear() (stream.py 145-150; axis.py 357-364); nothing. *)
Inductive rxkind := RArr | RTake | RClr | RNone.
Definition t_event {X} (k : rxkind) (q q' : list X) (w : rxt) : rxt :=
  match k with
  | RArr => if (length q <? length q')%nat
            then {| t_ev := true; t_now := t_now w; t_blocked := []; t_done := t_done w ++ map (fun b => (fst b, t_now w)) (t_blocked w) |} else w
  | RTake => if (length q' <? length q)%nat && isnil q' then {| t_ev := false; t_now := t_now w; t_blocked := t_blocked w; t_done := t_done w |} else w
  | RClr => {| t_ev := false; t_now := t_now w; t_blocked := t_blocked w; t_done := t_done w |}
  | RNone => w
  end.
(** wait(n): `if timeout:` — 0 is no timeout *)
Definition t_wait {X} (q : list X) (t n : Z) (w : rxt) : rxt :=
  if negb (isnil q) || t_ev w then {| t_ev := t_ev w; t_now := t_now w; t_blocked := t_blocked w; t_done := t_done w ++ [(t, t_now w)] |}
  else {| t_ev := t_ev w; t_now := t_now w; t_blocked := t_blocked w ++ [(t, if n =? 0 then None else Some (t_now w + n))]; t_done := t_done w |}.
(** d steps of simulation time pass, in which nothing but timers happens: First(...) ends when the Timer fires *)
Definition t_due (now : Z) (b : Z * option Z) : bool := match snd b with Some x => x <=? now | None => false end.
Definition t_time (d : Z) (w : rxt) : rxt :=
  let now := t_now w + d in
  {| t_ev := t_ev w; t_now := now; t_blocked := filter (fun b => negb (t_due now b)) (t_blocked w);
     t_done := t_done w ++ map (fun b => (fst b, match snd b with Some x => x | None => now end)) (filter (t_due now) (t_blocked w)) |}.

(** a receiver with events E, queue [qq] and the kinds of its events *)
Inductive top (E : Type) := TEv (e : E) | TWait (t n : Z) | TTime (d : Z).
Arguments TEv {E} e. Arguments TWait {E} t n. Arguments TTime {E} d.
Definition t_step {S E X} (step : S -> E -> S) (qq : S -> list X) (kind : E -> rxkind) (x : S * rxt) (o : top E) : S * rxt :=
  match o with
  | TEv e => (step (fst x) e, t_event (kind e) (qq (fst x)) (qq (step (fst x) e)) (snd x))
  | TWait t n => (fst x, t_wait (qq (fst x)) t n (snd x))
  | TTime d => (fst x, t_time d (snd x))
  end.
(** StreamMonitor, StreamSink, AxiStreamMonitor, AxiStreamSink *)
Definition mkind {A} (e : mop A) : rxkind := match e with MRecv => RTake | MClear => RClr | MClk => RArr | _ => RNone end.
Definition kkind {A} (e : kev A) : rxkind := match e with KOp KRecv => RTake | KOp KClear => RClr | KClkE _ _ => RArr | _ => RNone end.
Definition nkind (e : nop) : rxkind := match e with NRecv _ => RTake | NClear => RClr | NClk => RArr | _ => RNone end.
Definition zkind (e : zev) : rxkind := match e with ZOp (ZRecv _) => RTake | ZOp ZClear => RClr | ZClkE _ _ => RArr | _ => RNone end.
