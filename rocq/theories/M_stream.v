(** Model of StreamSource, StreamMonitor and StreamSink (/repo/cocotbext/axi/stream.py).

    Each component is a state machine over operations (API calls, signal changes, clock edges).
    Tasks run to their next await.  A clock edge lets every task that awaits it read the signal
    values from before the edge; what it writes is visible afterwards.  An API call that happens at
    the same time as an edge is an operation before or after it.  A task that sleeps on an event
    and is woken runs before the next edge; operation [KRun] lets it run earlier.

    Simplifications: the valid signal is present (ready is optional, [hr]); signals are two-valued;
    payloads are values of an arbitrary type [A] and X is [None]; blocking send/recv are modelled at the
    moment they proceed, i.e. as the corresponding _nowait call. *)
From Coq Require Import ZArith List Bool.
From Verif Require Import Py.
Import ListNotations.
Open Scope Z_scope.

Section Stream.
Context {A : Type}.

(** stream.py 241-245 / 382-386 [full] *)
Definition st_full (limit : Z) (q : list A) : bool := (0 <? limit) && (limit <=? zlen q).

(* ------------------------------------------------------------------ *)
(** * StreamSource, stream.py 214-288 *)

Inductive stask := TDead                 (* killed by reset, 155-157 *)
                 | TEdge                 (* awaiting the clock edge, 267 *)
                 | TSleep.               (* await self.active_event.wait(), 288 *)

Record src := { s_q : list A; s_active : bool;
                s_idle : bool;           (* idle_event is set *)
                s_actev : bool;          (* active_event is set *)
                s_pause : bool; s_limit : Z; s_task : stask;
                s_valid : bool; s_data : option A }.

(** stream.py 92-137, 221-224: constructed without reset asserted, so [_run] was started *)
Definition src_init : src :=
  {| s_q := []; s_active := false; s_idle := true; s_actev := false; s_pause := false; s_limit := -1;
     s_task := TEdge; s_valid := false; s_data := None |}.

Inductive sop := SSend (x : A)           (* send / send_nowait, 226-239 *)
               | SPause (b : bool)       (* pause = b *)
               | SLimit (n : Z)          (* queue_occupancy_limit = n *)
               | SClear                  (* clear(), 145-150 *)
               | SReset (b : bool)       (* _handle_reset(b), 152-166, 253-258 *)
               | SEdge (ready : bool).   (* clock edge, ready sampled *)

(** true: the call raised QueueFull *)
Definition src_full (s : src) : bool := st_full (s_limit s) (s_q s).

(** stream.py 266-288, one pass of the loop after the clock edge *)
Definition src_edge (hr : bool) (s : src) (ready : bool) : src :=
  match s_task s with
  | TEdge =>
      let ready_sample := negb hr || ready in
      let valid_sample := s_valid s in
      if (ready_sample && valid_sample) || negb valid_sample then
        match s_q s with
        | x :: q' =>
            if negb (s_pause s) then
              {| s_q := q'; s_active := true; s_idle := s_idle s; s_actev := s_actev s; s_pause := s_pause s;
                 s_limit := s_limit s; s_task := TEdge; s_valid := true; s_data := Some x |}
            else
              {| s_q := x :: q'; s_active := true; s_idle := s_idle s; s_actev := s_actev s; s_pause := s_pause s;
                 s_limit := s_limit s; s_task := TEdge; s_valid := false; s_data := s_data s |}
        | [] =>
            {| s_q := []; s_active := false; s_idle := true; s_actev := false; s_pause := s_pause s;
               s_limit := s_limit s; s_task := TSleep; s_valid := false; s_data := s_data s |}
        end
      else s
  | _ => s
  end.

Definition src_step (hr : bool) (s : src) (o : sop) : src :=
  match o with
  | SSend x =>
      if src_full s then s else
      {| s_q := s_q s ++ [x]; s_active := s_active s; s_idle := false; s_actev := true; s_pause := s_pause s;
         s_limit := s_limit s; s_task := match s_task s with TSleep => TEdge | t => t end;
         s_valid := s_valid s; s_data := s_data s |}
  | SPause b =>
      {| s_q := s_q s; s_active := s_active s; s_idle := s_idle s; s_actev := s_actev s; s_pause := b;
         s_limit := s_limit s; s_task := s_task s; s_valid := s_valid s; s_data := s_data s |}
  | SLimit n =>
      {| s_q := s_q s; s_active := s_active s; s_idle := s_idle s; s_actev := s_actev s; s_pause := s_pause s;
         s_limit := n; s_task := s_task s; s_valid := s_valid s; s_data := s_data s |}
  | SClear =>
      {| s_q := []; s_active := s_active s; s_idle := true; s_actev := false; s_pause := s_pause s;
         s_limit := s_limit s; s_task := s_task s; s_valid := s_valid s; s_data := s_data s |}
  | SReset true =>
      {| s_q := s_q s; s_active := false; s_idle := match s_q s with [] => true | _ => s_idle s end;
         s_actev := s_actev s; s_pause := s_pause s;
         s_limit := s_limit s; s_task := TDead; s_valid := false; s_data := s_data s |}
  | SReset false =>
      {| s_q := s_q s; s_active := s_active s; s_idle := s_idle s; s_actev := s_actev s; s_pause := s_pause s;
         s_limit := s_limit s; s_task := match s_task s with TDead => TEdge | t => t end;
         s_valid := s_valid s; s_data := s_data s |}
  | SEdge ready => src_edge hr s ready
  end.

(** stream.py 247-248 *)
Definition src_is_idle (s : src) : bool := match s_q s with [] => negb (s_active s) | _ => false end.

(* ------------------------------------------------------------------ *)
(** * StreamMonitor, stream.py 291-367 *)

Inductive mtask := MDead
                 | MStart                (* started, has not evaluated self.wake_event.wait() yet *)
                 | MEdge (null : bool)   (* awaiting the clock edge *)
                 | MSleep.               (* await wake_event *)
(** [null]: wake_event.wait() was evaluated (351) while the event was set, so that awaiting it
    returns at once (cocotb returns a NullTrigger). *)

Record mon := { m_q : list A; m_wake : bool; m_task : mtask; m_valid : bool; m_ready : bool; m_data : A }.

(** stream.py 299-305: freshly constructed, signals v, r, d *)
Definition mon_init (v r : bool) (d : A) : mon :=
  {| m_q := []; m_wake := false; m_task := MStart; m_valid := v; m_ready := r; m_data := d |}.

Inductive mop := MSig (v r : bool) (d : A)    (* the bus signals take these values *)
               | MRecv                        (* recv / recv_nowait *)
               | MClear
               | MReset (b : bool)
               | MRunStart                    (* a started task runs to its first await *)
               | MClk.                        (* clock edge *)

Definition mon_start (m : mon) : mon :=
  {| m_q := m_q m; m_wake := m_wake m;
     m_task := match m_task m with MStart => MEdge (m_wake m) | t => t end;
     m_valid := m_valid m; m_ready := m_ready m; m_data := m_data m |}.

(** stream.py 353-367, the pass after the clock edge *)
Definition mon_edge (hr : bool) (m0 : mon) : mon :=
  let m := mon_start m0 in
  match m_task m with
  | MEdge null =>
      if (negb hr || m_ready m) && m_valid m then
        {| m_q := m_q m ++ [m_data m]; m_wake := m_wake m; m_task := MEdge null;
           m_valid := m_valid m; m_ready := m_ready m; m_data := m_data m |}
      else
        {| m_q := m_q m; m_wake := false; m_task := if null then MEdge null else MSleep;
           m_valid := m_valid m; m_ready := m_ready m; m_data := m_data m |}
  | _ => m
  end.

(** stream.py 331-343: a rising edge of valid or of a present ready sets wake_event *)
Definition rises (a b : bool) : bool := negb a && b.

Definition mon_step (hr : bool) (m : mon) (o : mop) : mon :=
  match o with
  | MSig v r d =>
      let w := rises (m_valid m) v || (hr && rises (m_ready m) r) in
      {| m_q := m_q m; m_wake := m_wake m || w;
         m_task := match m_task m with MSleep => if w then MEdge false else MSleep | t => t end;
         m_valid := v; m_ready := r; m_data := d |}
  | MRecv =>
      {| m_q := tl (m_q m); m_wake := m_wake m; m_task := m_task m;
         m_valid := m_valid m; m_ready := m_ready m; m_data := m_data m |}
  | MClear =>
      {| m_q := []; m_wake := m_wake m; m_task := m_task m;
         m_valid := m_valid m; m_ready := m_ready m; m_data := m_data m |}
  | MReset true =>
      {| m_q := m_q m; m_wake := m_wake m; m_task := MDead;
         m_valid := m_valid m; m_ready := m_ready m; m_data := m_data m |}
  | MReset false =>
      {| m_q := m_q m; m_wake := m_wake m; m_task := match m_task m with MDead => MStart | t => t end;
         m_valid := m_valid m; m_ready := m_ready m; m_data := m_data m |}
  | MRunStart => mon_start m
  | MClk => mon_edge hr m
  end.

(* ------------------------------------------------------------------ *)
(** * StreamSink, stream.py 370-435 (inherits recv, clear and the signal monitors of StreamMonitor) *)

Inductive ktask := KDead
                 | KStart                          (* started by reset release, not run yet *)
                 | KWoken (null : bool)            (* woken, has not read self.pause yet *)
                 | KEdge (null : bool) (ps : bool) (* awaiting the clock edge with pause_sample = ps *)
                 | KSleep.

Record snk := { k_q : list A; k_pause : bool; k_limit : Z; k_wake : bool; k_task : ktask; k_ready : bool }.

(** stream.py 377-380, ready initialised to 0 (375) *)
Definition snk_init (limit : Z) : snk :=
  {| k_q := []; k_pause := false; k_limit := limit; k_wake := false; k_task := KStart; k_ready := false |}.

Definition snk_full (k : snk) : bool := st_full (k_limit k) (k_q k).

(** wake_event.set() *)
Definition snk_wake (k : snk) : snk :=
  {| k_q := k_q k; k_pause := k_pause k; k_limit := k_limit k; k_wake := true;
     k_task := match k_task k with KSleep => KWoken false | t => t end; k_ready := k_ready k |}.

(** a woken or just started task runs to the await of the clock edge (407-412) *)
Definition snk_run (k : snk) : snk :=
  {| k_q := k_q k; k_pause := k_pause k; k_limit := k_limit k; k_wake := k_wake k;
     k_task := match k_task k with
               | KStart => KEdge (k_wake k) (k_pause k)
               | KWoken n => KEdge n (k_pause k)
               | t => t end;
     k_ready := k_ready k |}.

(** stream.py 410-435: the pass after the clock edge with valid and payload sampled *)
Definition snk_edge (hr : bool) (k0 : snk) (valid : bool) (data : A) : snk :=
  let k := snk_run k0 in
  match k_task k with
  | KEdge null ps =>
      let ready_sample := negb hr || k_ready k in
      let q := if ready_sample && valid then k_q k ++ [data] else k_q k in
      let paused := st_full (k_limit k) q || ps in
      let sleep := if hr then (negb valid || paused) && Bool.eqb ps (k_pause k) else negb valid in
      {| k_q := q; k_pause := k_pause k; k_limit := k_limit k;
         k_wake := if sleep then false else k_wake k;
         k_task := if sleep then (if null then KWoken null else KSleep) else KEdge null (k_pause k);
         k_ready := if hr then negb paused else k_ready k |}
  | _ => k
  end.

Inductive kop := KPause (b : bool) | KLimit (n : Z) | KRecv | KClear | KReset (b : bool) | KRun.

Definition snk_step (hr : bool) (k : snk) (o : kop) : snk :=
  match o with
  | KPause b =>   (* 188-191, 395-396 *)
      let k' := if Bool.eqb (k_pause k) b then k else snk_wake k in
      {| k_q := k_q k'; k_pause := b; k_limit := k_limit k'; k_wake := k_wake k'; k_task := k_task k'; k_ready := k_ready k' |}
  | KLimit n =>
      {| k_q := k_q k; k_pause := k_pause k; k_limit := n; k_wake := k_wake k; k_task := k_task k; k_ready := k_ready k |}
  | KRecv =>      (* 309-321, 398-399; QueueEmpty: nothing *)
      match k_q k with
      | [] => k
      | _ :: q' =>
          snk_wake {| k_q := q'; k_pause := k_pause k; k_limit := k_limit k; k_wake := k_wake k; k_task := k_task k; k_ready := k_ready k |}
      end
  | KClear =>     (* 145-150 *)
      {| k_q := []; k_pause := k_pause k; k_limit := k_limit k; k_wake := k_wake k; k_task := k_task k; k_ready := k_ready k |}
  | KReset true =>  (* 152-157, 388-393 *)
      {| k_q := k_q k; k_pause := k_pause k; k_limit := k_limit k; k_wake := k_wake k; k_task := KDead;
         k_ready := if hr then false else k_ready k |}
  | KReset false =>
      {| k_q := k_q k; k_pause := k_pause k; k_limit := k_limit k; k_wake := k_wake k;
         k_task := match k_task k with KDead => KStart | t => t end; k_ready := k_ready k |}
  | KRun => snk_run k
  end.

(* ------------------------------------------------------------------ *)
(** * a source connected to a sink *)

Record chan := { c_src : src; c_snk : snk }.
Definition chan_init (limit : Z) : chan := {| c_src := src_init; c_snk := snk_init limit |}.

Inductive cop := CSrc (o : sop) | CSnk (o : kop) | CClk.

(** valid and ready changes reach the sink's signal monitors (331-343) *)
Definition settle (hr : bool) (c c' : chan) : chan :=
  if rises (s_valid (c_src c)) (s_valid (c_src c')) || (hr && rises (k_ready (c_snk c)) (k_ready (c_snk c')))
  then {| c_src := c_src c'; c_snk := snk_wake (c_snk c') |} else c'.

(** [CSrc (SEdge _)] is not an operation of the composed system (ignored); data X never reaches the
    sink because valid is false then ([dflt] stands for it). *)
Definition chan_step (dflt : A) (hr : bool) (c : chan) (o : cop) : chan :=
  match o with
  | CSrc (SEdge _) => c
  | CSrc o => {| c_src := src_step hr (c_src c) o; c_snk := c_snk c |}
  | CSnk o => {| c_src := c_src c; c_snk := snk_step hr (c_snk c) o |}
  | CClk =>
      let v := s_valid (c_src c) in
      let d := match s_data (c_src c) with Some d => d | None => dflt end in
      let r := k_ready (c_snk c) in
      settle hr c {| c_src := src_edge hr (c_src c) r; c_snk := snk_edge hr (c_snk c) v d |}
  end.
End Stream.
Arguments src : clear implicits. Arguments sop : clear implicits. Arguments mon : clear implicits.
Arguments mop : clear implicits. Arguments snk : clear implicits. Arguments chan : clear implicits.
Arguments cop : clear implicits.
