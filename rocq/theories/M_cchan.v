(** A StreamSource connected to a StreamSink, clock edge by clock edge, inside a larger system.

    Sources: /repo/cocotbext/axi/stream.py 214-290 (source), 291-367 (monitor), 370-435 (sink), and the components of M_stream.v.
    M_stream.v lets source and sink see a clock edge at once.  Here their two passes through the loop body after an edge are steps of their
    own, in any order, with steps of other tasks before, between and after them, because the tasks that await an edge are resumed one after
    the other:
    - [OEdge]: the edge.  The signals of this moment are what both passes sample (267-270, 410-416): a value written by a task is not visible
      before every task has run.  A task that sleeps on its event at this moment (288, 435) does not see the edge; one that was woken but has not run since
      runs first.
    - [OSrc], [OSnk]: the pass of the source (266-288), of the sink (412-435).  Passes still to come are made before the next edge.
    - after both passes the signals change, and a rising valid or ready sets the sink's wake_event (331-343).
    queue_occupancy_limit is 2 on both sides, as the masters and slaves set it (axi_master.py 212-216, 654-656; axi_slave.py 54-58, 225-227;
    axil_master.py 101-106, 361-364; axil_slave.py 53-58, 179-182).  ready is present.  Simplification: no clear() and no reset here. *)
From Coq Require Import ZArith List Bool.
From Verif Require Import Py M_stream.
Import ListNotations.
Open Scope Z_scope.

Section C.
Context {A : Type}.
Variable dflt : A.              (* stands for X on the payload signals *)

(** valid, payload and ready as sampled; has the source, has the sink made its pass? *)
Record edge := { ed_v : bool; ed_d : A; ed_r : bool; ed_src : bool; ed_snk : bool }.
Record cchan := { cc_src : src A; cc_snk : snk A; cc_edge : option edge }.

Definition cc_init : cchan := {| cc_src := src_step true src_init (SLimit 2); cc_snk := snk_init 2; cc_edge := None |}.

(** the signals change when both passes are made *)
Definition cc_settle (c : cchan) : cchan :=
  match cc_edge c with
  | Some e =>
      if ed_src e && ed_snk e then
        {| cc_src := cc_src c;
           cc_snk := if rises (ed_v e) (s_valid (cc_src c)) || rises (ed_r e) (k_ready (cc_snk c)) then snk_wake (cc_snk c) else cc_snk c;
           cc_edge := None |}
      else c
  | None => c
  end.

Definition cc_srcpass (c : cchan) : cchan :=
  match cc_edge c with
  | Some e =>
      if ed_src e then c else
      cc_settle {| cc_src := src_edge true (cc_src c) (ed_r e); cc_snk := cc_snk c;
                   cc_edge := Some {| ed_v := ed_v e; ed_d := ed_d e; ed_r := ed_r e; ed_src := true; ed_snk := ed_snk e |} |}
  | None => c
  end.
Definition cc_snkpass (c : cchan) : cchan :=
  match cc_edge c with
  | Some e =>
      if ed_snk e then c else
      cc_settle {| cc_src := cc_src c; cc_snk := snk_edge true (cc_snk c) (ed_v e) (ed_d e);
                   cc_edge := Some {| ed_v := ed_v e; ed_d := ed_d e; ed_r := ed_r e; ed_src := ed_src e; ed_snk := true |} |}
  | None => c
  end.

(** the edge: who awaits it will make a pass *)
Definition cc_sample (c : cchan) : cchan :=
  let k := snk_run (cc_snk c) in
  cc_settle {| cc_src := cc_src c; cc_snk := k;
     cc_edge := Some {| ed_v := s_valid (cc_src c); ed_d := match s_data (cc_src c) with Some d => d | None => dflt end; ed_r := k_ready k;
                        ed_src := match s_task (cc_src c) with TEdge => false | _ => true end;
                        ed_snk := match k_task k with KEdge _ _ => false | _ => true end |} |}.

Inductive chop :=
| OPauseS (b : bool) | OPauseK (b : bool)    (* pause = b of the source, of the sink *)
| ORun                                       (* a woken sink task runs to the await of the clock edge *)
| OEdge | OSrc | OSnk.

Definition cc_step (c : cchan) (o : chop) : cchan :=
  match o with
  | OPauseS b => {| cc_src := src_step true (cc_src c) (SPause b); cc_snk := cc_snk c; cc_edge := cc_edge c |}
  | OPauseK b => {| cc_src := cc_src c; cc_snk := snk_step true (cc_snk c) (KPause b); cc_edge := cc_edge c |}
  | ORun => {| cc_src := cc_src c; cc_snk := snk_run (cc_snk c); cc_edge := cc_edge c |}
  | OEdge => cc_sample (cc_srcpass (cc_snkpass c))
  | OSrc => cc_srcpass c
  | OSnk => cc_snkpass c
  end.

(** send (226-232): proceeds when the queue is not full; recv (309-321): when it is not empty *)
Definition cc_room (c : cchan) : bool := negb (src_full (cc_src c)).
Definition cc_send (c : cchan) (x : A) : cchan := {| cc_src := src_step true (cc_src c) (SSend x); cc_snk := cc_snk c; cc_edge := cc_edge c |}.
Definition cc_got (c : cchan) : list A := k_q (cc_snk c).
Definition cc_recv (c : cchan) : cchan := {| cc_src := cc_src c; cc_snk := snk_step true (cc_snk c) KRecv; cc_edge := cc_edge c |}.
End C.
Arguments edge : clear implicits. Arguments cchan : clear implicits.
