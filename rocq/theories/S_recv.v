(** Specification vocabulary for concurrent blocking receives. *)
From Coq Require Import ZArith List Bool.
From Verif Require Import Py M_stream S_stream M_axisframe M_axis S_axis S_axisrun M_recv.
Import ListNotations.
Open Scope Z_scope.

(** the events are those of a queue with content [q] before and [q'] after: what is taken is the oldest item, and QueueEmpty is raised only
    if there is none *)
Inductive fifo {A K R} : list A -> list (vev A K R) -> list A -> Prop :=
| fifo_nil q : fifo q [] q
| fifo_arr q a evs q' : fifo (q ++ [a]) evs q' -> fifo q (VArr a :: evs) q'
| fifo_take q id k a evs q' : fifo q evs q' -> fifo (a :: q) (VTake id k a :: evs) q'
| fifo_ret q id k r evs q' : fifo q evs q' -> fifo q (VRet id k r :: evs) q'
| fifo_empty id k evs q' : fifo [] evs q' -> fifo [] (VEmpty id k :: evs) q'
| fifo_clr q evs q' : fifo [] evs q' -> fifo q (VClr :: evs) q'.

(** calls made, and calls that returned or raised *)
Definition called {K Op} (h : list (vop K Op)) : list (Z * K) :=
  flat_map (fun o => match o with VCall id k | VNow id k => [(id, k)] | _ => [] end) h.
Definition ended {A K R} (evs : list (vev A K R)) : list (Z * K) :=
  flat_map (fun e => match e with VRet id k _ | VEmpty id k => [(id, k)] | _ => [] end) evs.

(** no receive call hidden among the other events *)
Definition quiet {K Op} (takes : Op -> bool) (o : vop K Op) : Prop := match o with VOp o _ => takes o = false | _ => True end.

(** items taken and results, of the calls [P], in order *)
Definition takes_of {A K R} (P : K -> bool) (evs : list (vev A K R)) : list (Z * K * A) :=
  flat_map (fun e => match e with VTake id k a => if P k then [(id, k, a)] else [] | _ => [] end) evs.
Definition rets_of {A K R} (P : K -> bool) (evs : list (vev A K R)) : list (Z * K * R) :=
  flat_map (fun e => match e with VRet id k r => if P k then [(id, k, r)] else [] | _ => [] end) evs.

Definition is_recv (k : rcall) : bool := match k with CRecv _ => true | CRead _ => false end.
Definition is_read (k : rcall) : bool := negb (is_recv k).
(** what recv(compact) gives for a frame *)
Definition recv_gives (x : Z * rcall * frame) : Z * rcall * rres :=
  let '(id, k, f) := x in (id, k, RFrame (match k with CRecv true => compact f | _ => Ok f end)).
Definition res_bytes (r : rres) : list Z := match r with RBytes l => l | _ => [] end.
Definition read_bytes (evs : list (vev frame rcall rres)) : list Z := flat_map (fun x => res_bytes (snd x)) (rets_of is_read evs).
Definition read_data (evs : list (vev frame rcall rres)) : list Z := flat_map (fun x => cdata (snd x)) (takes_of is_read evs).

(** the receive calls among the other events of the receivers *)
Definition mon_takes {A} (o : mop A) : bool := match o with MRecv => true | _ => false end.
Definition snk_takes {A} (o : kev A) : bool := match o with KOp KRecv => true | _ => false end.
Definition amon_takes (o : nop) : bool := match o with NRecv _ => true | _ => false end.
Definition asnk_takes (o : zev) : bool := match o with ZOp (ZRecv _) => true | _ => false end.

(** calls [P] only, a call is not made between the wake-up of another one and its continuation, the oldest call is woken and continued first, no clear() *)
Section O.
Context {St A K R Op : Type} (q : St -> list A) (step : St -> Op -> St) (clears : Op -> bool).
Variables (enter resume now : K -> St -> list A * St * option R) (takes : Op -> bool) (P : K -> bool).
Definition orderly_op (x : vst St K) (o : vop K Op) : Prop :=
  match o with
  | VCall _ k => v_run x = [] /\ P k = true
  | VNow _ _ => False
  | VRun i => i = O
  | VOp o cs => cs = [] /\ clears o = false /\ takes o = false
  end.
Fixpoint orderly (x : vst St K) (h : list (vop K Op)) : Prop :=
  match h with [] => True | o :: h' => orderly_op x o /\ orderly (fst (vstep q step clears enter resume now x o)) h' end.
End O.

(** what read(count) does that finds a frame or unread bytes: it takes all frames that are there; if that gives bytes, it returns [count] of them (all, if
    [count] is negative; fewer, if there are not so many) and leaves the others, else it waits *)
Definition upto (n : Z) (l : list Z) : nat := if n <? 0 then length l else Z.to_nat n.
Section U.
Context {St : Type} (q : St -> list frame) (readq : St -> list Z).
Definition unread (s : St) : list Z := readq s ++ concat (map cdata (q s)).
Definition reads (id n : Z) (s : St) (x' : vst St rcall) (evs : list (vev frame rcall rres)) : Prop :=
  q (v_s x') = [] /\
  (unread s = [] -> evs = map (VTake id (CRead n)) (q s) /\ In (id, CRead n) (v_wait x') /\ readq (v_s x') = []) /\
  (unread s <> [] -> evs = map (VTake id (CRead n)) (q s) ++ [VRet id (CRead n) (RBytes (firstn (upto n (unread s)) (unread s)))] /\
                     readq (v_s x') = skipn (upto n (unread s)) (unread s)).
End U.
