(** Pause generators: StreamPause, AxiStreamPause and ApbPause (stream.py 172-212, axis.py 387-427, apb.py 87-127; the three classes are the same code). *)
From Coq Require Import List Bool.
From Verif Require Import Py M_stream S_stream M_axisframe M_axis S_axis S_axisrun.
Import ListNotations.

(** A generator: value number [i] that it yields, None when it is exhausted. *)
Definition gen := nat -> option bool.

(** Tasks that run _run_pause: started and not run yet; awaiting the clock edge with [i] values drawn; finished. *)
Inductive gtask := GStart (g : gen) | GEdge (g : gen) (i : nat) | GDone.

(** all tasks that were started and not killed, the youngest first; self._pause_cr is not None, then it is the first *)
Record pg := { g_tasks : list gtask; g_cr : bool }.
Definition pg_init : pg := {| g_tasks := []; g_cr := false |}.

Section PG.
Context {Op : Type} (setp : bool -> Op).

(** set_pause_generator(g), clear_pause_generator() is [GSet None]; the tasks started run; a clock edge, [o] is what it does to the component, before it
    if [first] is false; anything else that happens to the component *)
Inductive gop := GSet (g : option gen) | GRun | GClk (first : bool) (o : Op) | GOp (o : Op).

(** one pass of "for val in self._pause_generator", stream.py 210-212: (task, assignments to pause) *)
Definition g_draw (g : gen) (i : nat) : gtask * list Op :=
  match g i with Some v => (GEdge g (S i), [setp v]) | None => (GDone, []) end.
Definition g_start (t : gtask) : gtask * list Op := match t with GStart g => g_draw g 0 | _ => (t, []) end.
Definition g_edge (t : gtask) : gtask * list Op := match t with GEdge g i => g_draw g i | _ => (t, []) end.
Fixpoint g_all (f : gtask -> gtask * list Op) (l : list gtask) : list gtask * list Op :=
  match l with
  | [] => ([], [])
  | t :: l' => let '(t', o) := f t in let '(l1, o') := g_all f l' in (t' :: l1, o ++ o')
  end.

(** what happens to the component, in order *)
Definition pg_step (p : pg) (x : gop) : pg * list Op :=
  match x with
  | GSet g =>        (* 193-203 *)
      let tasks := if g_cr p then tl (g_tasks p) else g_tasks p in
      (match g with
       | Some g => {| g_tasks := GStart g :: tasks; g_cr := true |}
       | None => {| g_tasks := tasks; g_cr := false |}
       end, [])
  | GRun => let '(ts, o) := g_all g_start (g_tasks p) in ({| g_tasks := ts; g_cr := g_cr p |}, o)
  | GClk first o =>  (* a task that was started runs before the edge *)
      let '(ts1, o1) := g_all g_start (g_tasks p) in
      let '(ts2, o2) := g_all g_edge ts1 in
      ({| g_tasks := ts2; g_cr := g_cr p |}, o1 ++ if first then o2 ++ [o] else o :: o2)
  | GOp o => (p, [o])
  end.
Fixpoint pg_run (p : pg) (h : list gop) : pg * list Op :=
  match h with
  | [] => (p, [])
  | x :: h' => let '(p1, o1) := pg_step p x in let '(p2, o2) := pg_run p1 h' in (p2, o1 ++ o2)
  end.
End PG.
Arguments gop : clear implicits. Arguments GSet {Op}. Arguments GRun {Op}. Arguments GClk {Op}. Arguments GOp {Op}.
