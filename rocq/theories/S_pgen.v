(** Specification vocabulary for pause generators. *)
From Coq Require Import List Bool.
From Verif Require Import Py M_stream S_stream M_axisframe M_axis S_axis S_axisrun M_pgen.
Import ListNotations.

(** the value after [n] clock cycles of a generator that starts with pause = [p]: value number [n], or the last one if it is exhausted earlier *)
Fixpoint follow (g : gen) (i n : nat) (p : bool) : bool :=
  match g i with
  | None => p
  | Some v => match n with O => v | S n' => follow g (S i) n' v end
  end.

Section S.
Context {Op : Type}.
Definition is_set (x : gop Op) : bool := match x with GSet _ => true | _ => false end.
(** clock edges of a history *)
Definition clocks (h : list (gop Op)) : nat := length (filter (fun x => match x with GClk _ _ => true | _ => false end) h).
(** the component operations of a history *)
Definition comp_ops (h : list (gop Op)) : list Op := flat_map (fun x => match x with GOp o | GClk _ o => [o] | _ => [] end) h.
(** clock edges are clock edges, other operations are not; with [user] set, the user assigns to pause, too *)
Definition well (isclk ip : Op -> bool) (user : bool) (x : gop Op) : Prop :=
  match x with
  | GClk _ o => isclk o = true /\ ip o = false
  | GOp o => isclk o = false /\ (user = false -> ip o = false)
  | _ => True
  end.
(** what the clock edges find if the generator is [g]: as many values as there were edges, one more if the generator's task runs first *)
Fixpoint followed (g : gen) (n : nat) (p : bool) (h : list (gop Op)) : list bool :=
  match h with
  | [] => []
  | GClk first _ :: h' => follow g 0 (if first then S n else n) p :: followed g (S n) p h'
  | _ :: h' => followed g n p h'
  end.
End S.

(** the pause of a component as each of the clock edges finds it *)
Section C.
Context {St Op : Type} (step : St -> Op -> St) (pause : St -> bool) (isclk : Op -> bool).
Fixpoint edges (s : St) (os : list Op) : list bool :=
  match os with [] => [] | o :: os' => (if isclk o then [pause s] else []) ++ edges (step s o) os' end.
End C.

Section F.
Context {St Op : Type} (step : St -> Op -> St) (pause : St -> bool) (isclk ip : Op -> bool) (setp : bool -> Op).
Definition no_set (h : list (gop Op)) : Prop := forallb (fun x => negb (is_set x)) h = true.
(** Whatever happened to the component [s0] and its generators before ([h0]): from set_pause_generator(g) on, clock edge number n finds value number n - 1 of
    [g], or n, if the generator's task runs before the component's; when [g] is exhausted, its last value stays. *)
Definition follows : Prop := forall s0 h0 (g : gen) h, no_set h -> Forall (well isclk ip false) h ->
  let '(p, os0) := pg_run setp pg_init h0 in
  let s := fold_left step os0 s0 in
  edges step pause isclk s (snd (pg_run setp p (GSet (Some g) :: h))) = followed g 0 (pause s) h.
(** Also if the user assigns to pause in between: after clock edge number n pause is value number n. *)
Definition wins : Prop := forall s0 h0 (g : gen) h first o v, no_set h -> Forall (well isclk ip true) h -> well isclk ip true (GClk first o) ->
  (forall i, (i <= S (clocks h))%nat -> g i <> None) -> g (S (clocks h)) = Some v ->
  let '(p, os0) := pg_run setp pg_init h0 in
  pause (fold_left step (os0 ++ snd (pg_run setp p (GSet (Some g) :: h ++ [GClk first o]))) s0) = v.
(** After clear_pause_generator() nobody but the user assigns to pause. *)
Definition cleared : Prop := forall h0 h, no_set h ->
  let '(p, _) := pg_run setp pg_init h0 in snd (pg_run setp p (GSet None :: h)) = comp_ops h.
End F.

(** the pause attribute alone: the base class ApbPause of the APB master and slave *)
Inductive pop := PSet (b : bool) | PEdge | POther.
Definition pop_step (p : bool) (o : pop) : bool := match o with PSet b => b | _ => p end.
