(** Specification vocabulary for streams: what the user sends and receives, and subsequences. *)
From Coq Require Import ZArith List Bool.
From Verif Require Import Py M_stream.
Import ListNotations.
Open Scope Z_scope.

Inductive subseq {A} : list A -> list A -> Prop :=
| sub_nil : subseq [] []
| sub_skip : forall x l m, subseq l m -> subseq l (x :: m)
| sub_keep : forall x l m, subseq l m -> subseq (x :: l) (x :: m).

Section S.
Context {A : Type}.

(** A source with an arbitrary receiver: (items for which send succeeded, items accepted at a clock
    edge with valid and ready, state). *)
Fixpoint src_trace (hr : bool) (s : src A) (ops : list (sop A)) : list A * list A * src A :=
  match ops with
  | [] => ([], [], s)
  | o :: ops' =>
      let '(sent, acc, s') := src_trace hr (src_step hr s o) ops' in
      ((match o with SSend x => if src_full s then [] else [x] | _ => [] end) ++ sent,
       (match o with
        | SEdge r => if s_valid s && (negb hr || r) then match s_data s with Some x => [x] | None => [] end else []
        | _ => [] end) ++ acc, s')
  end.

(** source connected to sink: (items sent, items returned by recv, state) *)
Fixpoint chan_trace (dflt : A) (hr : bool) (c : chan A) (ops : list (cop A)) : list A * list A * chan A :=
  match ops with
  | [] => ([], [], c)
  | o :: ops' =>
      let '(sent, got, c') := chan_trace dflt hr (chan_step dflt hr c o) ops' in
      ((match o with CSrc (SSend x) => if src_full (c_src c) then [] else [x] | _ => [] end) ++ sent,
       (match o with CSnk KRecv => firstn 1 (k_q (c_snk c)) | _ => [] end) ++ got, c')
  end.

(** n clock edges *)
Fixpoint clocks (dflt : A) (hr : bool) (n : nat) (c : chan A) : chan A :=
  match n with O => c | S n' => chan_step dflt hr (clocks dflt hr n' c) CClk end.

(** the item on the wires *)
Definition on_wire (s : src A) : list A :=
  if s_valid s then match s_data s with Some x => [x] | None => [] end else [].

(** monitor: (payloads at the clock edges where valid and ready are high, items returned by recv, state) *)
Fixpoint mon_trace (hr : bool) (m : mon A) (ops : list (mop A)) : list A * list A * mon A :=
  match ops with
  | [] => ([], [], m)
  | o :: ops' =>
      let '(seen, got, m') := mon_trace hr (mon_step hr m o) ops' in
      ((match o with MClk => if m_valid m && (negb hr || m_ready m) then [m_data m] else [] | _ => [] end) ++ seen,
       (match o with MRecv => firstn 1 (m_q m) | _ => [] end) ++ got, m')
  end.

(** A sink in an arbitrary environment: API calls, clock edges with arbitrary sampled signals, and
    wake-ups by its signal monitors at any time. *)
Inductive kev := KOp (o : kop) | KClkE (v : bool) (d : A) | KWakeE.
Definition kev_step (hr : bool) (k : snk A) (e : kev) : snk A :=
  match e with KOp o => snk_step hr k o | KClkE v d => snk_edge hr k v d | KWakeE => snk_wake k end.
Definition kev_run (hr : bool) (k : snk A) (l : list kev) : snk A := fold_left (kev_step hr) l k.

Definition src_quiet (o : sop A) : bool :=
  match o with SClear | SReset true => false | _ => true end.
End S.
Arguments kev : clear implicits.
