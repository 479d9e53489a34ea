(** Specification vocabulary for the rate of transfers of a channel. *)
From Coq Require Import ZArith List Bool.
From Verif Require Import Py M_stream S_stream M_axisframe M_axis S_axis S_axisrun.
Import ListNotations.
Open Scope Z_scope.

(** What an observer notes about one clock edge: a transfer happens; the source is paused; the sink was paused at some moment, at every moment since the
    previous edge; and there is something to transfer at the next one. *)
Record note := { nt_xfer : bool; nt_srcp : bool; nt_snkp : bool; nt_snkpp : bool; nt_more : bool }.
(** an edge at which nothing but the observed pauses could hold up the next transfer *)
Definition open_edge (e : note) : bool := nt_more e && negb (nt_srcp e) && negb (nt_snkp e).
(** the edge [e] decides what happens at the next one, [e']: an open edge is followed by a transfer; if the sink was paused all the time before [e] (and
    there is a ready signal), or the source is paused when an item goes, none follows *)
Definition next_ok (hr : bool) (e e' : note) : Prop :=
  (open_edge e = true -> nt_xfer e' = true) /\ (hr = true -> nt_snkpp e = true -> nt_xfer e' = false) /\ (nt_srcp e = true -> nt_xfer e = true -> nt_xfer e' = false).
Definition count (f : note -> bool) (l : list note) : nat := length (filter f l).

Section S.
Context {A : Type}.
(** valid and ready *)
Definition offered (hr : bool) (c : chan A) : bool := s_valid (c_src c) && (negb hr || k_ready (c_snk c)).
(** an item is offered and not accepted, or there is another one *)
Definition more (hr : bool) (c : chan A) : bool :=
  match s_q (c_src c) with [] => s_valid (c_src c) && negb (negb hr || k_ready (c_snk c)) | _ => true end.
(** [some], [every]: sink paused at some, at every moment since the previous edge *)
Fixpoint notes (dflt : A) (hr : bool) (c : chan A) (some every : bool) (h : list (cop A)) : list note :=
  match h with
  | [] => []
  | o :: h' =>
      let c' := chan_step dflt hr c o in
      let p := k_pause (c_snk c') in
      match o with
      | CClk => {| nt_xfer := offered hr c; nt_srcp := s_pause (c_src c); nt_snkp := some; nt_snkpp := every; nt_more := more hr c |} :: notes dflt hr c' p p h'
      | _ => notes dflt hr c' (some || p) (every && p) h'
      end
  end.
Definition chan_end (dflt : A) (hr : bool) (c : chan A) (h : list (cop A)) : chan A := fold_left (chan_step dflt hr) h c.
(** no reset, no limit on the sink *)
Definition plain (o : cop A) : Prop :=
  match o with CSrc (SReset _) => False | CSnk (KReset _) => False | CSnk (KLimit n) => n <= 0 | _ => True end.
End S.

Section X.
Definition aoffered (c : scfg) (h : achan) : bool := a_valid (ac_src h) && (negb (x_ready c) || z_ready (ac_snk h)).
(** a beat is offered and not accepted, the frame goes on, or the next frame in the queue has a byte *)
Definition amore (c : scfg) (h : achan) : bool :=
  (a_valid (ac_src h) && negb (negb (x_ready c) || z_ready (ac_snk h))) || ftrue (a_cur (ac_src h)) ||
  match a_q (ac_src h) with (_, f) :: _ => 0 <? zlen (f_data f) | [] => false end.
Fixpoint anotes (c : scfg) (x : achan) (some every : bool) (h : list acop) : list note :=
  match h with
  | [] => []
  | o :: h' =>
      let x' := achan_step c x o in
      let p := z_pause (ac_snk x') in
      match o with
      | ACClk => {| nt_xfer := aoffered c x; nt_srcp := a_pause (ac_src x); nt_snkp := some; nt_snkpp := every; nt_more := amore c x |} :: anotes c x' p p h'
      | _ => anotes c x' (some || p) (every && p) h'
      end
  end.
Definition achan_end (c : scfg) (x : achan) (h : list acop) : achan := fold_left (achan_step c) h x.
(** beats of a frame: its bytes divided by the lanes of the bus, rounded up *)
Definition beats_of (c : scfg) (f : frame) : nat := Z.to_nat ((zlen (f_data f) + x_lanes c - 1) / x_lanes c).
(** no reset, no limits on the sink, frames that can be sent *)
Definition aplain (o : acop) : Prop :=
  match o with
  | ACSrc (AReset _) | ACSnk (ZReset _) => False
  | ACSrc (ASend _ f) => exists g, normalize f = Ok g
  | ACSnk (ZLimits lb lf) => lb <= 0 /\ lf <= 0
  | _ => True
  end.
End X.
