(** Specification vocabulary for AXI stream frames. *)
From Coq Require Import ZArith List Bool.
From Verif Require Import Py M_stream M_axisframe M_axis.
Import ListNotations.
Open Scope Z_scope.

(** value of a sideband at byte i: default, constant, or the list extended by its last element *)
Definition side (d : Z) (s : sb) (i : Z) : Z :=
  match s with
  | SNone => d
  | SInt v => v
  | SList l => if i <? zlen l then znth 0 l i else znth 0 l (zlen l - 1)
  end.
Definition keep_at (f : frame) (i : Z) : Z :=
  match f_keep f with None => 1 | Some l => side 1 (SList l) i end.

(** frames whose sidebands can be extended *)
Definition frame_ok (f : frame) : Prop :=
  f_keep f <> Some [] /\ f_id f <> SList [] /\ f_dest f <> SList [] /\ f_user f <> SList [].

(** the elements of l whose tkeep is not 0 *)
Definition kept (k l : list Z) : list Z := map snd (filter (fun p => negb (fst p =? 0)) (combine k l)).

(** [s] represents the per-byte values [l] compactly *)
Definition represents (s : sb) (l : list Z) : Prop :=
  match s with
  | SNone => l = []
  | SInt v => l <> [] /\ Forall (eq v) l
  | SList m => m = l /\ exists x y, In x l /\ In y l /\ x <> y
  end.

(** equality of sidebands as a user reads it *)
Definition sb_same (a b : sb) : Prop :=
  match a, b with
  | SNone, _ => True
  | _, SNone => True
  | SInt v, SInt w => v = w
  | SInt v, SList l => Forall (eq v) l
  | SList l, SInt v => Forall (eq v) l
  | SList l, SList m => l = m
  end.
Definition frame_same (f g : frame) : Prop :=
  f_ba f = f_ba g /\ f_data f = f_data g /\
  match f_keep f, f_keep g with Some k, Some m => k = m | _, _ => True end /\
  sb_same (f_id f) (f_id g) /\ sb_same (f_dest f) (f_dest g) /\ sb_same (f_user f) (f_user g).

(** the beats a source drives for a normalized frame, from byte fo on *)
Fixpoint beats_from (c : scfg) (g : frame) (fuel : nat) (fo : Z) : list beat :=
  match fuel with
  | O => []
  | S n => let '(b, fo', fin) := drive_beat c g fo in b :: if fin then [] else beats_from c g n fo'
  end.
Definition frame_beats (c : scfg) (g : frame) : list beat := beats_from c g (length (f_data g)) 0.

(** what a receiver makes of a sequence of beats: (unfinished frame, finished frames) *)
Fixpoint reassemble (c : scfg) (part : option frame) (l : list beat) : option frame * list frame :=
  match l with
  | [] => (part, [])
  | b :: l' => let '(p, fs) := rx_beat c part b in
               let '(p', fs') := reassemble c p l' in (p', fs ++ fs')
  end.

(** index of the byte that determines tid, tdest, tuser of the beat with byte i of n, L lanes *)
Definition beat_last (L n i : Z) : Z := Z.min ((i / L + 1) * L - 1) (n - 1).

(** bytes are in range *)
Definition cfg_ok (c : scfg) : Prop := 0 < x_lanes c /\ 0 < x_bsize c.
