(** Writes on a bus without byte strobes: what the memory holds afterwards.  Over addresses and bytes only. *)
From Coq Require Import ZArith List Bool.
From Verif Require Import Py S_flat M_axi S_axi.
Import ListNotations.
Open Scope Z_scope.

(** The byte that the beat for the addresses [b, b + nb) of an operation (data [D] at address [A]) carries for address x: 0 if it has none. *)
Definition beat_byte (nb A : Z) (D : list Z) (b x : Z) : Z :=
  if (Z.max A b <=? x) && (x <? Z.min (A + zlen D) (b + nb)) then znth 0 D (x - A) else 0.

(** The operation in beats of nb bytes on a bus of L byte lanes.  In every bus word that it touches - also without bytes, if its address is not
    aligned - the last beat that falls into the word decides about all bytes. *)
Definition unstrobed (L nb A : Z) (D : list Z) (f : flat) : flat := fun x =>
  let e := A + zlen D - 1 in
  if (0 <? A mod nb + zlen D) && (down L A <=? x) && (x <? down L e + L)
  then beat_byte nb A D (Z.min (down nb e) (down L x + L - nb)) x
  else f x.
