(** Specification vocabulary for AXI-Lite: over the channel payloads only. *)
From Coq Require Import ZArith List Bool.
From Verif Require Import Py S_flat M_axi S_axi M_axil.
Import ListNotations.
Open Scope Z_scope.

(** (address, byte) pairs selected by the strobes of a word written at address [a] *)
Definition lite_strobed (L : Z) (a : lax) (w : lwd) : list (Z * Z) :=
  map (fun i => (down L (la_addr a) + i, lane_byte (lw_data w) i))
      (filter (fun i => Z.testbit (lw_strb w) i) (zrange 0 L)).

(** all (address, byte) pairs of a sequence of AW and W transfers *)
Definition lite_bytes (L : Z) (aws : list lax) (ws : list lwd) : list (Z * Z) :=
  flat_map (fun p => lite_strobed L (fst p) (snd p)) (combine aws ws).

(** The recorded target calls for one word: they write the strobed bytes (all lanes if the bus has no
    wstrb) in ascending order, up to and including the first call that raised. *)
Definition lite_calls (L : Z) (strb_present : bool) (a : lax) (w : lwd) (calls : list (Z * list Z * res unit)) : Prop :=
  (exists rest,
     lite_strobed L a {| lw_data := lw_data w; lw_strb := if strb_present then lw_strb w else 2 ^ L - 1 |}
       = calls_bytes calls ++ rest /\ (existsb failed calls = false -> rest = [])) /\
  Forall (fun e => snd (fst e) <> []) calls.
