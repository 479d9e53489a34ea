(** Specification vocabulary for APB on a target whose accesses take time (M_apbblk.v). *)
From Coq Require Import ZArith List Bool.
From Verif Require Import Py S_flat M_axi S_axi M_axil S_axil M_apb S_apb M_apbblk.
Import ListNotations.
Open Scope Z_scope.

(** the slave is in the middle of an access *)
Definition working {T} (y : gsys T) : bool := match g_task (g_s y) with GT _ => false | _ => true end.
Definition gno_reset (o : gop) : Prop := match o with GK o => no_reset o | GGo => True end.
Definition gop_ok (o : gop) : Prop := match o with GK o => kop_ok o | GGo => True end.
(** the accesses of the target for word j of an operation: the runs of strobed bytes of the j-th address and data of the AXI-Lite transfers (C33); reads of the
    target are one access *)
Definition word_calls (L : Z) (c : acmd) (j : nat) : list (Z * list Z) :=
  match c with
  | ACR _ => []
  | ACW w =>
      match nth_error (law_of (fst (lite_write L w))) j, nth_error (lw_of (fst (lite_write L w))) j with
      | Some a, Some d => match to_bytes (lw_data d) L Little with
                          | Ok data => sw_ops (la_addr a / L * L) data (lw_strb d) (zrange 0 L) 0 None
                          | Err _ => []
                          end
      | _, _ => []
      end
  end.
(** the master's task gets its turn, a clock edge without pauses, then k accesses are done *)
Definition slow_round (k : nat) : list gop := [GK (KM BWake); GK (KEdge false false)] ++ repeat GGo k.
