(** Specification vocabulary for AXI slaves with slow targets. *)
From Coq Require Import ZArith List Bool.
From Verif Require Import Py M_axi S_axi M_axieng M_sys S_sys M_slowslv M_slowaxi.
Import ListNotations.
Open Scope Z_scope.

(** others change the target, not the log of the slave's calls *)
Definition vothers {T C} (o : yop C (wslow (T * list call))) : Prop :=
  match o with YPoke f => exists g, f = vs_poke (fun tl => (g (fst tl), snd tl)) | _ => True end.
Definition vsothers {T} (o : sev wev (wslow (T * list call))) : Prop :=
  match o with SvPoke f => exists g, f = vs_poke (fun tl => (g (fst tl), snd tl)) | _ => True end.
(** the transfers of these bursts *)
Definition burst_transfers (bs : list (axc * list wch)) : list wev := flat_map (fun b => EvAW (fst b) :: map EvW (snd b)) bs.
