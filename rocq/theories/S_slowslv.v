(** Specification vocabulary for slaves with slow targets. *)
From Coq Require Import ZArith List Bool.
From Verif Require Import Py M_axi M_axil M_liteeng S_axi S_sys M_sys M_litesys M_slowslv.
Import ListNotations.
Open Scope Z_scope.

(** others change the target, not the log of the slave's calls *)
Definition lsothers {T C} (o : uop C (lwslow (T * list call))) : Prop :=
  match o with UPoke f => exists g, f = lss_poke (fun tl => (g (fst tl), snd tl)) | _ => True end.
Definition svothers {T} (o : sev lev (lwslow (T * list call))) : Prop :=
  match o with SvPoke f => exists g, f = lss_poke (fun tl => (g (fst tl), snd tl)) | _ => True end.
(** the transfers of these words *)
Definition word_transfers (ws : list (lax * lwd)) : list lev := flat_map (fun p => [LAW (fst p); LW (snd p)]) ws.
