(** Specification vocabulary for an AXI-Lite master connected to a slave (M_litesys.v): what serving a write or read
    operation means in terms of the target's calls and of the value the operation returns. *)
From Coq Require Import ZArith List Bool.
From Verif Require Import Py S_flat M_axi S_axi M_axil M_liteeng M_sys S_sys M_litesys.
Import ListNotations.
Open Scope Z_scope.

(** no task and no channel can do anything: only the user can *)
Definition uinternal {C S} (o : uop C S) : Prop := match o with UIssue _ | UInit _ | UPoke _ => False | _ => True end.
Definition uquiescent {C E R S} (step : usys C E R S -> uop C S -> usys C E R S * list (gout C E R)) (y : usys C E R S) : Prop :=
  forall o, uinternal o -> step y o = (y, []).
(** nobody but the slave changes the target *)
Definition uno_poke {C S} (o : uop C S) : Prop := match o with UPoke _ => False | _ => True end.

Definition lite_write_legal (o : Z * lwcmd) : Prop := are_bytes (lc_data (snd o)).

(** the operation was served by the calls cs and answered by rs: the bytes it asked for, in ascending order, all of them
    if no call raised; write() returns SLVERR exactly if a call raised *)
Definition lite_written (L : Z) (o : Z * lwcmd) (x : list resp_t * list call) : Prop :=
  let '(rs, cs) := x in
  lite_write_resp rs = (if existsb failed cs then SLVERR else OKAY) /\
  Forall (call_ok L) cs /\
  incl (calls_bytes cs) (addressed (lc_addr (snd o)) (lc_data (snd o))) /\
  (existsb failed cs = false -> calls_bytes cs = addressed (lc_addr (snd o)) (lc_data (snd o))) /\
  spared L cs (addressed (lc_addr (snd o)) (lc_data (snd o))).

Definition lite_read_legal (o : Z * lrcmd) : Prop := 0 <= lr_len (snd o).

(** the bus words the range touches, in ascending order (one word for an unaligned range of length 0) *)
Definition lite_read_calls (L : Z) (cmd : lrcmd) : list (Z * Z) :=
  map (fun k => (L * k, L)) (zrange (lr_addr cmd / L) ((lr_addr cmd + lr_len cmd + L - 1) / L)).

(** the operation was served by the calls cs and answered by rs: read() returns each byte as the call for its word returned
    it, and SLVERR exactly if a call raised *)
Definition lite_fetched (L : Z) (o : Z * lrcmd) (x : list lrd * list rcall) : Prop :=
  let '(rs, cs) := x in let cmd := snd o in
  map fst cs = lite_read_calls L cmd /\
  snd (lite_read_resp L cmd rs) = (if existsb rfailed cs then SLVERR else OKAY) /\
  (Forall rcall_ok cs -> fst (lite_read_resp L cmd rs) =
     map (fun x => call_byte (znth no_call cs (x / L - lr_addr cmd / L)) x) (zrange (lr_addr cmd) (lr_addr cmd + lr_len cmd))).

(** others may change the target at any time (not the record of the calls) *)
Definition lwothers {T C} (o : uop C (lwslv (T * list call))) : Prop :=
  match o with UPoke f => exists g, f = lws_poke (fun tl => (g (fst tl), snd tl)) | _ => True end.
Definition lrothers {T C} (o : uop C (lrslv (T * list rcall))) : Prop :=
  match o with UPoke f => exists g, f = lrs_poke (fun tl => (g (fst tl), snd tl)) | _ => True end.
