(** Model of /repo/cocotbext/axi/reset.py.

    A component's state and the calls of its [_handle_reset] (in order).  The reset signal is
    modelled with its level: Some true/false, None for X or Z (int() raises ValueError).  The task
    [_run_reset] runs at every change of the signal. *)
From Coq Require Import List Bool.
Import ListNotations.

Record rstate := { r_local : bool; r_ext : bool; r_state : bool; r_calls : list bool; r_sig : option bool }.

(** reset.py 47-51 [_update_reset]; 50-51 calls _handle_reset *)
Definition r_update (s : rstate) : rstate :=
  let n := r_local s || r_ext s in
  if Bool.eqb (r_state s) n then s
  else {| r_local := r_local s; r_ext := r_ext s; r_state := n; r_calls := r_calls s ++ [n]; r_sig := r_sig s |}.

(** reset.py 30-38 [_init_reset]; [level] is the level of the reset signal at that time *)
Definition r_init (level : option bool) : rstate :=
  r_update {| r_local := false; r_ext := false; r_state := true; r_calls := []; r_sig := level |}.

Definition r_set_local (s : rstate) (v : bool) : rstate :=
  r_update {| r_local := v; r_ext := r_ext s; r_state := r_state s; r_calls := r_calls s; r_sig := r_sig s |}.

Inductive rop :=
| RAssert (v : option bool)      (* assert_reset(val) *)
| RSignal (v : option bool).     (* the reset signal takes the value v *)

Definition obool_eqb (a b : option bool) : bool :=
  match a, b with Some x, Some y => Bool.eqb x y | None, None => true | _, _ => false end.

(** reset.py 40-45 [assert_reset]; 56-69 [_run_reset], with active level [act] *)
Definition r_step (act : bool) (s : rstate) (o : rop) : rstate :=
  match o with
  | RAssert None => r_set_local (r_set_local s true) false
  | RAssert (Some v) => r_set_local s v
  | RSignal v =>
      let s' := {| r_local := r_local s; r_ext := r_ext s; r_state := r_state s; r_calls := r_calls s; r_sig := v |} in
      if obool_eqb (r_sig s) v then s
      else match v with
           | None => s'
           | Some true => r_update {| r_local := r_local s; r_ext := act; r_state := r_state s; r_calls := r_calls s; r_sig := v |}
           | Some false => r_update {| r_local := r_local s; r_ext := negb act; r_state := r_state s; r_calls := r_calls s; r_sig := v |}
           end
  end.

Definition r_run (act : bool) (s : rstate) (l : list rop) : rstate := fold_left (r_step act) l s.
