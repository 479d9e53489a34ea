(** Model of ApbMaster and ApbSlave on one reset signal: /repo/cocotbext/axi/apb.py and reset.py.

    Master and slave (M_apb.v) watch the same reset; reset.py 40-63 calls [_handle_reset] of each only when the state of the reset changes, and both calls
    (apb.py 302-332, 523-536) are made before the next clock edge.  Simplification: nothing runs between the two calls. *)
From Coq Require Import ZArith List Bool.
From Verif Require Import Py M_axi M_axil M_apb.
Import ListNotations.
Open Scope Z_scope.

Section Sys.
Context {T : Type}.
Variable tw : T -> Z -> list Z -> T * res unit.
Variable tr : T -> Z -> Z -> T * res (list Z).
Variables (L : Z) (ep : bool).

Inductive yop :=
| YOp (o : kop)                 (* anything but a reset *)
| YReset (b : bool).            (* the reset signal is asserted or released *)
(** the state with whether reset is asserted *)
Definition ysys := (asys T * bool)%type.
Definition y_init (t : T) : ysys := (sys0 t, false).
Definition y_step (y : ysys) (o : yop) : ysys * list aout :=
  match o with
  | YOp (KM (BReset _)) | YOp (KReset _) => (y, [])
  | YOp o => let '(k, os) := k_step tw tr L ep (fst y) o in ((k, snd y), os)
  | YReset b =>
      if Bool.eqb b (snd y) then (y, [])
      else let '(m, os) := a_reset (k_m (fst y)) b in (({| k_m := m; k_s := v_reset (k_s (fst y)) b |}, b), os)
  end.
Fixpoint y_run (y : ysys) (h : list yop) : ysys * list aout :=
  match h with
  | [] => (y, [])
  | o :: h' => let '(y1, o1) := y_step y o in let '(y2, o2) := y_run y1 h' in (y2, o1 ++ o2)
  end.
End Sys.
Arguments ysys : clear implicits.
