(** An APB master and slave (apb.py) on a target that others use too: another bus interface on the same memory, or the program through
    Memory and SparseMemory (memory.py 38-42, apb.py 627-634: ApbRam is a Memory; `mem` may be shared, memory.py 31-34).

    Between any two steps of the master and the slave (M_apb.v: [k_step]) somebody else may change the target, by an arbitrary
    function of its state.  Simplifications: those of M_apb.v; the accesses of one word by the slave (apb.py 560-612) are one step, because they do not block. *)
From Coq Require Import ZArith List Bool.
From Verif Require Import Py M_axi M_axil M_apb.
Import ListNotations.
Open Scope Z_scope.

Section Env.
Context {T : Type}.
Variable t_write : T -> Z -> list Z -> T * res unit.
Variable t_read : T -> Z -> Z -> T * res (list Z).
Variable L : Z.
Variable ep : bool.

Inductive eop :=
| EK (o : kop)                   (* a step of master and slave *)
| EPoke (f : T -> T).            (* somebody else uses the target *)
Definition k_poke (f : T -> T) (y : asys T) : asys T :=
  {| k_m := k_m y;
     k_s := {| v_task := v_task (k_s y); v_pready := v_pready (k_s y); v_prdata := v_prdata (k_s y); v_pslverr := v_pslverr (k_s y); v_t := f (v_t (k_s y)) |} |}.
Definition e_step (y : asys T) (o : eop) : asys T * list aout :=
  match o with
  | EK o => k_step t_write t_read L ep y o
  | EPoke f => (k_poke f y, [])
  end.
Fixpoint e_run (y : asys T) (h : list eop) : asys T * list aout :=
  match h with
  | [] => (y, [])
  | o :: h' => let '(y1, o1) := e_step y o in let '(y2, o2) := e_run y1 h' in (y2, o1 ++ o2)
  end.
End Env.
Arguments eop : clear implicits.
