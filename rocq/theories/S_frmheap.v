(** Specification vocabulary for frames handed over by reference (M_frmheap.v). *)
From Coq Require Import ZArith List Bool.
From Verif Require Import Py M_stream M_axisframe M_axis M_frmheap.
Import ListNotations.
Open Scope Z_scope.

(** what a variable stands for at a moment: the content of the frame, or a frame with the data only *)
Definition given (h : heap) (v : ref) : frame :=
  match v with
  | RF f => deref h f
  | RL l => {| f_ba := fst (lget h l); f_data := snd (lget h l); f_keep := None; f_id := SNone; f_dest := SNone; f_user := SNone |}
  end.
(** the same history with frames as values: each send carries the content at the moment of the call; the user's other steps do not occur *)
Definition as_value (x : hst) (o : hop) : list aop :=
  match o with
  | HSend t i => match nth_error (h_env x) i with Some v => [ASend t (given (h_heap x) v)] | None => [] end
  | HOp (ASend _ _) => []
  | HOp o => [o]
  | _ => []
  end.
Fixpoint as_values (c : scfg) (x : hst) (l : list hop) : list aop :=
  match l with [] => [] | o :: l' => as_value x o ++ as_values c (h_step c x o) l' end.
Definition can_normalize (o : aop) : Prop := match o with ASend _ f => exists g, normalize f = Ok g | _ => True end.
