(** Specification vocabulary for the operation engines: what an observer of the events sees. *)
From Coq Require Import ZArith List Bool.
From Verif Require Import Py M_liteeng.
Import ListNotations.
Open Scope Z_scope.

Section Spec.
Context {C E R : Type}.
Implicit Type l : list (gout C E R).

(** operations queued, transfers made, responses received, operations completed with responses / with None *)
Fixpoint started l : list C :=
  match l with [] => [] | OStart c :: l' => c :: started l' | _ :: l' => started l' end.
Fixpoint sent l : list E :=
  match l with [] => [] | OSent e :: l' => e :: sent l' | _ :: l' => sent l' end.
Fixpoint received l : list R :=
  match l with [] => [] | OResp r :: l' => r :: received l' | _ :: l' => received l' end.
Fixpoint completed l : list (C * list R) :=
  match l with [] => [] | ODone c (Some rs) :: l' => (c, rs) :: completed l' | _ :: l' => completed l' end.
Fixpoint flushed l : list C :=
  match l with [] => [] | ODone c None :: l' => c :: flushed l' | _ :: l' => flushed l' end.

(** the events after the last reset *)
Fixpoint epoch l : list (gout C E R) :=
  match l with
  | [] => []
  | o :: l' => if existsb (fun x => match x with OReset => true | _ => false end) l' then epoch l'
               else match o with OReset => l' | _ => l end
  end.

(** The other side of the bus does not answer more transfers than it was sent; [ans e]: transfer e is
    answered. *)
Definition answers_follow (ans : E -> bool) l : Prop :=
  forall l1 l2, l = l1 ++ l2 -> (length (received (epoch l1)) <= length (filter ans (sent (epoch l1))))%nat.

(** operations the user initiated in a history *)
Fixpoint initiated (h : list (gop C R)) : list C :=
  match h with [] => [] | (GIssue c | GInit c) :: h' => c :: initiated h' | _ :: h' => initiated h' end.
End Spec.
