(** Specification vocabulary for the AXI master: what an observer of the operations and of the bus sees. *)
From Coq Require Import ZArith List Bool.
From Verif Require Import Py M_axieng.
Import ListNotations.
Open Scope Z_scope.

Section Spec.
Context {C E R : Type}.
Implicit Type l : list (xout C E R).

(** operations queued, transfers made, responses received, operations completed with responses / with None *)
Fixpoint xstarted l : list C :=
  match l with [] => [] | XStart c :: l' => c :: xstarted l' | _ :: l' => xstarted l' end.
Fixpoint xsent l : list E :=
  match l with [] => [] | XSent e :: l' => e :: xsent l' | _ :: l' => xsent l' end.
Fixpoint xreceived l : list R :=
  match l with [] => [] | XResp r :: l' => r :: xreceived l' | _ :: l' => xreceived l' end.
Fixpoint xcompleted l : list (C * option Z * list R) :=
  match l with [] => [] | XDone c b rs :: l' => (c, b, rs) :: xcompleted l' | _ :: l' => xcompleted l' end.
Fixpoint xflushed l : list C :=
  match l with [] => [] | XFlush c :: l' => c :: xflushed l' | _ :: l' => xflushed l' end.
Definition xcrashed l : bool := existsb (fun x => match x with XCrash => true | _ => false end) l.

(** the events after the last reset *)
Fixpoint xepoch l : list (xout C E R) :=
  match l with
  | [] => []
  | o :: l' => if existsb (fun x => match x with XReset => true | _ => false end) l' then xepoch l'
               else match o with XReset => l' | _ => l end
  end.

(** IDs of the operations in issue order: the requested one, otherwise the automatic IDs 0, 1, ... in
    turn, k already used *)
Fixpoint assigned (ask : C -> option Z) (idn k : Z) (cs : list C) : list (C * Z) :=
  match cs with
  | [] => []
  | c :: cs' => match ask c with
                | Some t => (c, t) :: assigned ask idn k cs'
                | None => (c, k mod idn) :: assigned ask idn (k + 1) cs'
                end
  end.
Definition with_tag (t : Z) (l : list (C * Z)) : list C := map fst (filter (fun p => snd p =? t) l).

(** operations completed with the responses of ID t *)
Definition completed_on (t : Z) l : list (C * list R) :=
  map (fun d => (fst (fst d), snd d))
    (filter (fun d => match snd (fst d) with Some u => u =? t | None => false end) (xcompleted l)).

(** The other side answers the bursts of each ID in order and not before they were requested.
    [beats e]: the responses answering transfer e, one entry per response, true for the last one of a burst;
    [ok b r]: response r may stand for entry b. *)
Definition answers (rtag : R -> Z) t l : list R := filter (fun r => rtag r =? t) (xreceived l).
Definition owed (etag : E -> Z) (beats : E -> list bool) t l : list bool :=
  flat_map beats (filter (fun e => etag e =? t) (xsent l)).
Definition conforms (etag : E -> Z) (beats : E -> list bool) (ok : bool -> R -> bool) (rtag : R -> Z) l : Prop :=
  forall l1 l2 t, l = l1 ++ l2 ->
    (length (answers rtag t (xepoch l1)) <= length (owed etag beats t (xepoch l1)))%nat /\
    forall i r b, nth_error (answers rtag t (xepoch l1)) i = Some r ->
                  nth_error (owed etag beats t (xepoch l1)) i = Some b -> ok b r = true.

(** operations the user initiated in a history *)
Fixpoint xinitiated (h : list (xop C R)) : list C :=
  match h with [] => [] | (PIssue c | PInit c) :: h' => c :: xinitiated h' | _ :: h' => xinitiated h' end.
End Spec.
