(** Specification vocabulary for the calls of a master: what the callers see. *)
From Coq Require Import ZArith List Bool Permutation.
From Verif Require Import Py M_liteeng M_axieng M_apb M_initev.
Import ListNotations.
Open Scope Z_scope.

Section Spec.
Context {S O U C X R : Type}.
Variable beg : U -> option X.
Variable fin : U -> option (X * R).
Variable key : X -> Z.
Variable cmd : X -> C.
Implicit Type l : list (iout U X R).

(** the calls of a history: with the event that shall be set, or None for write()/read() *)
Definition asked (h : list (iop O C)) : list (C * option Z) :=
  flat_map (fun o => match o with ICall c => [(c, None)] | IInit c e => [(c, Some e)] | _ => [] end) h.
(** the calls that came to their end: event set, or returned to the caller *)
Definition ended l : list (option Z * X * R) := flat_map (fun o => match o with IEnd e x r => [(e, x, r)] | _ => [] end) l.
(** what the master did *)
Definition did l : list U := flat_map (fun o => match o with IO u => [u] | _ => [] end) l.
Definition queued l : list X := flat_map (fun u => match beg u with Some x => [x] | None => [] end) (did l).
Definition finished l : list (X * R) := flat_map (fun u => match fin u with Some p => [p] | None => [] end) (did l).
(** the result with which operation k completed; the last one if (on a broken bus) it completed more than once *)
Definition result (k : Z) (us : list U) : option R :=
  fold_left (fun o u => match fin u with Some (y, r) => if key y =? k then Some r else o | None => o end) us None.

(** the operation of a task, once queued; and what it was asked for *)
Definition op_of (t : task C X R) : list X := match t_st t with TNew _ => [] | TWait x | TRet x _ => [x] end.
Definition asked_of (t : task C X R) : C * option Z :=
  (match t_st t with TNew c => c | TWait x | TRet x _ => cmd x end, t_ev t).

(** The promise.  Every call is either still open or came to its end exactly once: the multiset of the calls is that of the calls that ended and of
    those open; each queued operation belongs to exactly one call; a call ends with the result of its own operation and not before that completed;
    an open call whose operation is queued waits exactly as long as the operation did not complete, and knows the result then. *)
Definition kept (h : list (iop O C)) (y : ist S C X R) l : Prop :=
  Permutation (asked h) (map (fun p => (cmd (snd (fst p)), fst (fst p))) (ended l) ++ map asked_of (i_ts y)) /\
  Permutation (queued l) (map (fun p => snd (fst p)) (ended l) ++ flat_map op_of (i_ts y)) /\
  (forall l1 e x r l2, l = l1 ++ IEnd e x r :: l2 -> result (key x) (did l1) = Some r) /\
  (forall t, In t (i_ts y) ->
     match t_st t with
     | TNew _ => True
     | TWait x => result (key x) (did l) = None
     | TRet x r => result (key x) (did l) = Some r
     end).
End Spec.

(** What is seen of the masters: commands that are queued, and the results given to the events of commands
    (AXI and AXI-Lite: the responses of the operation, or nothing if it was flushed by reset). *)
Definition axi_queues {C E R} (u : xout C E R) : option C := match u with XStart c => Some c | _ => None end.
Definition axi_gives {C E R} (u : xout C E R) : option (C * option (list R)) :=
  match u with XDone c _ rs => Some (c, Some rs) | XFlush c => Some (c, None) | _ => None end.
Definition lite_queues {C E R} (u : gout C E R) : option C := match u with M_liteeng.OStart c => Some c | _ => None end.
Definition lite_gives {C E R} (u : gout C E R) : option (C * option (list R)) := match u with ODone c r => Some (c, r) | _ => None end.
Definition apb_queues (u : aout) : option aop := match u with M_apb.OStart x => Some x | _ => None end.
Definition apb_gives (u : aout) : option (aop * option aresp) := match u with OSet x d => Some (x, d) | _ => None end.
