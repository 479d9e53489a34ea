(** Specification vocabulary for APB on a shared memory (M_apbenv.v): the view that S_mport.v takes of a port, for APB. *)
From Coq Require Import ZArith List Bool.
From Verif Require Import Py S_flat M_axi S_axi M_axil M_apb S_apb M_apbenv S_mport.
Import ListNotations.
Open Scope Z_scope.

(** the writes and the reads among the operations *)
Definition awrites (l : list aop) : list (Z * lwcmd) := flat_map (fun x => match x with (i, ACW w) => [(i, w)] | _ => [] end) l.
Definition areads (l : list aop) : list (Z * lrcmd) := flat_map (fun x => match x with (i, ACR r) => [(i, r)] | _ => [] end) l.
(** the results of the writes and of the reads *)
Definition aw_res (l : list (aop * option aresp)) : list ((Z * lwcmd) * resp_t) :=
  flat_map (fun x => match x with ((i, ACW w), Some (AWResp _ _ r)) => [((i, w), r)] | _ => [] end) l.
Definition ar_res (l : list (aop * option aresp)) : list ((Z * lrcmd) * (list Z * resp_t)) :=
  flat_map (fun x => match x with ((i, ACR c), Some (ARResp _ d r)) => [((i, c), (d, r))] | _ => [] end) l.

(** what the user of the master sees; [l k]: the events until moment k *)
Definition apb_view (L : Z) (n : nat) (l : nat -> list aout) : pview := {|
  pv_writes := fun k => map (fun o => addressed (lc_addr (snd o)) (lc_data (snd o))) (awrites (starts (l k)));
  pv_wdone := fun k i => (i < length (aw_res (sets (l k))))%nat;
  pv_wret := fun i r => exists o, nth_error (awrites (starts (l n))) i = Some o /\ nth_error (aw_res (sets (l n))) i = Some (o, r);
  pv_reads := fun k => map (fun o => (lr_addr (snd o), lr_len (snd o))) (areads (starts (l k)));
  pv_rdone := fun k j => (j < length (ar_res (sets (l k))))%nat;
  pv_rret := fun j d => exists o, nth_error (areads (starts (l n))) j = Some o /\ nth_error (ar_res (sets (l n))) j = Some (o, d);
  pv_word := fun j x => x / L |}.

(** steps: no reset, arguments that the calls accept; the others keep the memory's invariant *)
Definition eop_ok {T} (inv : T -> Prop) (o : eop T) : Prop :=
  match o with EK o => no_reset o /\ kop_ok o | EPoke f => forall t, inv t -> inv (f t) end.
Definition is_own {T} (h : list (eop T)) (k : nat) : bool := match nth_error h k with Some (EK _) => true | _ => false end.
(** the steps of master and slave only *)
Definition kops {T} (h : list (eop T)) : list kop := flat_map (fun o => match o with EK o => [o] | EPoke _ => [] end) h.
(** memory and events after the first k steps *)
Definition apb_mem {T} tw tr L ep (t0 : T) h (k : nat) : T := v_t (k_s (fst (e_run tw tr L ep (sys0 t0) (firstn k h)))).
Definition apb_outs {T} tw tr L ep (t0 : T) h (k : nat) : list aout := snd (e_run tw tr L ep (sys0 t0) (firstn k h)).
