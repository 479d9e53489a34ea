(** Specification vocabulary for an address space behind a bus: the memory cell an address stands
    for, and targets that store bytes in part of their addresses. *)
From Coq Require Import ZArith List Bool.
From Verif Require Import Py S_flat M_sparse M_memory M_buddy M_aspace S_aspace M_axi S_axi M_axil M_apb S_apb.
Import ListNotations.
Open Scope Z_scope.

(** The location that address [a] of object [i] stands for: memory or peripheral [l], byte [x],
    through at most [lim] objects.  C71_locate: this is the relation [decodes] as a function. *)
Fixpoint locate (lim : nat) (h : heap) (i : nat) (a : Z) : option (nat * Z) :=
  match lim with
  | O => None
  | S lim' =>
    match hget h i with
    | None => None
    | Some o =>
      match o_kind o with
      | KSpace regions _ =>
          match find (fun e => (e_base e <=? a) && (a <? e_base e + e_size e)) regions with
          | Some e => locate lim' h (e_reg e) (translated e a)
          | None => None
          end
      | k =>
          if (0 <=? a) && (a <? o_size o) then
            match k with
            | KWindow off _ => match o_parent o with Some p => locate lim' h p (a + off) | None => None end
            | _ => Some (i, a)
            end
          else None
      end
    end
  end.

(** byte [x] of object [l] as a number, and the bytes of all memories under these numbers ([N]
    objects; what is no memory reads 0) *)
Definition cell (N : Z) (lx : nat * Z) : Z := snd lx * N + Z.of_nat (fst lx).
Definition cells (N : Z) (h : heap) : flat :=
  fun k => match content h (Z.to_nat (k mod N)) (k / N) with Some b => b | None => 0 end.
(** the cell of an address; -1 if the address is nothing *)
Definition cell_of (N : Z) (lim : nat) (h : heap) (i : nat) (a : Z) : Z :=
  match locate lim h i a with Some lx => cell N lx | None => -1 end.

(** address [a] of object [i] is a byte of a memory / is nothing *)
Definition mapped (lim : nat) (h : heap) (i : nat) (a : Z) : Prop :=
  exists d l x, decodes h d i a l x /\ (d <= lim)%nat /\ content h l x <> None.
Definition unmapped (lim : nat) (h : heap) (i : nat) (a : Z) : Prop :=
  forall d l x, decodes h d i a l x -> ~ (d <= lim)%nat.

(** all memories hold bytes *)
Definition holds_bytes (h : heap) : Prop := forall l x b, content h l x = Some b -> is_byte b.

(** number of objects *)
Definition Nof (h : heap) : Z := Z.of_nat (length h).
(** heaps reached by API calls, regions inside their spaces, peripherals that answer with the length asked for, memories that hold bytes *)
Definition space_ok (h : heap) : Prop := a_reach h /\ contained h /\ lawful h /\ holds_bytes h.

(** A target that stores bytes at the addresses of [lo, hi) for which [mp], and raises at the others. *)
Record part_target {T} (L lo hi : Z) (mp : Z -> bool) (phi : Z -> Z) (inv : T -> Prop) (view : T -> flat)
  (tw : T -> Z -> list Z -> T * res unit) (tr : T -> Z -> Z -> T * res (list Z)) : Prop := {
  pt_write : forall t a d, inv t -> are_bytes d -> 0 < zlen d -> lo <= a -> a + zlen d <= hi ->
     down L a = down L (a + zlen d - 1) -> (forall x, a <= x < a + zlen d -> mp x = true) ->
     exists t', tw t a d = (t', Ok tt) /\ inv t' /\ view t' =f put phi (view t) (addressed a d);
  pt_refuse : forall t a d, inv t -> are_bytes d -> 0 < zlen d -> lo <= a -> a + zlen d <= hi ->
     down L a = down L (a + zlen d - 1) -> mp a = false ->
     exists t' e, tw t a d = (t', Err e) /\ inv t' /\ view t' =f view t;
  pt_read : forall t a, inv t -> lo <= a -> a + L <= hi -> a mod L = 0 ->
     (forall x, a <= x < a + L -> mp x = true) ->
     exists t', tr t a L = (t', Ok (map (fun x => view t (phi x)) (zrange a (a + L))))
             /\ inv t' /\ view t' =f view t;
  pt_fail : forall t a x, inv t -> lo <= a -> a + L <= hi -> a mod L = 0 -> a <= x < a + L -> mp x = false ->
     exists t' e, tr t a L = (t', Err e) /\ inv t' /\ view t' =f view t;
  pt_bytes : forall t x, inv t -> is_byte (view t x) }.

(** what a write or a read of the addresses [A, A + n) of such a target reports, and what a read returns: zeros for the addresses
    that are not mapped *)
Definition part_resp (mp : Z -> bool) (A n : Z) : resp_t := if forallb mp (zrange A (A + n)) then OKAY else SLVERR.
Definition part_data (mp : Z -> bool) (phi : Z -> Z) (m : flat) (A n : Z) : list Z :=
  map (fun x => if mp x then m (phi x) else 0) (zrange A (A + n)).
(** the bytes of a write that go to mapped addresses *)
Definition kept (mp : Z -> bool) (bytes : list (Z * Z)) : list (Z * Z) := filter (fun p => mp (fst p)) bytes.

(** a byte memory with holes serving operations one after the other; [ep]: errors can be reported *)
Fixpoint part_serve (ep : bool) (mp : Z -> bool) (phi : Z -> Z) (m : flat) (ops : list aop) : flat * list (aop * option aresp) :=
  match ops with
  | [] => (m, [])
  | x :: ops' =>
      let '(m1, r) := match snd x with
        | ACW w => (put phi m (kept mp (addressed (lc_addr w) (lc_data w))),
                    AWResp (lc_addr w) (zlen (lc_data w)) (if ep then part_resp mp (lc_addr w) (zlen (lc_data w)) else OKAY))
        | ACR r => (m, ARResp (lr_addr r) (part_data mp phi m (lr_addr r) (lr_len r)) (if ep then part_resp mp (lr_addr r) (lr_len r) else OKAY))
        end in
      let '(m2, rs) := part_serve ep mp phi m1 ops' in (m2, (x, Some r) :: rs)
  end.
