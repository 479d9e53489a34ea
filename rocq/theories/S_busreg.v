(** Specification vocabulary for masters as memories: a target that stores bytes for accesses of any length, a peripheral that
    stores bytes, and the address space with memories in the place of such peripherals. *)
From Coq Require Import ZArith List Bool.
From Verif Require Import Py S_flat M_sparse M_memory M_buddy M_aspace S_aspace S_axi M_axi M_axiargs M_axil M_busreg.
Import ListNotations.
Open Scope Z_scope.

(** as [flat_target] of S_axi.v, but accesses of every length starting inside the range *)
Record byte_store {T} (lo hi : Z) (phi : Z -> Z) (inv : T -> Prop) (view : T -> flat)
  (tw : T -> Z -> list Z -> T * res unit) (tr : T -> Z -> Z -> T * res (list Z)) : Prop := {
  st_write : forall t a d, inv t -> are_bytes d -> lo <= a < hi -> a + zlen d <= hi ->
     exists t', tw t a d = (t', Ok tt) /\ inv t' /\ view t' =f put phi (view t) (addressed a d);
  st_read : forall t a n, inv t -> 0 <= n -> lo <= a < hi -> a + n <= hi ->
     exists t', tr t a n = (t', Ok (map (fun x => view t (phi x)) (zrange a (a + n)))) /\ inv t' /\ view t' =f view t;
  st_bytes : forall t x, inv t -> is_byte (view t x) }.

(** a bus that a master can drive: AXI with a power of two up to 128 of byte lanes *)
Definition bus_good (b : bus) : Prop :=
  0 < bus_lanes b /\ match b with BusAxi c _ _ _ => exists m, ac_lanes c = 2 ^ m /\ 0 <= m <= 7 | _ => True end.
(** the range lies in the bus's addresses and is made of whole bus words *)
Definition bus_fits (lo hi : Z) (b : bus) : Prop :=
  bus_good b /\ lo mod bus_lanes b = 0 /\ hi mod bus_lanes b = 0 /\ 0 <= lo /\ hi <= 2 ^ bus_aw b.

(** A peripheral of [size] bytes that is a byte memory: after the calls [log], all of them inside its range, its bytes are [v log]. *)
Definition call_in (size : Z) (c : pcall) : Prop :=
  match c with PRead a n => 0 <= a < size /\ 0 <= n /\ a + n <= size
             | PWrite a d => are_bytes d /\ 0 <= a < size /\ a + zlen d <= size end.
Definition stores_bytes_at (size : Z) (v : list pcall -> flat) (p : periph) : Prop :=
  forall log, Forall (call_in size) log ->
    (forall a n, call_in size (PRead a n) ->
       p_rd p log a n = Ok (map (v log) (zrange a (a + n))) /\
       forall x, 0 <= x < size -> v (log ++ [PRead a n]) x = v log x) /\
    (forall a d, call_in size (PWrite a d) ->
       p_wr p log a d = Ok tt /\
       forall x, 0 <= x < size -> v (log ++ [PWrite a d]) x = wr (v log) a d x) /\
    (forall x, 0 <= x < size -> is_byte (v log x)).

(** [V i = Some v]: object [i], if it is a peripheral, is a byte memory with the bytes [v] *)
Definition byte_view := nat -> option (list pcall -> flat).
Definition bus_heap (V : byte_view) (h : heap) : Prop :=
  forall i o p v, hget h i = Some o -> o_kind o = KPeriph p -> V i = Some v ->
    0 <= o_size o /\ stores_bytes_at (o_size o) v p /\ Forall (call_in (o_size o)) (p_log p).

(** the heap with a MemoryRegion of the same size and content in the place of each of them *)
Definition as_mem_obj (V : byte_view) (i : nat) (o : obj) : obj :=
  match V i, o_kind o with
  | Some v, KPeriph p => set_kind o (KMem (map (v (p_log p)) (zrange 0 (o_size o))))
  | _, _ => o
  end.
Fixpoint as_mem_from (V : byte_view) (k : nat) (h : heap) : heap :=
  match h with [] => [] | o :: h' => as_mem_obj V k o :: as_mem_from V (S k) h' end.
Definition as_memory (V : byte_view) (h : heap) : heap := as_mem_from V 0 h.

(** API calls with bytes as data; a new peripheral is none of [V] *)
Definition aop_ok (V : byte_view) (h : heap) (o : M_aspace.aop) : Prop :=
  match o with
  | AWrite _ _ d => match d with PBytes l => are_bytes l | PList _ => False end
  | ANewPeriph _ _ _ _ => V (length h) = None
  | _ => True
  end.
Fixpoint aops_ok (V : byte_view) (lim : nat) (h : heap) (l : list M_aspace.aop) : Prop :=
  match l with [] => True | o :: l' => aop_ok V h o /\ aops_ok V lim (fst (a_step lim h o)) l' end.
