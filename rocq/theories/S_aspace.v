(** Specification vocabulary for address spaces: which byte of which memory an address of an
    object stands for, independently of how reads and writes are carried out. *)
From Coq Require Import ZArith List Bool.
From Verif Require Import Py M_sparse M_memory M_buddy M_aspace.
Import ListNotations.
Open Scope Z_scope.

(** the address an entry of a space passes on for address [a] of the space *)
Definition translated (e : entry) (a : Z) : Z :=
  match e_off e with None => a | Some off => a - e_base e + off end.

Definition covers (e : entry) (a : Z) : Prop := e_base e <= a < e_base e + e_size e.

Definition is_leaf (k : kind) : Prop :=
  match k with KMem _ | KSparse _ | KPeriph _ => True | _ => False end.

(** [decodes h d i a l x]: address [a] of object [i] is byte [x] of the memory or peripheral [l],
    through a chain of [d] objects *)
Inductive decodes (h : heap) : nat -> nat -> Z -> nat -> Z -> Prop :=
| dec_leaf : forall i a o, hget h i = Some o -> is_leaf (o_kind o) -> 0 <= a < o_size o ->
    decodes h 1 i a i a
| dec_window : forall d i a o off al p l x,
    hget h i = Some o -> o_kind o = KWindow off al -> 0 <= a < o_size o ->
    o_parent o = Some p -> decodes h d p (a + off) l x -> decodes h (S d) i a l x
| dec_space : forall d i a o regions al e l x,
    hget h i = Some o -> o_kind o = KSpace regions al -> In e regions -> covers e a ->
    decodes h d (e_reg e) (translated e a) l x -> decodes h (S d) i a l x.

(** content of byte [x] of object [l], when it is a memory *)
Definition content (h : heap) (l : nat) (x : Z) : option Z :=
  match hget h l with
  | Some o =>
      if (0 <=? x) && (x <? o_size o) then
        match o_kind o with
        | KMem mem => Some (znth 0 mem x)
        | KSparse m => match sm_read m x 1 with Ok [b] => Some b | _ => None end
        | _ => None
        end
      else None
  | None => None
  end.

(** storing one byte at a location; a location that is no memory is unaffected *)
Definition store (c : nat -> Z -> option Z) (l : nat) (x b : Z) : nat -> Z -> option Z :=
  fun l' x' => if Nat.eqb l l' && (x =? x') then match c l x with Some _ => Some b | None => None end
               else c l' x'.

(** storing bytes one after the other *)
Fixpoint stores (c : nat -> Z -> option Z) (locs : list (nat * Z)) (data : list Z)
  : nat -> Z -> option Z :=
  match locs, data with
  | (l, x) :: locs', b :: data' => stores (store c l x b) locs' data'
  | _, _ => c
  end.

(** two ranges share an address *)
Definition overlap (b s b' s' : Z) : Prop := exists x, b <= x < b + s /\ b' <= x < b' + s'.

(** every region lies inside its space and is not empty *)
Definition contained (h : heap) : Prop :=
  forall i o regions al e, hget h i = Some o -> o_kind o = KSpace regions al -> In e regions ->
    0 <= e_base e /\ 0 < e_size e /\ e_base e + e_size e <= o_size o.

(** every peripheral answers a read with as many bytes as it was asked for *)
Definition lawful (h : heap) : Prop :=
  forall i o p log a n d, hget h i = Some o -> o_kind o = KPeriph p ->
    p_rd p log a n = Ok d -> zlen d = n.

(** heaps reached by a history of API calls *)
Definition a_reach (h : heap) : Prop :=
  exists lim ops, h = fst (a_run lim [] ops).

(** [w] is a window, through [k] windows altogether, on range [off, off + size w) of [p], each
    window lying inside its parent *)
Inductive win_chain (h : heap) : nat -> nat -> Z -> nat -> Prop :=
| wc_one : forall w o off al p op, hget h w = Some o -> o_kind o = KWindow off al ->
    o_parent o = Some p -> hget h p = Some op -> 0 <= off -> off + o_size o <= o_size op ->
    win_chain h 1 w off p
| wc_more : forall w o off al p op k off' q, hget h w = Some o -> o_kind o = KWindow off al ->
    o_parent o = Some p -> hget h p = Some op -> 0 <= off -> off + o_size o <= o_size op ->
    win_chain h k p off' q -> win_chain h (S k) w (off + off') q.

(** Trees built top-down: a root space, every later object created or registered (with offset 0
    and its own size) under an object already there. *)
Inductive topdown : heap -> Prop :=
| td_root : forall size, topdown [Obj size (Some 0) None (KSpace [] None)]
| td_place : forall h t size h1 r sp base h2, topdown h -> new_region h t size = (h1, Ok r) ->
    sp <> r -> register_region h1 sp r base None (Some 0) = (h2, Ok tt) -> topdown h2
| td_periph : forall h as_ f g size h1 r sp base h2, topdown h ->
    new_periph h as_ f g size = (h1, Ok r) ->
    sp <> r -> register_region h1 sp r base None (Some 0) = (h2, Ok tt) -> topdown h2
| td_window : forall h i off size h' w, topdown h -> create_window h i off size = (h', Ok w) -> topdown h'
| td_winpool : forall h i off size h' w, topdown h -> create_window_pool h i off size = (h', Ok w) ->
    topdown h'
| td_allocwin : forall h i size h' w, topdown h -> alloc_window h i size = (h', Ok w) -> topdown h'
| td_pool : forall h i base size h' w, topdown h -> create_pool h i base size = (h', Ok w) -> topdown h'
| td_allocreg : forall h i t size h' w, topdown h -> alloc_region h i t size = (h', Ok w) -> topdown h'
| td_read : forall lim h i a n, topdown h -> topdown (fst (rd_obj lim h i a n))
| td_write : forall lim h i a d, topdown h -> topdown (fst (wr_obj lim h i a d)).

(** histories in which no window is itself registered as a region of a space *)
Definition no_window_registered (h : heap) (o : aop) : Prop :=
  match o with
  | ARegister _ r _ _ _ =>
      match hget h r with
      | Some x => match o_kind x with KWindow _ _ => False | _ => True end
      | None => True
      end
  | _ => True
  end.
Fixpoint plain_run (lim : nat) (h : heap) (ops : list aop) : Prop :=
  match ops with
  | [] => True
  | o :: ops' => no_window_registered h o /\ plain_run lim (fst (a_step lim h o)) ops'
  end.
