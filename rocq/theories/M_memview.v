(** Model of regions, memories and RAMs that are given a memory object ([mem=...]) and may share it:
    /repo/cocotbext/axi/address_space.py 53-59, 70-72, 102-104, 188-199, 210-217, 220-231, 242-246; memory.py 29-43; axi_ram.py 33-34, 41-42 (axil_ram.py
    33-34, 41-42, apb.py 625-634 alike).

    A memory object is an mmap, a bytearray or a SparseMemory.  The slices of mmap and bytearray are those of CPython.  Simplifications: a program uses the memory object
    itself only by index and by slices without a step; the access of a RAM to its memory is one step. *)
From Coq Require Import ZArith List Bool.
From Verif Require Import Py M_sparse M_memory M_aspace.
Import ListNotations.
Open Scope Z_scope.

Inductive mobj := MMap (l : list Z) | BArr (l : list Z) | MSparse (m : sparse).
(** len(mem), sparse_memory.py 87-88 *)
Definition mlen (m : mobj) : Z := match m with MMap l | BArr l => zlen l | MSparse s => sm_size s end.

(** mem[a:b] *)
Definition get_slice (m : mobj) (a b : Z) : res (list Z) :=
  match m with
  | MMap l | BArr l => Ok (zslice l (slice_clamp (zlen l) a) (slice_clamp (zlen l) b))
  | MSparse s => sm_getitem s (KSlice (Some a) (Some b) None)
  end.
(** mem[a:b] = d.  mmap: d must be bytes-like and as long as the slice; bytearray: the slice is replaced, whatever its length *)
Definition set_slice (m : mobj) (a b : Z) (d : pydata) : mobj * res unit :=
  match m with
  | MMap l =>
      let a' := slice_clamp (zlen l) a in let b' := slice_clamp (zlen l) b in
      match d with
      | PList _ => (m, Err TypeError)
      | PBytes x => if zlen x =? Z.max 0 (b' - a') then (MMap (zsplice l a' (Z.max a' b') x), Ok tt) else (m, Err IndexError)
      end
  | BArr l =>
      let a' := slice_clamp (zlen l) a in let b' := slice_clamp (zlen l) b in
      if forallb is_byteb (pd_list d) then (BArr (zsplice l a' (Z.max a' b') (pd_list d)), Ok tt) else (m, Err ValueError)
  | MSparse s => let '(s', r) := sm_setitem s (KSlice (Some a) (Some b) None) (pd_list d) in (MSparse s', r)
  end.
(** mem[i] *)
Definition get_int (m : mobj) (i : Z) : res (list Z) :=
  match m with
  | MMap l | BArr l =>
      let i' := if i <? 0 then i + zlen l else i in
      if (i' <? 0) || (zlen l <=? i') then Err IndexError else Ok [znth 0 l i']
  | MSparse s => sm_getitem s (KInt i)
  end.
(** mem[i] = b *)
Definition set_int (m : mobj) (i b : Z) : mobj * res unit :=
  let go l (f : list Z -> mobj) :=
    let i' := if i <? 0 then i + zlen l else i in
    if (i' <? 0) || (zlen l <=? i') then (m, Err IndexError) else if is_byteb b then (f (zsplice l i' (i' + 1) [b]), Ok tt) else (m, Err ValueError) in
  match m with
  | MMap l => go l MMap
  | BArr l => go l BArr
  | MSparse s => let '(s', r) := sm_setitem s (KInt i) [b] in (MSparse s', r)
  end.

(** MemoryRegion, SparseMemoryRegion, Memory (AxiRam, AxiLiteRam, ApbRam) on memory object [v_mem] *)
Inductive vkind := VRegion | VSparse | VMemory.
Record view := View { v_kind : vkind; v_size : Z; v_mem : nat }.

(** read(address, length): 70-72 with 195-196 and 227-228; memory.py 38-39 *)
Definition v_read (v : view) (m : mobj) (a n : Z) : res (list Z) :=
  match v_kind v with
  | VRegion => if range_ok (v_size v) a n then get_slice m a (a + n) else Err ValueError
  | VSparse =>
      if range_ok (v_size v) a n then
        match m with MSparse s => sm_read s a n | BArr _ => Err AttributeError | MMap _ => Err TypeError end
      else Err ValueError
  | VMemory => get_slice m a (a + n)
  end.
(** write(address, data): 102-104 with 198-199 and 230-231; memory.py 41-42 *)
Definition v_write (v : view) (m : mobj) (a : Z) (d : pydata) : mobj * res unit :=
  let n := zlen (pd_list d) in
  match v_kind v with
  | VRegion => if range_ok (v_size v) a n then set_slice m a (a + n) d else (m, Err ValueError)
  | VSparse =>
      if range_ok (v_size v) a n then
        match m with
        | MSparse s => let '(s', r) := sm_write s a (pd_list d) in (MSparse s', r)
        | BArr _ => (m, Err AttributeError)
        | MMap _ => (m, Err TypeError)
        end
      else (m, Err ValueError)
  | VMemory => set_slice m a (a + n) d
  end.

Record gst := { g_mems : list mobj; g_views : list view }.
Inductive gop :=
| GMmap (n : Z) | GBArr (l : list Z) | GSparse (n : Z)          (* a memory object is made *)
| GRegion (k : vkind) (size : Z) (mem : nat)                    (* MemoryRegion / SparseMemoryRegion (size, mem) *)
| GMemory (mem : nat)                                           (* Memory(mem=mem), a RAM *)
| GRead (k : nat) (a n : Z) | GWrite (k : nat) (a : Z) (d : pydata)
| GRamRead (k : nat) (a n : Z) | GRamWrite (k : nat) (a : Z) (d : pydata)   (* a bus access of a RAM *)
| GGet (i : nat) (x : Z) | GSet (i : nat) (x b : Z)             (* mem[x], region[x] *)
| GGetS (i : nat) (a b : Z) | GSetS (i : nat) (a b : Z) (d : pydata).
Inductive gout := GB (l : list Z) | GU | GE (e : exc).
Definition gb (r : res (list Z)) : gout := match r with Ok l => GB l | Err e => GE e end.
Definition gu (r : res unit) : gout := match r with Ok _ => GU | Err e => GE e end.
Fixpoint put {A} (l : list A) (n : nat) (x : A) : list A :=
  match l, n with [], _ => [] | _ :: l', O => x :: l' | y :: l', S n' => y :: put l' n' x end.
Definition g_with (st : gst) (i : nat) (x : mobj * res unit) : gst * gout :=
  ({| g_mems := put (g_mems st) i (fst x); g_views := g_views st |}, gu (snd x)).
Definition g_new (st : gst) (m : mobj) : gst * gout := ({| g_mems := g_mems st ++ [m]; g_views := g_views st |}, GU).
Definition g_view (st : gst) (v : view) : gst * gout := ({| g_mems := g_mems st; g_views := g_views st ++ [v] |}, GU).
(** a view and its memory *)
Definition g_at (st : gst) (k : nat) : option (view * mobj) :=
  match nth_error (g_views st) k with
  | Some v => match nth_error (g_mems st) (v_mem v) with Some m => Some (v, m) | None => None end
  | None => None
  end.
(** one call; an operation on something that does not exist answers Plain, as does the modulus by a size of 0 *)
Definition g_step (st : gst) (o : gop) : gst * gout :=
  match o with
  | GMmap n => if 0 <? n then g_new st (MMap (zeros n)) else (st, GE ValueError)
  | GBArr l => g_new st (BArr l)
  | GSparse n => g_new st (MSparse (sm_init n))
  | GRegion k size i => match k, nth_error (g_mems st) i with VMemory, _ | _, None => (st, GE Plain) | _, Some _ => g_view st (View k size i) end
  | GMemory i =>
      match nth_error (g_mems st) i with
      | Some m => match py_len (mlen m) with Ok n => g_view st (View VMemory n i) | Err e => (st, GE e) end
      | None => (st, GE Plain)
      end
  | GRead k a n => match g_at st k with Some (v, m) => (st, gb (v_read v m a n)) | None => (st, GE Plain) end
  | GWrite k a d => match g_at st k with Some (v, m) => g_with st (v_mem v) (v_write v m a d) | None => (st, GE Plain) end
  | GRamRead k a n =>
      match g_at st k with
      | Some (v, m) => if v_size v =? 0 then (st, GE Plain) else (st, gb (v_read v m (a mod v_size v) n))
      | None => (st, GE Plain)
      end
  | GRamWrite k a d =>
      match g_at st k with
      | Some (v, m) => if v_size v =? 0 then (st, GE Plain) else g_with st (v_mem v) (v_write v m (a mod v_size v) d)
      | None => (st, GE Plain)
      end
  | GGet i x => match nth_error (g_mems st) i with Some m => (st, gb (get_int m x)) | None => (st, GE Plain) end
  | GSet i x b => match nth_error (g_mems st) i with Some m => g_with st i (set_int m x b) | None => (st, GE Plain) end
  | GGetS i a b => match nth_error (g_mems st) i with Some m => (st, gb (get_slice m a b)) | None => (st, GE Plain) end
  | GSetS i a b d => match nth_error (g_mems st) i with Some m => g_with st i (set_slice m a b d) | None => (st, GE Plain) end
  end.
Fixpoint g_run (st : gst) (ops : list gop) : gst * list gout :=
  match ops with
  | [] => (st, [])
  | o :: ops' => let '(st1, r) := g_step st o in let '(st2, rs) := g_run st1 ops' in (st2, r :: rs)
  end.
Definition g_init : gst := {| g_mems := []; g_views := [] |}.
