(** Model of /repo/cocotbext/axi/sparse_memory.py (lines 28-111). *)
From Coq Require Import ZArith List Bool.
From Verif Require Import Py.
Import ListNotations.
Open Scope Z_scope.

(** sparse_memory.py 29-31: [size] and the dict [segs] from block address to a
    4096-byte bytearray. *)
Record sparse := Sparse { sm_size : Z; sm_segs : dict (list Z) }.

(** sparse_memory.py 29-31 *)
Definition sm_init (size : Z) : sparse := Sparse size [].

(** sparse_memory.py 45-48: self.segs[block_addr], or 4096 zero bytes on KeyError
    (lines 66-69 allocate the same value). *)
Definition sm_block (segs : dict (list Z)) (block_addr : Z) : list Z :=
  match dget segs block_addr with Some b => b | None => zeros 4096 end.

(** sparse_memory.py 41-51: the [while length > 0] loop of [read].
    The loop is given fuel; [sm_read] supplies enough (proved). *)
Fixpoint sm_read_loop (fuel : nat) (segs : dict (list Z)) (address length : Z) (data : list Z)
  : res (list Z) :=
  if 0 <? length then
    match fuel with
    | O => Err OutOfFuel
    | S fuel' =>
        let block_offset := Z.land address 4095 in
        let block_addr := address - block_offset in
        let block_len := Z.min (4096 - block_offset) length in
        let block := sm_block segs block_addr in
        sm_read_loop fuel' segs (address + block_len) (length - block_len)
          (data ++ zslice block block_offset (block_offset + block_len))
    end
  else Ok data.

Definition sm_fuel (length : Z) : nat := Z.to_nat (length / 4096 + 2).

(** sparse_memory.py 33-52 [SparseMemory.read]; **kwargs ignored as in the code. *)
Definition sm_read (m : sparse) (address length : Z) : res (list Z) :=
  if (address <? 0) || (sm_size m <=? address) then Err ValueError
  else if length <? 0 then Err ValueError
  else if sm_size m <? address + length then Err ValueError
  else sm_read_loop (sm_fuel length) (sm_segs m) address length [].

(** sparse_memory.py 61-73: the [while length > 0] loop of [write].  [data] is any
    sequence of ints; a bytearray slice assignment (line 70) raises ValueError, before
    changing the bytearray, when an element is not in range(256). *)
Fixpoint sm_write_loop (fuel : nat) (segs : dict (list Z)) (address : Z) (data : list Z)
    (offset length : Z) : dict (list Z) * res unit :=
  if 0 <? length then
    match fuel with
    | O => (segs, Err OutOfFuel)
    | S fuel' =>
        let block_offset := Z.land address 4095 in
        let block_addr := address - block_offset in
        let block_len := Z.min (4096 - block_offset) length in
        let block := sm_block segs block_addr in
        let segs := dset segs block_addr block in
        let chunk := zslice data offset (offset + block_len) in
        if forallb is_byteb chunk then
          let segs := dset segs block_addr
                        (zsplice block block_offset (block_offset + block_len) chunk) in
          sm_write_loop fuel' segs (address + block_len) data
            (offset + block_len) (length - block_len)
        else (segs, Err ValueError)
    end
  else (segs, Ok tt).

(** sparse_memory.py 54-73 [SparseMemory.write] *)
Definition sm_write (m : sparse) (address : Z) (data : list Z) : sparse * res unit :=
  if (address <? 0) || (sm_size m <=? address) then (m, Err ValueError)
  else if sm_size m <? address + zlen data then (m, Err ValueError)
  else
    let '(segs, r) := sm_write_loop (sm_fuel (zlen data)) (sm_segs m) address data 0 (zlen data) in
    (Sparse (sm_size m) segs, r).

(** sparse_memory.py 75-76 [clear] *)
Definition sm_clear (m : sparse) : sparse := Sparse (sm_size m) [].

(** sparse_memory.py 87-88 [__len__], as seen through the builtin len() *)
Definition sm_len (m : sparse) : res Z := py_len (sm_size m).

(** Keys of [__getitem__]/[__setitem__]: an int or a slice (None allowed per field). *)
Inductive key := KInt (i : Z) | KSlice (start stop step : option Z).

(** slice.indices(size): only the step-1 result is used by the code, other steps are
    rejected by lines 97-98 and 110-111 (step 0 and negative size already by
    slice.indices itself, with ValueError). *)
Definition slice_indices (size : Z) (start stop step : option Z) : res (Z * Z) :=
  if size <? 0 then Err ValueError else
  match step with
  | Some 0 => Err ValueError
  | None | Some 1 =>
      Ok (match start with None => 0 | Some i => slice_clamp size i end,
          match stop with None => size | Some i => slice_clamp size i end)
  | Some _ => Err IndexError
  end.

(** sparse_memory.py 90-98 [__getitem__]; the result of an int key is returned as a
    one-element list. *)
Definition sm_getitem (m : sparse) (k : key) : res (list Z) :=
  match k with
  | KInt i => do d <- sm_read m i 1; Ok (firstn 1 d)
  | KSlice start stop step =>
      do '(a, b) <- slice_indices (sm_size m) start stop step;
      sm_read m a (b - a)
  end.

(** sparse_memory.py 100-111 [__setitem__]; for an int key [value] is the one-element
    list of line 102.  bytes(value) on line 106 raises ValueError for elements outside
    range(256).  Simplification: for slices [value] is a sequence of ints (bytes(5), an
    int argument, is not modelled). *)
Definition sm_setitem (m : sparse) (k : key) (value : list Z) : sparse * res unit :=
  match k with
  | KInt i => sm_write m i value
  | KSlice start stop step =>
      match slice_indices (sm_size m) start stop step with
      | Err e => (m, Err e)
      | Ok (a, b) =>
          if negb (forallb is_byteb value) then (m, Err ValueError)
          else if negb (b - a =? zlen value) then (m, Err IndexError)
          else sm_write m a value
      end
  end.

(** One call of the public API, and its result. *)
Inductive sm_op :=
| SRead (address length : Z)
| SWrite (address : Z) (data : list Z)
| SClear
| SGet (k : key)
| SSetInt (i v : Z)
| SSetSlice (start stop step : option Z) (value : list Z).

Inductive sm_out := OBytes (l : list Z) | OUnit | OErr (e : exc).

Definition out_bytes (r : res (list Z)) : sm_out :=
  match r with Ok l => OBytes l | Err e => OErr e end.
Definition out_unit (r : res unit) : sm_out :=
  match r with Ok _ => OUnit | Err e => OErr e end.

(** dispatch of a call to the methods above *)
Definition sm_step (m : sparse) (o : sm_op) : sparse * sm_out :=
  match o with
  | SRead a n => (m, out_bytes (sm_read m a n))
  | SWrite a d => let '(m', r) := sm_write m a d in (m', out_unit r)
  | SClear => (sm_clear m, OUnit)
  | SGet k => (m, out_bytes (sm_getitem m k))
  | SSetInt i v => let '(m', r) := sm_setitem m (KInt i) [v] in (m', out_unit r)
  | SSetSlice a b s v => let '(m', r) := sm_setitem m (KSlice a b s) v in (m', out_unit r)
  end.

(** a history of calls and the list of their results *)
Fixpoint sm_run (m : sparse) (ops : list sm_op) : sparse * list sm_out :=
  match ops with
  | [] => (m, [])
  | o :: ops' =>
      let '(m1, r) := sm_step m o in
      let '(m2, rs) := sm_run m1 ops' in (m2, r :: rs)
  end.
