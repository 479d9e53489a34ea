(** Model of /repo/cocotbext/axi/memory.py (lines 29-92), over a SparseMemory
    (the default backing store, line 34). *)
From Coq Require Import ZArith List Bool.
From Verif Require Import Py M_sparse.
Import ListNotations.
Open Scope Z_scope.

(** memory.py 30-36 [Memory.__init__] with mem=None: SparseMemory(size), then len(mem). *)
Definition mem_new (size : Z) : res sparse :=
  let mem := sm_init size in
  do n <- sm_len mem; Ok mem.

(** memory.py 38-39: self.mem[address:address+length] *)
Definition mem_read (m : sparse) (address length : Z) : res (list Z) :=
  sm_getitem m (KSlice (Some address) (Some (address + length)) None).

(** memory.py 41-42: self.mem[address:address+len(data)] = data *)
Definition mem_write (m : sparse) (address : Z) (data : list Z) : sparse * res unit :=
  sm_setitem m (KSlice (Some address) (Some (address + zlen data)) None) data.

(** memory.py 46-48: data.extend(w.to_bytes(ws, byteorder)) for each word *)
Fixpoint words_to_bytes (words : list Z) (bo : byteorder) (ws : Z) : res (list Z) :=
  match words with
  | [] => Ok []
  | w :: words' =>
      do b <- to_bytes w ws bo;
      do r <- words_to_bytes words' bo ws;
      Ok (b ++ r)
  end.

(** memory.py 44-49 [write_words] *)
Definition mem_write_words (m : sparse) (address : Z) (words : list Z) (bo : byteorder) (ws : Z)
  : sparse * res unit :=
  match words_to_bytes words bo ws with
  | Err e => (m, Err e)
  | Ok data => mem_write m address data
  end.

(** memory.py 71-74: int.from_bytes(data[ws*k:ws*(k+1)]) for k in range(count); ws >= 0 *)
Definition bytes_to_words (data : list Z) (count : Z) (bo : byteorder) (ws : Z) : list Z :=
  map (fun k => from_bytes (zslice data (ws * k) (ws * (k + 1))) bo) (zrange 0 count).

(** memory.py 69-74 [read_words] *)
Definition mem_read_words (m : sparse) (address count : Z) (bo : byteorder) (ws : Z)
  : res (list Z) :=
  do data <- mem_read m address (count * ws);
  Ok (bytes_to_words data count bo ws).

(** memory.py 51-55, 76-80 *)
Definition mem_write_dwords m a d bo := mem_write_words m a d bo 4.
Definition mem_write_qwords m a d bo := mem_write_words m a d bo 8.
Definition mem_read_dwords m a n bo := mem_read_words m a n bo 4.
Definition mem_read_qwords m a n bo := mem_read_words m a n bo 8.

(** l[0] of a returned list: IndexError when empty *)
Definition head_res {A} (l : list A) : res A :=
  match l with [] => Err IndexError | x :: _ => Ok x end.

(** memory.py 57-67 *)
Definition mem_write_byte m a b := mem_write m a [b].
Definition mem_write_word m a w bo ws := mem_write_words m a [w] bo ws.
Definition mem_write_dword m a w bo := mem_write_dwords m a [w] bo.
Definition mem_write_qword m a w bo := mem_write_qwords m a [w] bo.

(** memory.py 82-92 *)
Definition mem_read_byte m a : res Z := do d <- mem_read m a 1; head_res d.
Definition mem_read_word m a bo ws : res Z := do d <- mem_read_words m a 1 bo ws; head_res d.
Definition mem_read_dword m a bo : res Z := do d <- mem_read_dwords m a 1 bo; head_res d.
Definition mem_read_qword m a bo : res Z := do d <- mem_read_qwords m a 1 bo; head_res d.
