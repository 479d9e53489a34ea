(** Model of /repo/cocotbext/axi/address_space.py (lines 32-362).
    Python objects live in a heap and are named by their index, so that sharing and mutation
    ([region._parent = self]) are as in the code.  Simplifications: a read or write is one
    atomic step (no other task runs in the middle of it); [mem] arguments are left at their
    default; window_type, pool_type and kwargs are left at their defaults; a peripheral is
    any object whose answers depend on the calls made to it so far. *)
From Coq Require Import ZArith List Bool.
From Verif Require Import Py M_sparse M_memory M_buddy.
Import ListNotations.
Open Scope Z_scope.

(** one call of the object behind a PeripheralRegion *)
Inductive pcall := PRead (address length : Z) | PWrite (address : Z) (data : list Z).

(** address_space.py 249-252: the wrapped object; [p_async] tells whether its methods are
    coroutines, [p_rd]/[p_wr] give the answer to a call after the calls in [p_log]. *)
Record periph := Periph {
  p_async : bool;
  p_rd : list pcall -> Z -> Z -> res (list Z);
  p_wr : list pcall -> Z -> list Z -> res unit;
  p_log : list pcall
}.

(** address_space.py 296: a tuple (base, size, offset, region) of AddressSpace.regions *)
Record entry := Entry { e_base : Z; e_size : Z; e_off : option Z; e_reg : nat }.

(** the classes of address_space.py: MemoryRegion 188, SparseMemoryRegion 220, PeripheralRegion
    249, Window 152 / WindowPool 173 (with an allocator), AddressSpace 267 / Pool 351 (with an
    allocator) *)
Inductive kind :=
| KMem (mem : list Z)
| KSparse (m : sparse)
| KPeriph (p : periph)
| KWindow (offset : Z) (alloc : option buddy)
| KSpace (regions : list entry) (alloc : option buddy).

(** address_space.py 33-36 *)
Record obj := Obj {
  o_size : Z;
  o_base : option Z;
  o_parent : option nat;
  o_kind : kind
}.

Definition heap := list obj.
Definition hget (h : heap) (i : nat) : option obj := nth_error h i.
Fixpoint hset (h : heap) (i : nat) (o : obj) : heap :=
  match h, i with
  | [], _ => []
  | _ :: h', O => o :: h'
  | x :: h', S i' => x :: hset h' i' o
  end.
Definition set_kind (o : obj) (k : kind) : obj := Obj (o_size o) (o_base o) (o_parent o) k.

(** address_space.py 53-59 [check_range]; every failure is a ValueError *)
Definition range_ok (size address length : Z) : bool :=
  negb ((address <? 0) || (size <=? address)) && negb (length <? 0)
  && negb (size <? address + length).

(** address_space.py 61-65 [get_absolute_address] *)
Definition abs_address (o : obj) (address : Z) : res (option Z) :=
  match o_base o with
  | None => Ok None
  | Some b => if range_ok (o_size o) address 0 then Ok (Some (address + b)) else Err ValueError
  end.

(** list.sort() of tuples.  Entries with equal base and size are compared by offset and then by
    region; None against an int, or two distinct regions, is a TypeError.  Two such entries
    are neighbours in the result, so every comparison sort compares them. *)
Definition tie_bad (x y : entry) : bool :=
  (e_base x =? e_base y) && (e_size x =? e_size y) &&
  match e_off x, e_off y with
  | None, None => negb (Nat.eqb (e_reg x) (e_reg y))
  | Some a, Some b => (a =? b) && negb (Nat.eqb (e_reg x) (e_reg y))
  | _, _ => true
  end.
Fixpoint any_tie_bad (l : list entry) : bool :=
  match l with [] => false | x :: l' => existsb (tie_bad x) l' || any_tie_bad l' end.
Definition off_ltb (a b : option Z) : bool :=
  match a, b with Some a, Some b => a <? b | _, _ => false end.
Definition entry_ltb (x y : entry) : bool :=
  if e_base x =? e_base y then
    if e_size x =? e_size y then off_ltb (e_off x) (e_off y) else e_size x <? e_size y
  else e_base x <? e_base y.
Fixpoint insert (x : entry) (l : list entry) : list entry :=
  match l with
  | [] => [x]
  | y :: l' => if entry_ltb y x then y :: insert x l' else x :: y :: l'
  end.
Definition sort_entries (l : list entry) : res (list entry) :=
  if any_tie_bad l then Err TypeError else Ok (fold_right insert [] l).

(** address_space.py 273-284 [find_regions] *)
Definition find_regions (size : Z) (regions : list entry) (address length : Z)
  : res (list entry) :=
  if (address <? 0) || (size <=? address) then Err ValueError
  else if length <? 0 then Err ValueError
  else
    let length := Z.max length 1 in
    sort_entries (filter (fun e => (address <? e_base e + e_size e)
                                   && (e_base e <? address + length)) regions).

(** address_space.py 254-258 [PeripheralRegion._read].  Of a synchronous object the call on line
    256 already runs, then awaiting its result is a TypeError and line 258 calls again.  Of an
    asynchronous object that raises TypeError, line 258 returns a coroutine nobody runs: as
    the result of a read that is modelled as a TypeError (what any use of it as bytes gives). *)
Definition per_read (p : periph) (address length : Z) : periph * res (list Z) :=
  let log1 := p_log p ++ [PRead address length] in
  let upd l := Periph (p_async p) (p_rd p) (p_wr p) l in
  let r := p_rd p (p_log p) address length in
  if p_async p then (upd log1, r)
  else match r with
       | Ok _ | Err TypeError =>
           (upd (log1 ++ [PRead address length]), p_rd p log1 address length)
       | Err e => (upd log1, Err e)
       end.

(** address_space.py 260-264 [PeripheralRegion._write]; as above, but the coroutine created on
    line 264 is dropped and the write returns normally. *)
Definition per_write (p : periph) (address : Z) (data : list Z) : periph * res unit :=
  let log1 := p_log p ++ [PWrite address data] in
  let upd l := Periph (p_async p) (p_rd p) (p_wr p) l in
  let r := p_wr p (p_log p) address data in
  if p_async p then (upd log1, match r with Err TypeError => Ok tt | _ => r end)
  else match r with
       | Ok _ | Err TypeError =>
           (upd (log1 ++ [PWrite address data]), p_wr p log1 address data)
       | Err e => (upd log1, Err e)
       end.

(** address_space.py 303-316: the loop of [AddressSpace.read]; [rdf] is region.read *)
Fixpoint sp_read_loop (rdf : heap -> nat -> Z -> Z -> heap * res (list Z)) (h : heap)
    (segs : list entry) (address length : Z) (data : list Z) : heap * res (list Z) :=
  match segs with
  | [] => (h, if 0 <? length then Err Plain else Ok data)
  | e :: segs' =>
      if address <? e_base e then (h, Err Plain)
      else
        let seg_addr := address - e_base e in
        let seg_len := Z.min (e_size e - seg_addr) length in
        let target := match e_off e with None => address | Some off => seg_addr + off end in
        match rdf h (e_reg e) target seg_len with
        | (h1, Err x) => (h1, Err x)
        | (h1, Ok d) =>
            sp_read_loop rdf h1 segs' (address + seg_len) (length - seg_len) (data ++ d)
        end
  end.

(** [x.read(address, length)] of any object: address_space.py 70-72 (MemoryInterface), 166-167
    (Window), 195-196 (MemoryRegion), 227-228 (SparseMemoryRegion), 254-258, 298-316
    (AddressSpace).  [lim] is the recursion limit. *)
Fixpoint rd_obj (lim : nat) (h : heap) (i : nat) (address length : Z) : heap * res (list Z) :=
  match lim with
  | O => (h, Err RecursionError)
  | S lim' =>
    match hget h i with
    | None => (h, Err AttributeError)
    | Some o =>
      match o_kind o with
      | KSpace regions _ =>
          match find_regions (o_size o) regions address length with
          | Err x => (h, Err x)
          | Ok [] => (h, Err Plain)
          | Ok segs => sp_read_loop (rd_obj lim') h segs address length []
          end
      | k =>
          if negb (range_ok (o_size o) address length) then (h, Err ValueError)
          else match k with
               | KMem mem => (h, Ok (zslice mem address (address + length)))
               | KSparse m => (h, sm_read m address length)
               | KPeriph p => let '(p', r) := per_read p address length in
                              (hset h i (set_kind o (KPeriph p')), r)
               | KWindow off _ =>
                   match o_parent o with
                   | None => (h, Err AttributeError)
                   | Some pa => rd_obj lim' h pa (address + off) length
                   end
               | KSpace _ _ => (h, Err AttributeError)
               end
      end
    end
  end.

(** what a write may be given: a bytes-like object, or a list of ints *)
Inductive pydata := PBytes (d : list Z) | PList (d : list Z).
Definition pd_list (d : pydata) : list Z := match d with PBytes l | PList l => l end.
Definition pd_slice (d : pydata) (a b : Z) : pydata :=
  match d with PBytes l => PBytes (zslice l a b) | PList l => PList (zslice l a b) end.

(** address_space.py 324-337: the loop of [AddressSpace.write]; [wrf] is region.write *)
Fixpoint sp_write_loop (wrf : heap -> nat -> Z -> pydata -> heap * res unit) (h : heap)
    (segs : list entry) (address start length : Z) (data : pydata) : heap * res unit :=
  match segs with
  | [] => (h, if 0 <? length then Err Plain else Ok tt)
  | e :: segs' =>
      if address <? e_base e then (h, Err Plain)
      else
        let seg_addr := address - e_base e in
        let seg_len := Z.min (e_size e - seg_addr) length in
        let target := match e_off e with None => address | Some off => seg_addr + off end in
        match wrf h (e_reg e) target (pd_slice data start (start + seg_len)) with
        | (h1, Err x) => (h1, Err x)
        | (h1, Ok _) =>
            sp_write_loop wrf h1 segs' (address + seg_len) (start + seg_len)
              (length - seg_len) data
        end
  end.

(** [x.write(address, data)] of any object: address_space.py 102-104, 169-170, 198-199, 230-231,
    260-264, 318-337.  Slice assignment to an mmap (line 199) takes only bytes-like objects. *)
Fixpoint wr_obj (lim : nat) (h : heap) (i : nat) (address : Z) (data : pydata)
  : heap * res unit :=
  match lim with
  | O => (h, Err RecursionError)
  | S lim' =>
    match hget h i with
    | None => (h, Err AttributeError)
    | Some o =>
      let n := zlen (pd_list data) in
      match o_kind o with
      | KSpace regions _ =>
          match find_regions (o_size o) regions address n with
          | Err x => (h, Err x)
          | Ok [] => (h, Err Plain)
          | Ok segs => sp_write_loop (wr_obj lim') h segs address 0 n data
          end
      | k =>
          if negb (range_ok (o_size o) address n) then (h, Err ValueError)
          else match k with
               | KMem mem =>
                   match data with
                   | PList _ => (h, Err TypeError)
                   | PBytes d =>
                       (hset h i (set_kind o (KMem (zsplice mem address (address + n) d))), Ok tt)
                   end
               | KSparse m => let '(m', r) := sm_write m address (pd_list data) in
                              (hset h i (set_kind o (KSparse m')), r)
               | KPeriph p => let '(p', r) := per_write p address (pd_list data) in
                              (hset h i (set_kind o (KPeriph p')), r)
               | KWindow off _ =>
                   match o_parent o with
                   | None => (h, Err AttributeError)
                   | Some pa => wr_obj lim' h pa (address + off) data
                   end
               | KSpace _ _ => (h, Err AttributeError)
               end
      end
    end
  end.

(** address_space.py 74-79, 106-111 [read_words], [write_words] (ws >= 0) *)
Definition if_write_words lim h i address words bo ws : heap * res unit :=
  match words_to_bytes words bo ws with
  | Err e => (h, Err e)
  | Ok data => wr_obj lim h i address (PBytes data)
  end.
Definition if_read_words lim h i address count bo ws : heap * res (list Z) :=
  let '(h1, r) := rd_obj lim h i address (count * ws) in
  (h1, do data <- r; Ok (bytes_to_words data count bo ws)).

(** address_space.py 81-85, 113-117 *)
Definition if_write_dwords lim h i a d bo := if_write_words lim h i a d bo 4.
Definition if_write_qwords lim h i a d bo := if_write_words lim h i a d bo 8.
Definition if_read_dwords lim h i a n bo := if_read_words lim h i a n bo 4.
Definition if_read_qwords lim h i a n bo := if_read_words lim h i a n bo 8.

(** address_space.py 87-88 [read_byte]: [.data] of the result.  MemoryRegion, SparseMemoryRegion
    and AddressSpace (and windows of them) return bytes, which has no such attribute.
    Simplification: so do the modelled peripherals. *)
Definition if_read_byte lim h i address : heap * res Z :=
  let '(h1, r) := rd_obj lim h i address 1 in
  (h1, do data <- r; Err AttributeError).

(** address_space.py 119-120 [write_byte]: a list of one int *)
Definition if_write_byte lim h i address b : heap * res unit :=
  wr_obj lim h i address (PList [b]).

(** address_space.py 90-97, 122-129 *)
Definition if_read_word lim h i a bo ws : heap * res Z :=
  let '(h1, r) := if_read_words lim h i a 1 bo ws in (h1, do l <- r; head_res l).
Definition if_write_word lim h i a w bo ws := if_write_words lim h i a [w] bo ws.

(** a new object; its index is the old length *)
Definition hnew (h : heap) (o : obj) : heap * res nat := (h ++ [o], Ok (length h)).

(** address_space.py 189-193 [MemoryRegion(size)]: mmap.mmap(-1, size) *)
Definition new_mem (h : heap) (size : Z) : heap * res nat :=
  if size <? 0 then (h, Err OverflowError)
  else if size =? 0 then (h, Err OSError)
  else hnew h (Obj size (Some 0) None (KMem (zeros size))).

(** address_space.py 221-225 [SparseMemoryRegion(size)] *)
Definition new_sparse (h : heap) (size : Z) : heap * res nat :=
  hnew h (Obj size (Some 0) None (KSparse (sm_init size))).

(** address_space.py 250-252 [PeripheralRegion(obj, size)] *)
Definition new_periph (h : heap) (async : bool) rdf wrf (size : Z) : heap * res nat :=
  hnew h (Obj size (Some 0) None (KPeriph (Periph async rdf wrf []))).

(** address_space.py 268-271 [AddressSpace(size)] *)
Definition new_space (h : heap) (size : Z) : heap * res nat :=
  hnew h (Obj size (Some 0) None (KSpace [] None)).

(** address_space.py 286-296 [register_region] of space [sp] *)
Definition register_region (h : heap) (sp r : nat) (base : Z) (size : option Z)
    (offset : option Z) : heap * res unit :=
  match hget h sp, hget h r with
  | Some os, Some rg =>
      match o_kind os with
      | KSpace regions al =>
          let size := match size with None => o_size rg | Some s => s end in
          match find_regions (o_size os) regions base size with
          | Err e => (h, Err e)
          | Ok (_ :: _) => (h, Err ValueError)
          | Ok [] =>
              let nb := match offset with Some 0 => abs_address os base | _ => Ok None end in
              match nb with
              | Err e => (hset h r (Obj (o_size rg) (o_base rg) (Some sp) (o_kind rg)), Err e)
              | Ok b =>
                  let h1 := hset h r (Obj (o_size rg) b (Some sp) (o_kind rg)) in
                  match hget h1 sp with
                  | Some os1 =>
                      (hset h1 sp (set_kind os1
                         (KSpace (regions ++ [Entry base size offset r]) al)), Ok tt)
                  | None => (h1, Err AttributeError)
                  end
              end
          end
      | _ => (h, Err AttributeError)
      end
  | _, _ => (h, Err AttributeError)
  end.

(** address_space.py 131-136 [create_window] *)
Definition create_window (h : heap) (i : nat) (offset : Z) (size : option Z) : heap * res nat :=
  match hget h i with
  | None => (h, Err AttributeError)
  | Some o =>
      let size := match size with
                  | Some s => if s <=? 0 then o_size o - offset else s
                  | None => o_size o - offset
                  end in
      if negb (range_ok (o_size o) offset size) then (h, Err ValueError)
      else match abs_address o offset with
           | Err e => (h, Err e)
           | Ok b => hnew h (Obj size b (Some i) (KWindow offset None))
           end
  end.

(** address_space.py 138-146 [create_window_pool], 174-177 [WindowPool.__init__] *)
Definition create_window_pool (h : heap) (i : nat) (offset size : option Z) : heap * res nat :=
  match hget h i with
  | None => (h, Err AttributeError)
  | Some o =>
      let offset := match offset with None => 0 | Some x => x end in
      let size := match size with Some s => s | None => o_size o - offset end in
      if negb (range_ok (o_size o) offset size) then (h, Err ValueError)
      else match abs_address o offset with
           | Err e => (h, Err e)
           | Ok b => hnew h (Obj size b (Some i) (KWindow offset (Some (b_init size 1))))
           end
  end.

(** address_space.py 179-180 [WindowPool.alloc_window] *)
Definition alloc_window (h : heap) (i : nat) (size : Z) : heap * res nat :=
  match hget h i with
  | Some o =>
      match o_kind o with
      | KWindow off (Some b) =>
          let '(b', r) := b_alloc_op b size in
          let h1 := hset h i (set_kind o (KWindow off (Some b'))) in
          match r with
          | Err e => (h1, Err e)
          | Ok addr => create_window h1 i addr (Some size)
          end
      | _ => (h, Err AttributeError)
      end
  | None => (h, Err AttributeError)
  end.

(** address_space.py 339-348 [create_pool], 352-355 [Pool.__init__].  If the registration is
    refused nobody holds the new pool object, so it is left out of the heap. *)
Definition create_pool (h : heap) (i : nat) (base size : option Z) : heap * res nat :=
  match hget h i with
  | Some o =>
      match o_kind o with
      | KSpace _ _ =>
          let base := match base with None => 0 | Some x => x end in
          let size := match size with Some s => s | None => o_size o - base end in
          if negb (range_ok (o_size o) base size) then (h, Err ValueError)
          else
            let pool := length h in
            let h1 := h ++ [Obj size (Some base) (Some i) (KSpace [] (Some (b_init size 1)))] in
            match register_region h1 i pool base (Some size) (Some 0) with
            | (h2, Ok _) => (h2, Ok pool)
            | (_, Err e) => (h, Err e)
            end
      | _ => (h, Err AttributeError)
      end
  | None => (h, Err AttributeError)
  end.

(** region types [Pool.alloc_region] can be asked for *)
Inductive rtype := RTMem | RTSparse | RTSpace.
Definition new_region (h : heap) (t : rtype) (size : Z) : heap * res nat :=
  match t with
  | RTMem => new_mem h size | RTSparse => new_sparse h size | RTSpace => new_space h size
  end.

(** address_space.py 357-362 [Pool.alloc_region] *)
Definition alloc_region (h : heap) (i : nat) (t : rtype) (size : Z) : heap * res nat :=
  match hget h i with
  | Some o =>
      match o_kind o with
      | KSpace regions (Some b) =>
          let '(b', r) := b_alloc_op b size in
          let h1 := hset h i (set_kind o (KSpace regions (Some b'))) in
          match r with
          | Err e => (h1, Err e)
          | Ok addr =>
              match new_region h1 t size with
              | (h2, Err e) => (h2, Err e)
              | (h2, Ok rg) =>
                  match register_region h2 i rg addr None (Some 0) with
                  | (h3, Ok _) => (h3, Ok rg)
                  | (_, Err e) => (h1, Err e)
                  end
              end
          end
      | _ => (h, Err AttributeError)
      end
  | None => (h, Err AttributeError)
  end.

(** one call of the API *)
Inductive aop :=
| ANewMem (size : Z)
| ANewSparse (size : Z)
| ANewPeriph (async : bool) (rdf : list pcall -> Z -> Z -> res (list Z))
             (wrf : list pcall -> Z -> list Z -> res unit) (size : Z)
| ANewSpace (size : Z)
| ARegister (sp r : nat) (base : Z) (size offset : option Z)
| AWindow (i : nat) (offset : Z) (size : option Z)
| AWinPool (i : nat) (offset size : option Z)
| AAllocWin (i : nat) (size : Z)
| APool (i : nat) (base size : option Z)
| AAllocReg (i : nat) (t : rtype) (size : Z)
| ARead (i : nat) (address length : Z)
| AWrite (i : nat) (address : Z) (data : pydata).

Inductive aout := AId (i : nat) | ADone | ABytes (l : list Z) | AErr (e : exc).

Definition ao_id (x : heap * res nat) : heap * aout :=
  (fst x, match snd x with Ok i => AId i | Err e => AErr e end).
Definition ao_unit (x : heap * res unit) : heap * aout :=
  (fst x, match snd x with Ok _ => ADone | Err e => AErr e end).
Definition ao_bytes (x : heap * res (list Z)) : heap * aout :=
  (fst x, match snd x with Ok l => ABytes l | Err e => AErr e end).

(** dispatch; [lim] is the recursion limit of the interpreter *)
Definition a_step (lim : nat) (h : heap) (o : aop) : heap * aout :=
  match o with
  | ANewMem s => ao_id (new_mem h s)
  | ANewSparse s => ao_id (new_sparse h s)
  | ANewPeriph a f g s => ao_id (new_periph h a f g s)
  | ANewSpace s => ao_id (new_space h s)
  | ARegister sp r b s off => ao_unit (register_region h sp r b s off)
  | AWindow i off s => ao_id (create_window h i off s)
  | AWinPool i off s => ao_id (create_window_pool h i off s)
  | AAllocWin i s => ao_id (alloc_window h i s)
  | APool i b s => ao_id (create_pool h i b s)
  | AAllocReg i t s => ao_id (alloc_region h i t s)
  | ARead i a n => ao_bytes (rd_obj lim h i a n)
  | AWrite i a d => ao_unit (wr_obj lim h i a d)
  end.

Fixpoint a_run (lim : nat) (h : heap) (ops : list aop) : heap * list aout :=
  match ops with
  | [] => (h, [])
  | o :: ops' =>
      let '(h1, r) := a_step lim h o in
      let '(h2, rs) := a_run lim h1 ops' in (h2, r :: rs)
  end.
