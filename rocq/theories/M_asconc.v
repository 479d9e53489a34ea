(** Model of several tasks in read() and write() of address spaces, windows and regions at the same time:
    /repo/cocotbext/axi/address_space.py 70-72, 102-104, 166-170, 195-199, 227-231, 254-264, 298-337.

    A call that runs is a program: the accesses to memories and peripherals it still has to make, and what it does with the answers.  Between two
    accesses other tasks may run (the regions are awaited); an access itself is one step, at some moment between its begin and its end.
    Simplifications: the program is made of the tree of objects at the begin of the call.  Accesses do not change that tree (C12_write_exact, last line);
    no region is registered, no window made and nothing allocated while a call is open.  The accesses to MemoryRegion and SparseMemoryRegion, which never
    wait, may here be interrupted by other tasks as well. *)
From Coq Require Import ZArith List Bool.
From Verif Require Import Py M_sparse M_memory M_buddy M_aspace.
Import ListNotations.
Open Scope Z_scope.

(** access to a memory or peripheral [l]: read [n] bytes at [x]; write [d] at [x].  The answer to a write is [] *)
Inductive acc := RdA (l : nat) (x n : Z) | WrA (l : nat) (x : Z) (d : pydata).
Inductive prog := PRet (r : res (list Z)) | PAcc (c : acc) (k : res (list Z) -> prog).

(** await: an exception passes through *)
Fixpoint pbind (p : prog) (f : list Z -> prog) : prog :=
  match p with
  | PRet (Ok d) => f d
  | PRet (Err e) => PRet (Err e)
  | PAcc c k => PAcc c (fun r => pbind (k r) f)
  end.

(** 298-316 [AddressSpace.read]: the loop; [rdf] is region.read *)
Fixpoint sp_read_prog (rdf : nat -> Z -> Z -> prog) (segs : list entry) (address length : Z) (data : list Z) : prog :=
  match segs with
  | [] => PRet (if 0 <? length then Err Plain else Ok data)
  | e :: segs' =>
      if address <? e_base e then PRet (Err Plain)
      else
        let seg_addr := address - e_base e in
        let seg_len := Z.min (e_size e - seg_addr) length in
        let target := match e_off e with None => address | Some off => seg_addr + off end in
        pbind (rdf (e_reg e) target seg_len) (fun d => sp_read_prog rdf segs' (address + seg_len) (length - seg_len) (data ++ d))
  end.
(** x.read(address, length); [lim] is the recursion limit (70-72, 166-167, 195-196, 227-228, 254-258, 298-316) *)
Fixpoint rd_prog (lim : nat) (h : heap) (i : nat) (address length : Z) : prog :=
  match lim with
  | O => PRet (Err RecursionError)
  | S lim' =>
    match hget h i with
    | None => PRet (Err AttributeError)
    | Some o =>
      match o_kind o with
      | KSpace regions _ =>
          match find_regions (o_size o) regions address length with
          | Err x => PRet (Err x)
          | Ok [] => PRet (Err Plain)
          | Ok segs => sp_read_prog (rd_prog lim' h) segs address length []
          end
      | KWindow off _ =>
          if negb (range_ok (o_size o) address length) then PRet (Err ValueError)
          else match o_parent o with
               | None => PRet (Err AttributeError)
               | Some pa => rd_prog lim' h pa (address + off) length
               end
      | _ =>
          if negb (range_ok (o_size o) address length) then PRet (Err ValueError)
          else PAcc (RdA i address length) PRet
      end
    end
  end.

(** 318-337 [AddressSpace.write] *)
Fixpoint sp_write_prog (wrf : nat -> Z -> pydata -> prog) (segs : list entry) (address start length : Z) (data : pydata) : prog :=
  match segs with
  | [] => PRet (if 0 <? length then Err Plain else Ok [])
  | e :: segs' =>
      if address <? e_base e then PRet (Err Plain)
      else
        let seg_addr := address - e_base e in
        let seg_len := Z.min (e_size e - seg_addr) length in
        let target := match e_off e with None => address | Some off => seg_addr + off end in
        pbind (wrf (e_reg e) target (pd_slice data start (start + seg_len)))
          (fun _ => sp_write_prog wrf segs' (address + seg_len) (start + seg_len) (length - seg_len) data)
  end.
(** x.write(address, data) (102-104, 169-170, 198-199, 230-231, 260-264, 318-337) *)
Fixpoint wr_prog (lim : nat) (h : heap) (i : nat) (address : Z) (data : pydata) : prog :=
  match lim with
  | O => PRet (Err RecursionError)
  | S lim' =>
    match hget h i with
    | None => PRet (Err AttributeError)
    | Some o =>
      let n := zlen (pd_list data) in
      match o_kind o with
      | KSpace regions _ =>
          match find_regions (o_size o) regions address n with
          | Err x => PRet (Err x)
          | Ok [] => PRet (Err Plain)
          | Ok segs => sp_write_prog (wr_prog lim' h) segs address 0 n data
          end
      | KWindow off _ =>
          if negb (range_ok (o_size o) address n) then PRet (Err ValueError)
          else match o_parent o with
               | None => PRet (Err AttributeError)
               | Some pa => wr_prog lim' h pa (address + off) data
               end
      | _ =>
          if negb (range_ok (o_size o) address n) then PRet (Err ValueError)
          else PAcc (WrA i address data) PRet
      end
    end
  end.

(** one access: 195-199, 227-231, 254-264 *)
Definition exec (h : heap) (c : acc) : heap * res (list Z) :=
  match c with
  | RdA l x n => rd_obj 1 h l x n
  | WrA l x d => let '(h', r) := wr_obj 1 h l x d in (h', match r with Ok _ => Ok [] | Err e => Err e end)
  end.

Inductive ccall := RCall (i : nat) (a n : Z) | WCall (i : nat) (a : Z) (d : pydata).
Definition call_prog (lim : nat) (h : heap) (c : ccall) : prog :=
  match c with RCall i a n => rd_prog lim h i a n | WCall i a d => wr_prog lim h i a d end.

(** the heap and the calls made so far, each with what is left of it *)
Record cst := { c_h : heap; c_ts : list prog }.
Inductive cop := CCall (c : ccall) | CRun (t : nat).   (* a call is made; the task of call t goes on *)
Fixpoint set_nth {A} (l : list A) (n : nat) (a : A) : list A :=
  match l, n with [], _ => [] | _ :: l', O => a :: l' | b :: l', S n' => b :: set_nth l' n' a end.
Definition cstep (lim : nat) (y : cst) (o : cop) : cst * list (nat * acc * res (list Z)) :=
  match o with
  | CCall c => ({| c_h := c_h y; c_ts := c_ts y ++ [call_prog lim (c_h y) c] |}, [])
  | CRun t =>
      match nth_error (c_ts y) t with
      | Some (PAcc c k) => let '(h', r) := exec (c_h y) c in ({| c_h := h'; c_ts := set_nth (c_ts y) t (k r) |}, [(t, c, r)])
      | _ => (y, [])
      end
  end.
Fixpoint crun (lim : nat) (y : cst) (hist : list cop) : cst * list (nat * acc * res (list Z)) :=
  match hist with
  | [] => (y, [])
  | o :: hist' => let '(y1, l1) := cstep lim y o in let '(y2, l2) := crun lim y1 hist' in (y2, l1 ++ l2)
  end.
Definition c_init (h : heap) : cst := {| c_h := h; c_ts := [] |}.

(** a call that runs without interruption *)
Fixpoint finish (h : heap) (p : prog) : heap * res (list Z) :=
  match p with PRet r => (h, r) | PAcc c k => let '(h', r) := exec h c in finish h' (k r) end.
