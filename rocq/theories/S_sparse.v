(** Specification of SparseMemory: a flat array of [size] bytes, initially zero.
    Does not mention blocks except for one documented corner case (a *list* argument of
    [write] that contains a non-byte: everything before the 4096-byte block holding the
    first non-byte has already been stored when ValueError is raised). *)
From Coq Require Import ZArith List Bool.
From Verif Require Import Py S_flat M_sparse.
Import ListNotations.
Open Scope Z_scope.

Record fstate := F { f_size : Z; f_mem : flat }.

Definition f_init (size : Z) : fstate := F size (fun _ => 0).

(** a range that lies inside the array; the start address itself must exist *)
Definition in_range (size a n : Z) : bool :=
  (0 <=? a) && (a <? size) && (0 <=? n) && (a + n <=? size).

Definition f_read (s : fstate) (a n : Z) : sm_out :=
  if in_range (f_size s) a n then OBytes (rd (f_mem s) a n) else OErr ValueError.

(** number of leading elements that are bytes *)
Fixpoint good_prefix (d : list Z) : Z :=
  match d with
  | [] => 0
  | b :: d' => if is_byteb b then 1 + good_prefix d' else 0
  end.

Definition f_write (s : fstate) (a : Z) (d : list Z) : fstate * sm_out :=
  if in_range (f_size s) a (zlen d) then
    if good_prefix d =? zlen d then (F (f_size s) (wr (f_mem s) a d), OUnit)
    else
      let bad := a + good_prefix d in
      let stored := Z.max 0 (bad / 4096 * 4096 - a) in
      (F (f_size s) (wr (f_mem s) a (firstn (Z.to_nat stored) d)), OErr ValueError)
  else (s, OErr ValueError).

(** Python slice bounds: negative counts from the end, then clamp into [0, size]. *)
Definition py_bound (size : Z) (dflt : Z) (i : option Z) : Z :=
  match i with
  | None => dflt
  | Some i => Z.max 0 (Z.min size (if i <? 0 then i + size else i))
  end.

Definition step_err (size : Z) (step : option Z) : option exc :=
  if size <? 0 then Some ValueError else
  match step with
  | None => None
  | Some s => if s =? 1 then None else if s =? 0 then Some ValueError else Some IndexError
  end.

Definition f_step (s : fstate) (o : sm_op) : fstate * sm_out :=
  let size := f_size s in
  match o with
  | SRead a n => (s, f_read s a n)
  | SWrite a d => f_write s a d
  | SClear => (F size (fun _ => 0), OUnit)
  | SGet (KInt i) => (s, f_read s i 1)
  | SGet (KSlice a b st) =>
      match step_err size st with
      | Some e => (s, OErr e)
      | None => let a := py_bound size 0 a in
                let b := py_bound size size b in
                (s, f_read s a (b - a))
      end
  | SSetInt i v =>
      if in_range size i 1 && is_byteb v then (F size (wr (f_mem s) i [v]), OUnit)
      else (s, OErr ValueError)
  | SSetSlice a b st v =>
      match step_err size st with
      | Some e => (s, OErr e)
      | None =>
          let a := py_bound size 0 a in
          let b := py_bound size size b in
          if negb (good_prefix v =? zlen v) then (s, OErr ValueError)
          else if negb (zlen v =? b - a) then (s, OErr IndexError)
          else if a <? size then (F size (wr (f_mem s) a v), OUnit)
          else (s, OErr ValueError)
      end
  end.

Fixpoint f_run (s : fstate) (ops : list sm_op) : fstate * list sm_out :=
  match ops with
  | [] => (s, [])
  | o :: ops' =>
      let '(s1, r) := f_step s o in
      let '(s2, rs) := f_run s1 ops' in (s2, r :: rs)
  end.
