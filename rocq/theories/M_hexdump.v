(** Model of /repo/cocotbext/axi/utils.py (hexdump) and its callers in memory.py and
    sparse_memory.py.  Text is a list of character codes. *)
From Coq Require Import ZArith List Bool.
From Verif Require Import Py M_sparse M_memory.
Import ListNotations.
Open Scope Z_scope.

(** one lower-case hexadecimal digit *)
Definition hexd (d : Z) : Z := if d <? 10 then 48 + d else 87 + d.

(** [w] hexadecimal digits of n, most significant first *)
Fixpoint hexw (w : nat) (n : Z) : list Z :=
  match w with O => [] | S w' => hexw w' (n / 16) ++ [hexd (n mod 16)] end.

(** f"{n:0{w}x}" for n >= 0: zero padded to at least w digits *)
Definition hexpad (w : Z) (n : Z) : list Z :=
  hexw (Z.to_nat (Z.max w (if n =? 0 then 1 else Z.log2 n / 4 + 1))) n.

(** f"{s:{w}}": left aligned, padded with blanks to width w *)
Definition pad_right (w : Z) (s : list Z) : list Z :=
  s ++ repeat 32 (Z.to_nat (w - zlen s)).

(** utils.py 30: chr(ch) if 32 < ch < 127 else "." *)
Definition printable (ch : Z) : Z := if (32 <? ch) && (ch <? 127) then ch else 46.

(** utils.py 26-32 [hexdump_line]; bytes are >= 0, offset >= 0 *)
Definition hexdump_line (data : list Z) (offset row_size : Z) : list Z :=
  let d := zslice data 0 row_size in
  let h := concat (map (fun ch => hexpad 2 ch ++ [32]) d) in
  let c := map printable d in
  hexpad 8 offset ++ [58; 32] ++ pad_right (row_size * 3) h ++ [32] ++ c.

(** list(range(start, stop, step)) for step > 0 *)
Definition range_step (start stop step : Z) : list Z :=
  map (fun i => start + i * step) (zrange 0 ((stop - start + step - 1) / step)).

(** [x for each], stopping at the first exception *)
Fixpoint map_res {A B} (f : A -> res B) (l : list A) : res (list B) :=
  match l with
  | [] => Ok []
  | a :: l' => do b <- f a; do bs <- map_res f l'; Ok (b :: bs)
  end.

(** utils.py 41-46 [hexdump_lines].  The data object is given by its slice accessor
    data[a:b] and len(data).  range() with step 0 is a ValueError, and a negative step
    gives no lines when start <= stop (start >= 0, row_size > 0 in the theorems). *)
Definition hexdump_lines (slice : Z -> Z -> res (list Z)) (len : res Z)
    (start : Z) (length : option Z) (row_size : Z) (prefix : list Z) (offset : Z)
  : res (list (list Z)) :=
  do n <- len;
  let stop := match length with
              | None => n
              | Some l => if l =? 0 then n else Z.min (start + l) n
              end in
  if row_size =? 0 then Err ValueError else
  map_res (fun k => do d <- slice k (Z.min (k + row_size) stop);
                    Ok (prefix ++ hexdump_line d (k + offset) row_size))
          (range_step start stop row_size).

(** utils.py 49-50 [hexdump_str]: "\n".join(lines) *)
Fixpoint join_nl (ls : list (list Z)) : list Z :=
  match ls with
  | [] => []
  | [l] => l
  | l :: ls' => l ++ [10] ++ join_nl ls'
  end.

(** hexdump of a bytes object *)
Definition bytes_hexdump_lines (data : list Z) start length row_size prefix offset :=
  hexdump_lines (fun a b => Ok (zslice data a b)) (Ok (zlen data)) start length row_size prefix offset.

(** hexdump_str of a bytes object *)
Definition bytes_hexdump_str (data : list Z) start length row_size prefix offset : res (list Z) :=
  do ls <- bytes_hexdump_lines data start length row_size prefix offset; Ok (join_nl ls).

(** sparse_memory.py 81-82: hexdump_lines(self.read(address, length), offset=address) *)
Definition sm_hexdump_lines (m : sparse) (address length : Z) (prefix : list Z) : res (list (list Z)) :=
  do d <- sm_read m address length;
  bytes_hexdump_lines d 0 None 16 prefix address.

(** memory.py 97-98: hexdump_lines(self.mem, address, length, prefix=prefix) *)
Definition mem_hexdump_lines (m : sparse) (address length : Z) (prefix : list Z) : res (list (list Z)) :=
  hexdump_lines (fun a b => sm_getitem m (KSlice (Some a) (Some b) None)) (sm_len m)
                address (Some length) 16 prefix 0.
