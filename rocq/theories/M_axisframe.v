(** Model of AxiStreamFrame (/repo/cocotbext/axi/axis.py 42-236).

    Simplifications: tdata is a sequence of ints with a flag saying whether it is a bytearray; tkeep
    is None or a list; tid, tdest and tuser are None, an int (or bool) or a list of ints; simulation
    times are left out; the identity of a frame and its tx_complete are kept outside (M_axis.v). *)
From Coq Require Import ZArith List Bool.
From Verif Require Import Py.
Import ListNotations.
Open Scope Z_scope.

Inductive sb := SNone | SInt (v : Z) | SList (l : list Z).

Record frame := { f_ba : bool;            (* type(tdata) is bytearray *)
                  f_data : list Z; f_keep : option (list Z); f_id : sb; f_dest : sb; f_user : sb }.

(** axis.py 99 (also 107, 115, 123): x[:n] + [x[-1]]*(n-len(x)); x[-1] is evaluated first *)
Definition fit (n : Z) (l : list Z) : res (list Z) :=
  match l with
  | [] => Err IndexError
  | _ => Ok (firstn (Z.to_nat n) l ++ repeat (last l 0) (Z.to_nat (n - zlen l)))
  end.

(** axis.py 103-109 (tid; 111-125 tdest and tuser alike) *)
Definition fit_sb (n : Z) (s : sb) : res (list Z) :=
  match s with
  | SNone => Ok (repeat 0 (Z.to_nat n))
  | SInt v => Ok (repeat v (Z.to_nat n))
  | SList l => fit n l
  end.

(** axis.py 94-125 [normalize] *)
Definition normalize (f : frame) : res frame :=
  let n := zlen (f_data f) in
  do k <- match f_keep f with Some l => fit n l | None => Ok (repeat 1 (Z.to_nat n)) end;
  do i <- fit_sb n (f_id f);
  do d <- fit_sb n (f_dest f);
  do u <- fit_sb n (f_user f);
  Ok {| f_ba := f_ba f; f_data := f_data f; f_keep := Some k; f_id := SList i; f_dest := SList d; f_user := SList u |}.

(** del l[k] if k < len(l) *)
Definition del_at (k : Z) (l : list Z) : list Z := firstn (Z.to_nat k) l ++ skipn (Z.to_nat k + 1) l.

(** the five lists during compact *)
Record lists := { l_data : list Z; l_keep : list Z; l_id : list Z; l_dest : list Z; l_user : list Z }.

(** axis.py 130-141: the loop for k in range(len(tdata)-1, -1, -1), n iterations left *)
Fixpoint compact_loop (n : nat) (f : lists) : res lists :=
  match n with
  | O => Ok f
  | S n' =>
      let k := Z.of_nat n' in
      if zlen (l_keep f) <=? k then Err IndexError
      else if znth 0 (l_keep f) k =? 0 then
        compact_loop n' {| l_data := del_at k (l_data f); l_keep := del_at k (l_keep f); l_id := del_at k (l_id f);
                           l_dest := del_at k (l_dest f); l_user := del_at k (l_user f) |}
      else compact_loop n' f
  end.

(** axis.py 148-151 (153-161 alike): drop or consolidate *)
Definition consolidate (l : list Z) : sb :=
  match l with
  | [] => SNone
  | x :: _ => if forallb (Z.eqb x) l then SInt x else SList l
  end.

(** axis.py 127-161 [compact]; len() of None or an int raises TypeError *)
Definition compact (f : frame) : res frame :=
  match f_keep f, f_id f, f_dest f, f_user f with
  | Some k, SList i, SList d, SList u =>
      let l := {| l_data := f_data f; l_keep := k; l_id := i; l_dest := d; l_user := u |} in
      do l' <- match k with [] => Ok l | _ => compact_loop (length (f_data f)) l end;
      Ok {| f_ba := f_ba f; f_data := l_data l'; f_keep := None; f_id := consolidate (l_id l');
            f_dest := consolidate (l_dest l'); f_user := consolidate (l_user l') |}
  | _, _, _, _ => Err TypeError
  end.

(** list equality *)
Fixpoint leqb (l m : list Z) : bool :=
  match l, m with
  | [], [] => true
  | x :: l', y :: m' => (x =? y) && leqb l' m'
  | _, _ => false
  end.

(** axis.py 180-190 (192-214 alike) *)
Definition sb_eqb (a b : sb) : bool :=
  match a, b with
  | SNone, _ | _, SNone => true
  | SInt v, SList l => forallb (fun k => v =? k) l
  | SList l, SInt v => forallb (fun k => v =? k) l
  | SInt v, SInt w => v =? w
  | SList l, SList m => leqb l m
  end.

(** axis.py 169-216 [__eq__] of two frames; a bytearray never equals a list *)
Definition frame_eqb (f g : frame) : bool :=
  Bool.eqb (f_ba f) (f_ba g) && leqb (f_data f) (f_data g) &&
  match f_keep f, f_keep g with Some k, Some m => leqb k m | _, _ => true end &&
  sb_eqb (f_id f) (f_id g) && sb_eqb (f_dest f) (f_dest g) && sb_eqb (f_user f) (f_user g).
