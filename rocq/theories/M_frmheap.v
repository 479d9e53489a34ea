(** AxiStreamFrame objects and their lists as mutable objects on a heap, and an AxiStreamSource that holds references to frames.

    Sources: /repo/cocotbext/axi/axis.py 43-92 (constructor), 94-125 (normalize), 163-167 (tx_complete is given the frame),
    357-366 (clear), 447-472 (send), 488-509 (reset), 526-594 (task).

    M_axis.v has the source with frames as values.  Here the queue, the local frame of the task and current_frame are references;
    whenever the source acts, it acts as in M_axis.v on what the references show at that moment.
    The user's program holds references in variables and may change what they lead to at any time.
    Simplifications as in M_axisframe.v; a bytes object is a list object that nobody changes; immutable values other than ints are left out;
    the user does not reach into the source (source.queue, source.current_frame).  A send() that blocks is modelled at the moment it
    proceeds: the frame is copied then (451-455). *)
From Coq Require Import ZArith List Bool.
From Verif Require Import Py M_stream M_axisframe M_axis.
Import ListNotations.
Open Scope Z_scope.

Notation lref := nat (only parsing).
Notation fref := nat (only parsing).
Inductive sbr := RNone | RInt (v : Z) | RList (l : lref).
(** a frame object; tx_complete is the tag of M_axis.v *)
Record fobj := { o_data : lref; o_keep : option lref; o_id : sbr; o_dest : sbr; o_user : sbr }.
(** list objects (true: bytearray) and frame objects *)
Record heap := { h_l : list (bool * list Z); h_f : list fobj }.

Definition lget (h : heap) (r : lref) : bool * list Z := nth r (h_l h) (false, []).
Definition fget (h : heap) (f : fref) : fobj := nth f (h_f h) {| o_data := 0; o_keep := None; o_id := RNone; o_dest := RNone; o_user := RNone |}.
Definition set_at {A} (n : nat) (x : A) (l : list A) : list A := firstn n l ++ match skipn n l with [] => [] | _ :: r => x :: r end.
Definition lset (h : heap) (r : lref) (x : list Z) : heap := {| h_l := set_at r (fst (lget h r), x) (h_l h); h_f := h_f h |}.
Definition fset (h : heap) (f : fref) (o : fobj) : heap := {| h_l := h_l h; h_f := set_at f o (h_f h) |}.
Definition lnew (h : heap) (x : bool * list Z) : heap * lref := ({| h_l := h_l h ++ [x]; h_f := h_f h |}, length (h_l h)).
Definition fnew (h : heap) (o : fobj) : heap * fref := ({| h_l := h_l h; h_f := h_f h ++ [o] |}, length (h_f h)).

(** what a frame object contains *)
Definition sb_val (h : heap) (s : sbr) : sb := match s with RNone => SNone | RInt v => SInt v | RList l => SList (snd (lget h l)) end.
Definition obj_val (h : heap) (o : fobj) : frame :=
  {| f_ba := fst (lget h (o_data o)); f_data := snd (lget h (o_data o)); f_keep := option_map (fun l => snd (lget h l)) (o_keep o);
     f_id := sb_val h (o_id o); f_dest := sb_val h (o_dest o); f_user := sb_val h (o_user o) |}.
Definition deref (h : heap) (f : fref) : frame := obj_val h (fget h f).

(** axis.py 53-79: AxiStreamFrame(frame) *)
Definition copy_list (h : heap) (o : option lref) : heap * option lref :=
  match o with Some l => let '(h', l') := lnew h (false, snd (lget h l)) in (h', Some l') | None => (h, None) end.
Definition copy_sb (h : heap) (s : sbr) : heap * sbr :=
  match s with RList l => let '(h', l') := lnew h (false, snd (lget h l)) in (h', RList l') | _ => (h, s) end.
Definition copy_frame (h : heap) (f : fref) : heap * fref :=
  let o := fget h f in
  let '(h1, d) := lnew h (lget h (o_data o)) in
  let '(h2, k) := copy_list h1 (o_keep o) in
  let '(h3, i) := copy_sb h2 (o_id o) in
  let '(h4, e) := copy_sb h3 (o_dest o) in
  let '(h5, u) := copy_sb h4 (o_user o) in
  fnew h5 {| o_data := d; o_keep := k; o_id := i; o_dest := e; o_user := u |}.
(** axis.py 80-91: AxiStreamFrame(data, tkeep, tid, tdest, tuser): the data are copied, the sidebands are not *)
Definition new_frame (h : heap) (d : lref) (k : option lref) (i e u : sbr) : heap * fref :=
  let '(h1, d') := lnew h (lget h d) in fnew h1 {| o_data := d'; o_keep := k; o_id := i; o_dest := e; o_user := u |}.

(** axis.py 94-125 on the object: each attribute becomes a new list, in this order, until one raises *)
Definition h_normalize (h : heap) (f : fref) : heap * res unit :=
  let n := zlen (f_data (deref h f)) in
  match match o_keep (fget h f) with Some l => fit n (snd (lget h l)) | None => Ok (repeat 1 (Z.to_nat n)) end with
  | Err e => (h, Err e)
  | Ok k =>
      let '(h, l) := lnew h (false, k) in let o := fget h f in
      let h := fset h f {| o_data := o_data o; o_keep := Some l; o_id := o_id o; o_dest := o_dest o; o_user := o_user o |} in
      match fit_sb n (sb_val h (o_id (fget h f))) with
      | Err e => (h, Err e)
      | Ok x =>
          let '(h, l) := lnew h (false, x) in let o := fget h f in
          let h := fset h f {| o_data := o_data o; o_keep := o_keep o; o_id := RList l; o_dest := o_dest o; o_user := o_user o |} in
          match fit_sb n (sb_val h (o_dest (fget h f))) with
          | Err e => (h, Err e)
          | Ok x =>
              let '(h, l) := lnew h (false, x) in let o := fget h f in
              let h := fset h f {| o_data := o_data o; o_keep := o_keep o; o_id := o_id o; o_dest := RList l; o_user := o_user o |} in
              match fit_sb n (sb_val h (o_user (fget h f))) with
              | Err e => (h, Err e)
              | Ok x =>
                  let '(h, l) := lnew h (false, x) in let o := fget h f in
                  (fset h f {| o_data := o_data o; o_keep := o_keep o; o_id := o_id o; o_dest := o_dest o; o_user := RList l |}, Ok tt)
              end
          end
      end
  end.

(** ** the source *)
Record hsrc := { hs_q : list (Z * fref); hs_cur : option (Z * fref * Z); hs_current : option (Z * fref);
                 hs_r : asrc (* everything else; its a_q, a_cur, a_current are not used *) }.
Definition hsrc_init (limb limf : Z) : hsrc := {| hs_q := []; hs_cur := None; hs_current := None; hs_r := asrc_init limb limf |}.
(** the source as M_axis.v has it, with what the references show now *)
Definition seen_t (h : heap) (x : Z * fref) : tframe := (fst x, deref h (snd x)).
Definition seen (h : heap) (s : hsrc) : asrc :=
  let r := hs_r s in
  {| a_q := map (seen_t h) (hs_q s); a_cur := option_map (fun x => (seen_t h (fst x), snd x)) (hs_cur s); a_current := option_map (seen_t h) (hs_current s);
     a_active := a_active r; a_idle := a_idle r; a_actev := a_actev r; a_pause := a_pause r; a_occb := a_occb r; a_occf := a_occf r;
     a_limb := a_limb r; a_limf := a_limf r; a_task := a_task r; a_valid := a_valid r; a_beat := a_beat r; a_done := a_done r |}.

(** variables of the user's program *)
Inductive ref := RL (l : lref) | RF (f : fref).
Inductive arg := AVar (i : nat) | ANone | AInt (v : Z).
Inductive fld := FData | FKeep | FId | FDest | FUser.
Record hst := { h_heap : heap; h_env : list ref; h_src : hsrc }.

Inductive hop :=
| UList (ba : bool) (l : list Z)                       (* a new list, bytearray or bytes object *)
| UStore (i : nat) (l : list Z)                        (* change a list object in place: append, del, assignment, .. *)
| UFrame (d : nat) (keep id dest user : arg)           (* AxiStreamFrame(d, tkeep, ..) *)
| UGet (i : nat) (x : fld)                             (* f.x *)
| USet (i : nat) (x : fld) (a : arg)                   (* f.x = a;  f.normalize() and f.compact() consist of such steps *)
| HSend (t : Z) (i : nat)                              (* send_nowait(v), write_nowait(v); send, write *)
| HOp (o : aop).                                       (* pause, limits, clear, reset, clock edge *)

Definition arg_list (e : list ref) (a : arg) : option lref := match a with AVar i => match nth_error e i with Some (RL l) => Some l | _ => None end | _ => None end.
Definition arg_sb (e : list ref) (a : arg) : sbr :=
  match a with AVar i => match nth_error e i with Some (RL l) => RList l | _ => RNone end | ANone => RNone | AInt v => RInt v end.
Definition fld_list (o : fobj) (x : fld) : option lref :=
  let f s := match s with RList l => Some l | _ => None end in
  match x with FData => Some (o_data o) | FKeep => o_keep o | FId => f (o_id o) | FDest => f (o_dest o) | FUser => f (o_user o) end.
Definition fld_set (e : list ref) (o : fobj) (x : fld) (a : arg) : fobj :=
  match x with
  | FData => {| o_data := match arg_list e a with Some l => l | None => o_data o end; o_keep := o_keep o; o_id := o_id o; o_dest := o_dest o; o_user := o_user o |}
  | FKeep => {| o_data := o_data o; o_keep := arg_list e a; o_id := o_id o; o_dest := o_dest o; o_user := o_user o |}
  | FId => {| o_data := o_data o; o_keep := o_keep o; o_id := arg_sb e a; o_dest := o_dest o; o_user := o_user o |}
  | FDest => {| o_data := o_data o; o_keep := o_keep o; o_id := o_id o; o_dest := arg_sb e a; o_user := o_user o |}
  | FUser => {| o_data := o_data o; o_keep := o_keep o; o_id := o_id o; o_dest := o_dest o; o_user := arg_sb e a |}
  end.
(** AxiStreamFrame(v) and AxiStreamFrame(v, ..) *)
Definition construct (h : heap) (v : ref) (k : option lref) (i e u : sbr) : heap * fref :=
  match v with RF f => copy_frame h f | RL l => new_frame h l k i e u end.

(** the references after a step of M_axis.v from v to v': a frame that left the queue for the task is normalized in place *)
Definition moved (v v' : asrc) : bool := (length (a_q v') <? length (a_q v))%nat.
Definition src_op (c : scfg) (x : hst) (o : aop) : hst :=
  let h := h_heap x in let s := h_src x in let v := seen h s in let v' := asrc_step c v o in
  match o with
  | AEdge _ =>
      match moved v v', hs_q s with
      | true, tf :: q =>         (* 535-545 *)
          let h' := fst (h_normalize h (snd tf)) in
          {| h_heap := h';
             h_env := h_env x ++ (if (length (a_done v) <? length (a_done v'))%nat then [RF (snd tf)] else []);
             h_src := {| hs_q := q; hs_cur := option_map (fun y => (tf, snd y)) (a_cur v'); hs_current := option_map (fun _ => tf) (a_current v'); hs_r := v' |} |}
      | _, _ =>
          {| h_heap := h;
             h_env := h_env x ++ (if (length (a_done v) <? length (a_done v'))%nat then match hs_cur s with Some y => [RF (snd (fst y))] | None => [] end else []);
             h_src := {| hs_q := hs_q s; hs_cur := match a_cur v', hs_cur s with Some y, Some z => Some (fst z, snd y) | _, _ => None end;
                         hs_current := match a_current v' with Some _ => hs_current s | None => None end; hs_r := v' |} |}
      end
  | AClear =>                    (* 358-361 *)
      {| h_heap := h; h_env := h_env x ++ map (fun y => RF (snd y)) (hs_q s);
         h_src := {| hs_q := []; hs_cur := hs_cur s; hs_current := hs_current s; hs_r := v' |} |}
  | AReset true =>               (* 506-509, 512 *)
      {| h_heap := h;
         h_env := h_env x ++ (if (length (a_done v) <? length (a_done v'))%nat then match hs_current s with Some y => [RF (snd y)] | None => [] end else []);
         h_src := {| hs_q := hs_q s; hs_cur := None; hs_current := match a_current v' with Some _ => hs_current s | None => None end; hs_r := v' |} |}
  | _ => {| h_heap := h; h_env := h_env x; h_src := {| hs_q := hs_q s; hs_cur := hs_cur s; hs_current := hs_current s; hs_r := v' |} |}
  end.

Definition h_step (c : scfg) (x : hst) (o : hop) : hst :=
  let h := h_heap x in let e := h_env x in
  match o with
  | UList ba l => let '(h', r) := lnew h (ba, l) in {| h_heap := h'; h_env := e ++ [RL r]; h_src := h_src x |}
  | UStore i l => match nth_error e i with Some (RL r) => {| h_heap := lset h r l; h_env := e; h_src := h_src x |} | _ => x end
  | UFrame d k i de u =>
      match nth_error e d with
      | Some v => let '(h', f) := construct h v (arg_list e k) (arg_sb e i) (arg_sb e de) (arg_sb e u) in {| h_heap := h'; h_env := e ++ [RF f]; h_src := h_src x |}
      | None => x
      end
  | UGet i a =>
      match nth_error e i with
      | Some (RF f) => match fld_list (fget h f) a with Some l => {| h_heap := h; h_env := e ++ [RL l]; h_src := h_src x |} | None => x end
      | _ => x
      end
  | USet i a v => match nth_error e i with Some (RF f) => {| h_heap := fset h f (fld_set e (fget h f) a v); h_env := e; h_src := h_src x |} | _ => x end
  | HSend t i =>                 (* 457-465 *)
      match nth_error e i with
      | Some v =>
          if asrc_full (seen h (h_src x)) then x else
          let '(h', f) := construct h v None RNone RNone RNone in
          let s := h_src x in
          {| h_heap := h'; h_env := e;
             h_src := {| hs_q := hs_q s ++ [(t, f)]; hs_cur := hs_cur s; hs_current := hs_current s; hs_r := asrc_step c (seen h' s) (ASend t (deref h' f)) |} |}
      | None => x
      end
  | HOp (ASend _ _) => x         (* sending is HSend *)
  | HOp o => src_op c x o
  end.
Fixpoint h_run (c : scfg) (x : hst) (l : list hop) : hst := match l with [] => x | o :: l' => h_run c (h_step c x o) l' end.
Definition h_init (limb limf : Z) : hst := {| h_heap := {| h_l := []; h_f := [] |}; h_env := []; h_src := hsrc_init limb limf |}.
