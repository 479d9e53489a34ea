(** Specification vocabulary for APB. *)
From Coq Require Import ZArith List Bool.
From Verif Require Import Py S_flat M_axi S_axi M_axil M_apb.
Import ListNotations.
Open Scope Z_scope.

(** ** the protocol on the signals *)
(** what is sampled at a clock edge: psel, penable, the transfer signals, pready; or a reset *)
Inductive bev := VEdge (psel penable : bool) (w : pword) (pready : bool) | VRst.

(** [apb_next a b]: b may be sampled directly after a.  IDLE -> SETUP (psel, not penable) -> ACCESS (psel and penable,
    held with the same signals until pready) -> IDLE or SETUP; a reset leads to IDLE. *)
Definition apb_next (a b : bev) : Prop :=
  match b with
  | VRst => True
  | VEdge s' e' w' _ =>
      match a with
      | VRst => s' = false /\ e' = false
      | VEdge false _ _ _ => e' = false
      | VEdge true false w _ => s' = true /\ e' = true /\ w' = w
      | VEdge true true w false => s' = true /\ e' = true /\ w' = w
      | VEdge true true _ true => e' = false
      end
  end.
Fixpoint apb_legal (a : bev) (l : list bev) : Prop :=
  match l with [] => True | b :: l' => apb_next a b /\ apb_legal b l' end.

(** the samples of a history of the master *)
Fixpoint b_trace (L : Z) (ep : bool) (s : apb) (h : list bop) : list bev :=
  match h with
  | [] => []
  | o :: h' =>
      match o with
      | BEdge _ pready _ _ => [VEdge (b_psel s) (b_penable s) (b_word s) pready]
      | BReset true => [VRst]
      | _ => []
      end ++ b_trace L ep (fst (b_step L ep s o)) h'
  end.

(** ** what happened *)
Fixpoint starts (o : list aout) : list aop :=
  match o with [] => [] | OStart x :: o' => x :: starts o' | _ :: o' => starts o' end.
Fixpoint sets (o : list aout) : list (aop * option aresp) :=
  match o with [] => [] | OSet x d :: o' => (x, d) :: sets o' | _ :: o' => sets o' end.
(** the calls in a history, in order *)
Definition op_ok (c : acmd) : Prop := match c with ACW w => are_bytes (lc_data w) | ACR r => 0 <= lr_len r end.
Definition bop_ok (o : bop) : Prop := match o with BIssue c | BInit c => op_ok c | _ => True end.
Definition kop_ok (o : kop) : Prop := match o with KM o => bop_ok o | _ => True end.
Definition no_reset (o : kop) : Prop := match o with KM (BReset _) | KReset _ => False | _ => True end.

Definition no_init (o : kop) : Prop := match o with KM (BInit _) => False | _ => True end.
Definition issued (h : list kop) : list acmd := flat_map (fun o => match o with KM (BIssue c) => [c] | _ => [] end) h.
(** the master's task gets its turn, then a clock edge without pauses *)
Definition calm_round : list kop := [KM BWake; KEdge false false].
(** no reset is asserted between lines 341 and 345 *)
Fixpoint no_reset_in_window (L : Z) (ep : bool) (s : apb) (h : list bop) : Prop :=
  match h with
  | [] => True
  | o :: h' => (o = BReset true -> forall x, b_task s <> AGot x) /\ no_reset_in_window L ep (fst (b_step L ep s o)) h'
  end.

(** ** one operation after the other *)
Section Serve.
Context {T : Type}.
Variable tw : T -> Z -> list Z -> T * res unit.
Variable tr : T -> Z -> Z -> T * res (list Z).
Variable L : Z.
Variable ep : bool.

(** an operation on the target: the words of C33 ([lite_write], [lite_read]), one after the other; any failure gives SLVERR if pslverr
    is present *)
Definition apb_serve (t : T) (c : acmd) : T * aresp :=
  match c with
  | ACW w =>
      let evs := fst (lite_write L w) in
      let '(t', bs, _) := lite_slave_write tw L true (law_of evs) (lw_of evs) t in
      (t', AWResp (lc_addr w) (zlen (lc_data w)) (if ep then lite_write_resp bs else OKAY))
  | ACR r =>
      let '(t', rs) := lite_slave_read tr L (lite_read L r) t in
      (t', ARResp (lr_addr r) (fst (lite_read_resp L r rs)) (if ep then snd (lite_read_resp L r rs) else OKAY))
  end.
(** its first j words only *)
Definition apb_part (t : T) (c : acmd) (j : nat) : T :=
  match c with
  | ACW w =>
      let evs := fst (lite_write L w) in
      fst (fst (lite_slave_write tw L true (firstn j (law_of evs)) (firstn j (lw_of evs)) t))
  | ACR r => fst (lite_slave_read tr L (firstn j (lite_read L r)) t)
  end.
Fixpoint serve_all (t : T) (ops : list aop) : T * list (aop * option aresp) :=
  match ops with
  | [] => (t, [])
  | x :: ops' => let '(t1, r) := apb_serve t (snd x) in let '(t2, rs) := serve_all t1 ops' in (t2, (x, Some r) :: rs)
  end.
End Serve.

(** a byte memory serving operations *)
Fixpoint mem_serve (phi : Z -> Z) (m : flat) (ops : list aop) : flat * list (aop * option aresp) :=
  match ops with
  | [] => (m, [])
  | x :: ops' =>
      let '(m1, r) := match snd x with
        | ACW w => (put phi m (addressed (lc_addr w) (lc_data w)), AWResp (lc_addr w) (zlen (lc_data w)) OKAY)
        | ACR r => (m, ARResp (lr_addr r) (map (fun a => m (phi a)) (zrange (lr_addr r) (lr_addr r + lr_len r))) OKAY)
        end in
      let '(m2, rs) := mem_serve phi m1 ops' in (m2, (x, Some r) :: rs)
  end.
(** the operations stay inside [lo, hi) *)
Definition op_in (lo hi : Z) (c : acmd) : Prop :=
  match c with
  | ACW w => are_bytes (lc_data w) /\ lo <= lc_addr w /\ lc_addr w + zlen (lc_data w) <= hi
  | ACR r => 0 <= lr_len r /\ lo <= lr_addr r < hi /\ lr_addr r + lr_len r <= hi
  end.
