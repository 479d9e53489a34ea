(** Specification vocabulary for histories of an AXI stream link. *)
From Coq Require Import ZArith List Bool.
From Verif Require Import Py M_stream M_axisframe M_axis M_axislink S_axis S_axisrun.
Import ListNotations.
Open Scope Z_scope.

Definition alink_init (slimb slimf klimb klimf : Z) : alink :=
  {| k_ch := achan_init slimb slimf klimb klimf; k_mon := amon_init false false zero_beat |}.

(** what an operation does, seen from outside *)
Record lseen := { e_sent : list tframe;     (* accepted by send *)
                  e_got : list frame;       (* left the sink's queue: recv, read or clear *)
                  e_mon : list frame;       (* left the monitor's queue *)
                  e_lost : nat }.           (* frames given up: the one being sent when a reset starts, those queued when the source is cleared *)

Definition lnone : lseen := {| e_sent := []; e_got := []; e_mon := []; e_lost := 0 |}.
Definition ljoin (a b : lseen) : lseen :=
  {| e_sent := e_sent a ++ e_sent b; e_got := e_got a ++ e_got b; e_mon := e_mon a ++ e_mon b; e_lost := e_lost a + e_lost b |}.

Definition b2n (b : bool) : nat := if b then 1 else 0.

Definition lsee (l : alink) (o : lop) : lseen :=
  let s := ac_src (k_ch l) in let k := ac_snk (k_ch l) in let m := k_mon l in
  {| e_sent := match o with LSrc (ASend t f) => if asrc_full s then [] else [(t, f)] | _ => [] end;
     e_got := match o with LSnk (ZRecv r) => taken r (z_readq k) (z_q k) | LSnk ZClear => z_q k | _ => [] end;
     e_mon := match o with LMon (NRecv r) => taken r (n_readq m) (n_q m) | LMon NClear => n_q m | _ => [] end;
     e_lost := match o with
               | LRst true => b2n (a_active s)
               | LSrc AClear => length (filter nonempty (map snd (a_q s)))
               | _ => 0 end |}.

Fixpoint ltrace (c : scfg) (l : alink) (ops : list lop) : lseen * alink :=
  match ops with
  | [] => (lnone, l)
  | o :: ops' => let '(e, l') := ltrace c (lstep c l o) ops' in (ljoin (lsee l o) e, l')
  end.

Fixpoint lclocks (c : scfg) (n : nat) (l : alink) : alink :=
  match n with O => l | S n' => lstep c (lclocks c n' l) LClk end.

(** only the common reset; frames that can be normalized *)
Definition lk_ok (o : lop) : Prop :=
  (forall b, o <> LSrc (AReset b)) /\ (forall b, o <> LSnk (ZReset b)) /\ (forall b, o <> LMon (NReset b)) /\
  forall t f, o = LSrc (ASend t f) -> frame_ok f.

(** is the reset asserted after the history? *)
Fixpoint held (now : bool) (ops : list lop) : bool :=
  match ops with [] => now | LRst b :: ops' => held b ops' | _ :: ops' => held now ops' end.

(** The fate of the frames sent, in the order sent.  [d] then [e] lists all of them.  Frames marked
    true arrived if in [d] and are still at the source if in [e]; [n] frames, marked false, are lost. *)
Definition ledger (sent arrived : list frame) (n : nat) (pending : list frame) : Prop :=
  exists d e : list (frame * bool),
    sent = map fst d ++ map fst e /\ map fst (filter snd d) = arrived /\ map fst (filter snd e) = pending /\
    (length (filter (fun x => negb (snd x)) d) + length (filter (fun x => negb (snd x)) e) = n)%nat.
