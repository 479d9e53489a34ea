(** Several memory interfaces on one memory: multi-port memories.

    Sources: /repo/README.md 172-182 (further AxiRam instances are given the mem of the first one), /repo/cocotbext/axi/memory.py 30-36 (Memory
    keeps the object it is given), 38-42 (direct accesses by the user), axi_ram.py 45-55, axil_ram.py 45-55 (each RAM has its own slaves, all of them on self.mem).

    A port is an AxiMaster connected to an AxiSlave / AxiRam (M_axisys.v) or an AxiLiteMaster connected to an AxiLiteSlave / AxiLiteRam (M_literw.v).
    The ports share nothing but the memory.  In M_axisys.v and M_literw.v the slaves carry the memory: after each step
    of one port the memory is copied to the others, as is done there between the two halves of one port.
    [up f] changes the memory a slave carries; the slaves may have data of their own beside it (the call logs of S_axi.v); the
    program is the instance TW = TR = T, tof t = t, up f = f, w2r t _ = t, r2w t _ = t.
    A port accesses the memory by its [tw] and [tr], which may differ (e.g. an AddressSpace in front of it).  Not modelled: ApbRam as a port, resets. *)
From Coq Require Import ZArith List Bool.
From Verif Require Import Py M_axi M_axil M_liteeng M_axieng M_sys M_axisys M_litesys M_literw.
Import ListNotations.
Open Scope Z_scope.

Section Mp.
Context {T TW TR : Type}.
Variable w2r : TW -> TR -> TR.
Variable r2w : TR -> TW -> TW.
Variable tof : TW -> T.
Variable up : (T -> T) -> TW -> TW.

Inductive pcfg :=
| CAxi (c : mcfg) (widn ridn : Z) (tw : TW -> Z -> list Z -> TW * res unit) (tr : TR -> Z -> Z -> TR * res (list Z))
| CLite (L : Z) (tw : TW -> Z -> list Z -> TW * res unit) (tr : TR -> Z -> Z -> TR * res (list Z)).
Inductive pst := QAxi (z : axs TW TR) | QLite (v : lxs TW TR).
Inductive pop := OAxi (o : aop TW TR) | OLite (o : lxop TW TR).
Definition pout : Type := aout + lxout.

Definition p_init (p : pcfg) (t : TW) (t' : TR) : pst :=
  match p with CAxi _ _ _ _ _ => QAxi (ax_init t t') | CLite _ _ _ => QLite (lx_init t t') end.
(** one step of a port *)
Definition p_step (p : pcfg) (q : pst) (o : pop) : pst * list pout :=
  match p, q, o with
  | CAxi c widn ridn tw tr, QAxi z, OAxi o => let '(z', os) := ax_step c widn ridn tw tr w2r r2w z o in (QAxi z', map inl os)
  | CLite L tw tr, QLite v, OLite o => let '(v', os) := lx_step L tw tr w2r r2w v o in (QLite v', map inr os)
  | _, _, _ => (q, [])
  end.
(** the memory as the port sees it *)
Definition p_mem (q : pst) : T :=
  match q with QAxi z => tof (ws_target (y_s (z_w z))) | QLite v => tof (lws_target (u_s (v_w v))) end.
(** somebody else changes the memory *)
Definition p_upd (p : pcfg) (f : T -> T) (q : pst) : pst :=
  match q with
  | QAxi _ => fst (p_step p q (OAxi (BW (YPoke (ws_poke (up f))))))
  | QLite _ => fst (p_step p q (OLite (VW (UPoke (lws_poke (up f))))))
  end.

Record mps := { mp_t : T; mp_ports : list (pcfg * pst) }.
Inductive mop :=
| MPort (i : nat) (o : pop)              (* a step of port i *)
| MDirect (f : T -> T).                  (* a direct access to the memory: memory.py 41-42 and so on *)

(** port i has gone to q; the others see the memory it left *)
Fixpoint share (i : nat) (q : pst) (ps : list (pcfg * pst)) : list (pcfg * pst) :=
  match ps, i with
  | [], _ => []
  | (p, _) :: r, O => (p, q) :: map (fun pq => (fst pq, p_upd (fst pq) (fun _ => p_mem q) (snd pq))) r
  | (p, q0) :: r, S i' => (p, p_upd p (fun _ => p_mem q) q0) :: share i' q r
  end.
Definition mp_step (s : mps) (o : mop) : mps * list (nat * pout) :=
  match o with
  | MPort i o =>
      match nth_error (mp_ports s) i with
      | Some (p, q) => let '(q', os) := p_step p q o in
                       ({| mp_t := p_mem q'; mp_ports := share i q' (mp_ports s) |}, map (pair i) os)
      | None => (s, [])
      end
  | MDirect f => ({| mp_t := f (mp_t s); mp_ports := map (fun pq => (fst pq, p_upd (fst pq) f (snd pq))) (mp_ports s) |}, [])
  end.
Fixpoint mp_run (s : mps) (h : list mop) : mps * list (nat * pout) :=
  match h with
  | [] => (s, [])
  | o :: h' => let '(s1, o1) := mp_step s o in let '(s2, o2) := mp_run s1 h' in (s2, o1 ++ o2)
  end.
Definition mp_init (t : T) (tw0 : TW) (tr0 : TR) (ps : list pcfg) : mps :=
  {| mp_t := t; mp_ports := map (fun p => (p, p_init p tw0 tr0)) ps |}.
End Mp.
Arguments pcfg : clear implicits. Arguments pst : clear implicits. Arguments pop : clear implicits. Arguments mps : clear implicits. Arguments mop : clear implicits.

(** the events of port i *)
Definition outs_at (i : nat) (l : list (nat * pout)) : list pout := flat_map (fun e => if Nat.eqb (fst e) i then [snd e] else []) l.
Definition axi_outs (l : list pout) : list aout := flat_map (fun e => match e with inl x => [x] | inr _ => [] end) l.
Definition lite_outs (l : list pout) : list lxout := flat_map (fun e => match e with inl _ => [] | inr x => [x] end) l.
