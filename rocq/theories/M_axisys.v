(** AxiMaster connected to AxiSlave / AxiRam: the write system and the read system of M_sys.v on one target.

    Sources: /repo/cocotbext/axi/axi_master.py 1038-1091 (AxiMaster is an AxiMasterWrite and an AxiMasterRead),
    axi_slave.py 339-347 (AxiSlave is an AxiSlaveWrite and an AxiSlaveRead on one target), axi_ram.py 45-55 (AxiRam: both on one memory).

    The two halves share nothing but the target: each step of one half is followed by copying the target to the
    other one ([w2r], [r2w]).  The two sides may have data of their own beside the target (the call logs of S_axi.v); the program is
    the instance TW = TR, w2r t _ = t. *)
From Coq Require Import ZArith List Bool.
From Verif Require Import Py M_axi M_liteeng M_axieng M_sys.
Import ListNotations.
Open Scope Z_scope.

Record axs (TW TR : Type) := { z_w : sys wop wev bch (wslv TW); z_r : sys rop axc rch (rslv TR) }.
Arguments z_w {TW TR}. Arguments z_r {TW TR}.
Inductive aop (TW TR : Type) := BW (o : yop wop (wslv TW)) | BR (o : yop rop (rslv TR)).
Arguments BW {TW TR}. Arguments BR {TW TR}.
Definition aout : Type := xout wop wev bch + xout rop axc rch.

Section Ax.
Context {TW TR : Type}.
Variable c : mcfg.
Variables widn ridn : Z.                                       (* numbers of IDs *)
Variable tw : TW -> Z -> list Z -> TW * res unit.
Variable tr : TR -> Z -> Z -> TR * res (list Z).
Variable w2r : TW -> TR -> TR.
Variable r2w : TR -> TW -> TW.

Definition ax_init (t : TW) (t' : TR) : axs TW TR := {| z_w := sys_init (WIdle t); z_r := sys_init (RIdle t') |}.
Definition ax_step (z : axs TW TR) (o : aop TW TR) : axs TW TR * list aout :=
  match o with
  | BW o => let '(w, os) := wsys_step c widn tw (m_lanes c) true (z_w z) o in
            ({| z_w := w; z_r := set_s (z_r z) (rs_poke (w2r (ws_target (y_s w))) (y_s (z_r z))) |}, map inl os)
  | BR o => let '(r, os) := rsys_step c ridn tr (m_lanes c) (z_r z) o in
            ({| z_w := set_s (z_w z) (ws_poke (r2w (rs_target (y_s r))) (y_s (z_w z))); z_r := r |}, map inr os)
  end.
Fixpoint ax_run (z : axs TW TR) (h : list (aop TW TR)) : axs TW TR * list aout :=
  match h with
  | [] => (z, [])
  | o :: h' => let '(z1, o1) := ax_step z o in let '(z2, o2) := ax_run z1 h' in (z2, o1 ++ o2)
  end.
End Ax.

(** the events of the two halves *)
Definition w_outs (l : list aout) : list (xout wop wev bch) := flat_map (fun e => match e with inl x => [x] | inr _ => [] end) l.
Definition r_outs (l : list aout) : list (xout rop axc rch) := flat_map (fun e => match e with inl _ => [] | inr x => [x] end) l.
