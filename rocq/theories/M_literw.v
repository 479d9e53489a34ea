(** AxiLiteMaster connected to AxiLiteSlave / AxiLiteRam: the write system and the read system of M_litesys.v on one target.

    Sources: /repo/cocotbext/axi/axil_master.py 582-616 (AxiLiteMaster is an AxiLiteMasterWrite and an AxiLiteMasterRead),
    axil_slave.py 251-259 (AxiLiteSlave is an AxiLiteSlaveWrite and an AxiLiteSlaveRead on one target), axil_ram.py 45-53 (AxiLiteRam: both on one
    memory).

    The two halves share nothing but the target: each step of one half is followed by copying the target to the
    other one ([w2r], [r2w]), as in M_axisys.v. *)
From Coq Require Import ZArith List Bool.
From Verif Require Import Py M_axi M_axil M_liteeng M_sys M_litesys.
Import ListNotations.
Open Scope Z_scope.

Record lxs (TW TR : Type) := { v_w : usys (Z * lwcmd) lev resp_t (lwslv TW); v_r : usys (Z * lrcmd) lax lrd (lrslv TR) }.
Arguments v_w {TW TR}. Arguments v_r {TW TR}.
Inductive lxop (TW TR : Type) := VW (o : uop (Z * lwcmd) (lwslv TW)) | VR (o : uop (Z * lrcmd) (lrslv TR)).
Arguments VW {TW TR}. Arguments VR {TW TR}.
Definition lxout : Type := gout (Z * lwcmd) lev resp_t + gout (Z * lrcmd) lax lrd.

Section Lx.
Context {TW TR : Type}.
Variable L : Z.
Variable tw : TW -> Z -> list Z -> TW * res unit.
Variable tr : TR -> Z -> Z -> TR * res (list Z).
Variable w2r : TW -> TR -> TR.
Variable r2w : TR -> TW -> TW.

Definition lx_init (t : TW) (t' : TR) : lxs TW TR := {| v_w := usys_init (LWIdle t); v_r := usys_init (LRIdle t') |}.
Definition lx_step (z : lxs TW TR) (o : lxop TW TR) : lxs TW TR * list lxout :=
  match o with
  | VW o => let '(w, os) := lwsys_step L tw true (v_w z) o in
            ({| v_w := w; v_r := uset_s (v_r z) (lrs_poke (w2r (lws_target (u_s w))) (u_s (v_r z))) |}, map inl os)
  | VR o => let '(r, os) := lrsys_step L tr (v_r z) o in
            ({| v_w := uset_s (v_w z) (lws_poke (r2w (lrs_target (u_s r))) (u_s (v_w z))); v_r := r |}, map inr os)
  end.
Fixpoint lx_run (z : lxs TW TR) (h : list (lxop TW TR)) : lxs TW TR * list lxout :=
  match h with
  | [] => (z, [])
  | o :: h' => let '(z1, o1) := lx_step z o in let '(z2, o2) := lx_run z1 h' in (z2, o1 ++ o2)
  end.
End Lx.

(** the events of the two halves *)
Definition lw_outs (l : list lxout) : list (gout (Z * lwcmd) lev resp_t) := flat_map (fun e => match e with inl x => [x] | inr _ => [] end) l.
Definition lr_outs (l : list lxout) : list (gout (Z * lrcmd) lax lrd) := flat_map (fun e => match e with inl _ => [] | inr x => [x] end) l.
