(** Specification vocabulary for AxiLiteMaster - AxiLiteSlave on one target (M_literw.v). *)
From Coq Require Import ZArith List Bool.
From Verif Require Import Py S_flat M_axi S_axi M_axil M_liteeng S_liteeng M_sys S_sys S_axisys M_litesys S_litesys M_literw.
Import ListNotations.
Open Scope Z_scope.

(** both halves record their calls; the target itself is one *)
Definition lrw_init {T} (t : T) : lxs (T * list call) (T * list rcall) := lx_init (t, []) (t, []).
Definition lrw_run {T} (L : Z) (tw : T -> Z -> list Z -> T * res unit) (tr : T -> Z -> Z -> T * res (list Z)) :=
  lx_run L (log_write tw) (log_read tr) cp_w2r cp_r2w.
Definition lrw_target {T} (z : lxs (T * list call) (T * list rcall)) : T := fst (lws_target (u_s (v_w z))).

(** nobody but the slave changes the target *)
Definition lx_nopoke {TW TR} (o : lxop TW TR) : Prop := match o with VW o => uno_poke o | VR o => uno_poke o end.
Definition lx_internal {TW TR} (o : lxop TW TR) : Prop := match o with VW o => uinternal o | VR o => uinternal o end.

(** the operations in issue order *)
Definition lwrites_of (l : list lxout) : list (Z * lwcmd) := started (lw_outs l).
Definition lreads_of (l : list lxout) : list (Z * lrcmd) := started (lr_outs l).

(** legal operations in the address range *)
Definition lwrite_in (lo hi : Z) (o : Z * lwcmd) : Prop :=
  lite_write_legal o /\ lo <= lc_addr (snd o) /\ lc_addr (snd o) + zlen (lc_data (snd o)) <= hi.
Definition lread_in (lo hi : Z) (o : Z * lrcmd) : Prop :=
  lite_read_legal o /\ lo <= lr_addr (snd o) < hi /\ lr_addr (snd o) + lr_len (snd o) <= hi.

(** operation j reads address x *)
Definition lreads_byte (R : list (Z * lrcmd)) (j : nat) (x : Z) : Prop :=
  exists o, nth_error R j = Some o /\ lr_addr (snd o) <= x < lr_addr (snd o) + lr_len (snd o).
