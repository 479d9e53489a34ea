(** Specification vocabulary for AxiMaster - AxiSlave on one target (M_axisys.v). *)
From Coq Require Import ZArith List Bool.
From Verif Require Import Py S_flat M_axi S_axi M_liteeng M_axieng S_axieng M_sys S_sys M_axisys.
Import ListNotations.
Open Scope Z_scope.

(** both halves record their calls; the target itself is one *)
Definition cp_w2r {T} (a : T * list call) (b : T * list rcall) : T * list rcall := (fst a, snd b).
Definition cp_r2w {T} (a : T * list rcall) (b : T * list call) : T * list call := (fst a, snd b).
Definition rw_init {T} (t : T) : axs (T * list call) (T * list rcall) := ax_init (t, []) (t, []).
Definition rw_run {T} (c : mcfg) (widn ridn : Z) (tw : T -> Z -> list Z -> T * res unit) (tr : T -> Z -> Z -> T * res (list Z)) :=
  ax_run c widn ridn (log_write tw) (log_read tr) cp_w2r cp_r2w.
Definition rw_target {T} (z : axs (T * list call) (T * list rcall)) : T := fst (ws_target (y_s (z_w z))).

(** nobody but the slave changes the target *)
Definition a_nopoke {TW TR} (o : aop TW TR) : Prop := match o with BW o => no_poke o | BR o => no_poke o end.
Definition a_internal {TW TR} (o : aop TW TR) : Prop := match o with BW o => internal o | BR o => internal o end.

(** the operations in issue order with their IDs *)
Definition writes_of (widn : Z) (l : list aout) : list (wop * Z) := assigned op_id widn 0 (xstarted (w_outs l)).
Definition reads_of (ridn : Z) (l : list aout) : list (rop * Z) := assigned op_id ridn 0 (xstarted (r_outs l)).
(** operation number j (its ID is u) has completed *)
Definition done_at {C E R} (A : list (C * Z)) (l : list (xout C E R)) (j : nat) (u : Z) : Prop :=
  (length (with_tag u (firstn j A)) < length (completed_on u l))%nat.

(** legal operations in the address range *)
Definition write_in (L lo hi : Z) (p : wop * Z) : Prop :=
  write_legal L (fst p) /\ lo <= wc_addr (snd (fst p)) /\ wc_addr (snd (fst p)) + zlen (wc_data (snd (fst p))) <= hi.
Definition read_in (L lo hi : Z) (p : rop * Z) : Prop :=
  read_legal L (fst p) /\ lo <= rc_addr (snd (fst p)) < hi /\ rc_addr (snd (fst p)) + rc_len (snd (fst p)) <= hi.

(** operation j reads address x; k is the container it lies in *)
Definition reads_byte (R : list (rop * Z)) (j : nat) (x k : Z) : Prop :=
  exists o u, nth_error R j = Some (o, u) /\ rc_addr (snd o) <= x < rc_addr (snd o) + rc_len (snd o) /\ k = x / 2 ^ rc_size (snd o).
