(** Specification of the requests an AXI master accepts (C29). *)
From Coq Require Import ZArith List Bool.
From Verif Require Import Py M_axi M_axiargs.
Import ListNotations.
Open Scope Z_scope.

(** Specification: the requests that can be served.  [size] and ID are "not given" when None or
    negative.  A sideband value other than the default needs its signal. *)
Definition burst_code (b : burst_t) : Z := match b with FIXED => 0 | INCR => 1 | WRAP => 2 end.

Definition side_ok (p : present) (s : side) : Prop :=
  (s_lock s = 0 \/ s_lock s = 1) /\
  (s_lock s <> 0 -> p_lock p = true) /\ (s_cache s <> 3 -> p_cache p = true) /\
  (s_prot s <> 2 -> p_prot p = true) /\ (s_qos s <> 0 -> p_qos p = true) /\
  (s_region s <> 0 -> p_region p = true) /\ (s_user s <> 0 -> p_user p = true).

Definition given (x : option Z) : option Z :=
  match x with Some v => if v <? 0 then None else Some v | None => None end.

(** [idmax] is the largest acceptable ID *)
Definition com_ok (idmax : Z) (c : acfg) (len : Z) (g : cargs) : Prop :=
  0 <= g_addr g < 2 ^ ac_aw c /\
  0 <= g_burst g <= 2 /\
  (g_burst g <> 0 -> g_addr g + len <= 2 ^ ac_aw c) /\
  (forall i, given (g_id g) = Some i -> i <= idmax) /\
  (forall s, given (g_size g) = Some s -> 2 ^ s <= ac_lanes c) /\
  side_ok (ac_pres c) (g_side g).

Definition wargs_ok (idmax : Z) (c : acfg) (a : wargs) : Prop :=
  exists d, wa_data a = DSeq d /\ are_bytes d /\ com_ok idmax c (zlen d) (wa_com a) /\
            (wa_wuser a <> UInt 0 -> p_wuser (ac_pres c) = true).
Definition rargs_ok (idmax : Z) (c : acfg) (a : rargs) : Prop :=
  0 <= ra_len a /\ com_ok idmax c (ra_len a) (ra_com a).

(** the command that a served request stands for; [m]: log2 of the bus width in bytes *)
Definition com_means (c : acfg) (m : Z) (g : cargs) (i : option Z) (b : burst_t) (sz : Z) : Prop :=
  i = given (g_id g) /\ burst_code b = g_burst g /\
  sz = match given (g_size g) with Some s => s | None => m end.
Definition wuser_means (u : wuarg) : wuser_t :=
  match u with UNone => WInt 0 | UInt u => WInt u | USeq l => WList l end.
