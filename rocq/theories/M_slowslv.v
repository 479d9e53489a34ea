(** The write task of AxiLiteSlave on a target whose accesses take time: each `await self._write(...)` of a word is a step of
    its own, and anything may happen in between: other components run, others change the target.

    Sources: /repo/cocotbext/axi/axil_slave.py 107-158.  The rest of the system as in M_litesys.v.
    Simplified: an access of the target changes it and returns in one step, at any time after it was begun.
    The read tasks (axil_slave.py 225-248, axi_slave.py 276-336) make one access per word; it is a step of its own in M_litesys.v and M_sys.v already. *)
From Coq Require Import ZArith List Bool.
From Verif Require Import Py M_axi M_axil M_liteeng M_sys M_litesys.
Import ListNotations.
Open Scope Z_scope.

Section Lite.
Context {T : Type}.
Variable t_write : T -> Z -> list Z -> T * res unit.
Variable L : Z.
Variable sp : bool.

(** as [lwslv]; LSWr: line 153 with the writes that are left, the first of them begun *)
Inductive lwslow := LSIdle (t : T) | LSGot (a : lax) (t : T) | LSWr (ops : list (Z * list Z)) (t : T) | LSResp (b : resp_t) (t : T) | LSDead (t : T).
(** 152-158: the next write, or the response *)
Definition ls_next (ops : list (Z * list Z)) (t : T) : lwslow := match ops with [] => LSResp OKAY t | _ => LSWr ops t end.
Definition lss_act (s : lwslow) : sact resp_t lwslow :=
  match s with
  | LSIdle _ => AWait true
  | LSGot _ _ => AWait false
  | LSWr [] t => ATau (LSResp OKAY t)
  | LSWr ((a, d) :: ops) t =>
      match t_write t a d with
      | (t', Ok _) => ATau (ls_next ops t')
      | (t', Err _) => ATau (LSResp SLVERR t')                 (* 154-156: the rest is left out *)
      end
  | LSResp b t => AEmit b (LSIdle t)
  | LSDead _ => ADead
  end.
(** 109-114; 116-149 *)
Definition lss_in (s : lwslow) (e : lev) : lwslow :=
  match s, e with
  | LSIdle t, LAW a => LSGot a t
  | LSGot a t, LW w =>
      match to_bytes (lw_data w) L Little with
      | Err _ => LSDead t
      | Ok data => ls_next (sw_ops (la_addr a / L * L) data (if sp then lw_strb w else strb_mask L) (zrange 0 L) 0 None) t
      end
  | _, _ => s
  end.
Definition lss_target (s : lwslow) : T := match s with LSIdle t | LSGot _ t | LSWr _ t | LSResp _ t | LSDead t => t end.
(** others change the target *)
Definition lss_poke (f : T -> T) (s : lwslow) : lwslow :=
  match s with LSIdle t => LSIdle (f t) | LSGot a t => LSGot a (f t) | LSWr ops t => LSWr ops (f t) | LSResp b t => LSResp b (f t) | LSDead t => LSDead (f t) end.
End Lite.
Arguments lwslow : clear implicits.

Definition lssys_step {T} (L : Z) (tw : T -> Z -> list Z -> T * res unit) (sp : bool) :=
  u_step (lite_w_sends L) (lite_w_need L) lw_kind (lss_act tw) (lss_in L sp).
Definition lssys_run {T} (L : Z) (tw : T -> Z -> list Z -> T * res unit) (sp : bool) (t : T) :=
  u_run (lite_w_sends L) (lite_w_need L) lw_kind (lss_act tw) (lss_in L sp) (usys_init (LSIdle t)).

(** a slave's task alone, with transfers of any master *)
Section Alone.
Context {E R S : Type}.
Variable kind : E -> bool.
Variable act : S -> sact R S.
Variable sin : S -> E -> S.
Inductive sev := SvIn (e : E)           (* a transfer is there for the channel the task waits at; otherwise nothing happens *)
               | SvGo                   (* the task goes on by itself: an access is done, a response is sent *)
               | SvPoke (f : S -> S).   (* others change the target *)
Record salone := { sa_s : S; sa_in : list E; sa_out : list R }.
Definition sv_step (x : salone) (o : sev) : salone :=
  match o with
  | SvIn e => match act (sa_s x) with
              | AWait k => if Bool.eqb k (kind e) then {| sa_s := sin (sa_s x) e; sa_in := sa_in x ++ [e]; sa_out := sa_out x |} else x
              | _ => x
              end
  | SvGo => match act (sa_s x) with
            | ATau s => {| sa_s := s; sa_in := sa_in x; sa_out := sa_out x |}
            | AEmit r s => {| sa_s := s; sa_in := sa_in x; sa_out := sa_out x ++ [r] |}
            | _ => x
            end
  | SvPoke f => {| sa_s := f (sa_s x); sa_in := sa_in x; sa_out := sa_out x |}
  end.
Definition sv_run (s : S) (h : list sev) : salone := fold_left sv_step h {| sa_s := s; sa_in := []; sa_out := [] |}.
End Alone.
Arguments sev : clear implicits. Arguments salone : clear implicits.
