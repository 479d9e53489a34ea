(** Model of wait(), wait_read(), wait_write() and idle() of the masters with any number of calls at a time:
    /repo/cocotbext/axi/axi_master.py 350-355, 773-778, 1055-1068; axil_master.py 177-182, 429-434, 598-611;
    apb.py 243-248.

    The master itself is a machine with state [S] and steps [O] (M_axieng.v, M_liteeng.v, M_apb.v); here only the calls of
    wait() are added.  A call runs until it awaits an event that is not set, or returns.  A call that awaits an event is
    continued some time after the event was set (XRun), not in the same instant; in between anything may happen.
    An event that is set already lets the call go on, but not before the scheduler comes back to it.
    Simplification: read_if and write_if both exist (AxiMaster, AxiLiteMaster); the AxiMasterWrite.wait() alone is [KW]. *)
From Coq Require Import ZArith List Bool.
From Verif Require Import Py M_axi M_axil M_liteeng M_axieng M_apb.
Import ListNotations.
Open Scope Z_scope.

(** which method was called: wait_write() / AxiMasterWrite.wait(), wait_read() / AxiMasterRead.wait(), wait() of the pair *)
Inductive wkind := KW | KR | KAll.
(** where a call is: awaiting write_if._idle or read_if._idle *)
Inductive wpos := AtW | AtR.
Record wcall := { wc_id : Z; wc_kind : wkind; wc_pos : wpos; wc_run : bool (* the event was set since: may go on *) }.

Section Wait.
Context {S O : Type}.
Variable stp : S -> O -> S.
Variables wi ri : S -> bool.       (* write_if.idle(), read_if.idle() *)
Variables we re : S -> bool.       (* write_if._idle.is_set(), read_if._idle.is_set() *)

(** 350-355: [None] when the call has returned *)
Definition at_w (s : S) (t : Z) (k : wkind) : option wcall :=
  Some {| wc_id := t; wc_kind := k; wc_pos := AtW; wc_run := we s |}.
Definition at_r (s : S) (t : Z) (k : wkind) : option wcall :=
  Some {| wc_id := t; wc_kind := k; wc_pos := AtR; wc_run := re s |}.

(** 1055-1056 *)
Definition both_idle (s : S) : bool := ri s && wi s.

(** in read_if.wait(), 776-778; at its end 1059 looks at idle() again and enters write_if.wait() if it is false,
    which cannot pass since read_if is idle now *)
Definition go_r (s : S) (t : Z) (k : wkind) : option wcall :=
  if negb (ri s) then at_r s t k
  else match k with KAll => if both_idle s then None else at_w s t k | _ => None end.
(** in write_if.wait(), 353-355; 1060-1061 *)
Definition go_w (s : S) (t : Z) (k : wkind) : option wcall :=
  if negb (wi s) then at_w s t k
  else match k with KAll => go_r s t k | _ => None end.
(** the call: 1058-1061, 1063-1067 *)
Definition enter (s : S) (t : Z) (k : wkind) : option wcall :=
  match k with
  | KW => go_w s t k
  | KR => go_r s t k
  | KAll => if both_idle s then None else go_w s t k
  end.
Definition continue (s : S) (w : wcall) : option wcall :=
  match wc_pos w with AtW => go_w s (wc_id w) (wc_kind w) | AtR => go_r s (wc_id w) (wc_kind w) end.

Inductive mwop := XCall (t : Z) (k : wkind) | XRun (n : nat) | XOp (o : O).
Record mwst := { mw_s : S; mw_calls : list wcall }.

(** an event that was not set and is set now lets its waiters go on *)
Definition wake (s s' : S) (w : wcall) : wcall :=
  let fired := match wc_pos w with AtW => negb (we s) && we s' | AtR => negb (re s) && re s' end in
  {| wc_id := wc_id w; wc_kind := wc_kind w; wc_pos := wc_pos w; wc_run := wc_run w || fired |}.

(** second component: the calls that return in this step *)
Definition mw_step (x : mwst) (o : mwop) : mwst * list (Z * wkind) :=
  match o with
  | XCall t k =>
      match enter (mw_s x) t k with
      | None => (x, [(t, k)])
      | Some w => ({| mw_s := mw_s x; mw_calls := mw_calls x ++ [w] |}, [])
      end
  | XRun n =>
      match nth_error (mw_calls x) n with
      | Some w =>
          if wc_run w then
            let rest := firstn n (mw_calls x) ++ skipn (Datatypes.S n) (mw_calls x) in
            match continue (mw_s x) w with
            | None => ({| mw_s := mw_s x; mw_calls := rest |}, [(wc_id w, wc_kind w)])
            | Some w' => ({| mw_s := mw_s x; mw_calls := rest ++ [w'] |}, [])
            end
          else (x, [])
      | None => (x, [])
      end
  | XOp o =>
      let s' := stp (mw_s x) o in
      ({| mw_s := s'; mw_calls := map (wake (mw_s x) s') (mw_calls x) |}, [])
  end.
Fixpoint mw_run (x : mwst) (h : list mwop) : mwst * list (Z * wkind) :=
  match h with
  | [] => (x, [])
  | o :: h' => let '(x1, r1) := mw_step x o in let '(x2, r2) := mw_run x1 h' in (x2, r1 ++ r2)
  end.
End Wait.
Arguments mwop : clear implicits. Arguments mwst : clear implicits.

(** ** The masters.  The state of a half is its engine and what it did so far. *)
Definition logged {S O L} (f : S -> O -> S * list L) (s : S * list L) (o : O) : S * list L :=
  let '(s', l) := f (fst s) o in (s', snd s ++ l).
(** the two halves run independently: axi_master.py 1038-1046, axil_master.py 582-590 *)
Definition either {A B OA OB} (f : A -> OA -> A) (g : B -> OB -> B) (s : A * B) (o : OA + OB) : A * B :=
  match o with inl a => (f (fst s) a, snd s) | inr b => (fst s, g (snd s) b) end.

(** AxiMaster *)
Definition axm : Type := (xeng wop wev bch * list (xout wop wev bch)) * (xeng rop axc rch * list (xout rop axc rch)).
Definition axm_init : axm := ((xeng_init, []), (xeng_init, [])).
Definition axm_run (c : mcfg) (idw idr : Z) :=
  mw_run (either (logged (w_step c idw)) (logged (r_step c idr)))
    (fun s : axm => x_is_idle (fst (fst s))) (fun s => x_is_idle (fst (snd s)))
    (fun s => e_idle (fst (fst s))) (fun s => e_idle (fst (snd s))) {| mw_s := axm_init; mw_calls := [] |}.
Definition axm_step (c : mcfg) (idw idr : Z) :=
  mw_step (either (logged (w_step c idw)) (logged (r_step c idr)))
    (fun s : axm => x_is_idle (fst (fst s))) (fun s => x_is_idle (fst (snd s)))
    (fun s => e_idle (fst (fst s))) (fun s => e_idle (fst (snd s))).

(** AxiLiteMaster *)
Definition alm : Type :=
  (eng (Z * lwcmd) lev resp_t * list (gout (Z * lwcmd) lev resp_t)) * (eng (Z * lrcmd) lax lrd * list (gout (Z * lrcmd) lax lrd)).
Definition alm_init : alm := ((eng_init, []), (eng_init, [])).
Definition alm_step (L : Z) :=
  mw_step (either (logged (eng_step (lite_w_sends L) (lite_w_need L))) (logged (eng_step (lite_r_sends L) (lite_r_need L))))
    (fun s : alm => eng_is_idle (fst (fst s))) (fun s => eng_is_idle (fst (snd s)))
    (fun s => g_idle (fst (fst s))) (fun s => g_idle (fst (snd s))).
Definition alm_run (L : Z) :=
  mw_run (either (logged (eng_step (lite_w_sends L) (lite_w_need L))) (logged (eng_step (lite_r_sends L) (lite_r_need L))))
    (fun s : alm => eng_is_idle (fst (fst s))) (fun s => eng_is_idle (fst (snd s)))
    (fun s => g_idle (fst (fst s))) (fun s => g_idle (fst (snd s))) {| mw_s := alm_init; mw_calls := [] |}.

(** ApbMaster: one engine for both directions; wait() is [KW] *)
Definition apm : Type := apb * list aout.
Definition apm_step (L : Z) (ep : bool) :=
  mw_step (logged (b_step L ep)) (fun s : apm => b_is_idle (fst s)) (fun _ => true) (fun s => b_idle (fst s)) (fun _ => true).
Definition apm_run (L : Z) (ep : bool) :=
  mw_run (logged (b_step L ep)) (fun s : apm => b_is_idle (fst s)) (fun _ => true) (fun s => b_idle (fst s)) (fun _ => true)
    {| mw_s := (apb_init, []); mw_calls := [] |}.
