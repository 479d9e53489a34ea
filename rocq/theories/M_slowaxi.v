(** The write task of AxiSlave on a target whose accesses take time: each `await self._write(...)` of a beat is a step of its own, and anything
    may happen in between: other components run, others change the target.

    Source: /repo/cocotbext/axi/axi_slave.py 113-203.  The rest of the system as in M_sys.v.
    Simplified: an access of the target changes it and returns in one step, at any time after it was begun.
    The read task (axi_slave.py 276-336) makes one access per beat; it is a step of its own in M_sys.v already. *)
From Coq Require Import ZArith List Bool.
From Verif Require Import Py M_axi M_axieng M_sys.
Import ListNotations.
Open Scope Z_scope.

Section Slow.
Context {T : Type}.
Variable t_write : T -> Z -> list Z -> T * res unit.
Variable lanes : Z.
Variable strb_present : bool.

(** as [wslv]; VWr: line 189 with the writes of the beat that are left, the first of them begun; [ok]: whether the assertion of line 194 will
    hold; [s]: the variables of the task as the next beat needs them, with the response so far *)
Inductive wslow := VIdle (t : T) | VBeat (s : sst) (t : T) | VWr (ok : bool) (s : sst) (ops : list (Z * list Z)) (t : T)
                 | VResp (b : bch) (t : T) | VDead (t : T).
Definition v_beats (s : sst) (t : T) : wslow :=
  if 0 <? ss_left s then VBeat s t else VResp {| b_id := ss_id s; b_resp := ss_resp s; b_user := 0 |} t.
(** 194-203 *)
Definition v_done (ok : bool) (s : sst) (t : T) : wslow := if ok then v_beats s t else VDead t.
(** 188-189: the next write of the beat, if any *)
Definition v_next (ok : bool) (s : sst) (ops : list (Z * list Z)) (t : T) : wslow :=
  match ops with [] => v_done ok s t | _ => VWr ok s ops t end.
Definition set_resp (r : resp_t) (s : sst) : sst :=
  {| ss_id := ss_id s; ss_nb := ss_nb s; ss_left := ss_left s; ss_burst := ss_burst s; ss_lo := ss_lo s; ss_hi := ss_hi s; ss_cur := ss_cur s; ss_resp := r |}.

Definition vs_act (s : wslow) : sact bch wslow :=
  match s with
  | VIdle _ => AWait true
  | VBeat _ _ => AWait false
  | VWr ok s [] t => ATau (v_done ok s t)
  | VWr ok s ((a, d) :: ops) t =>
      match t_write t a d with
      | (t', Ok _) => ATau (v_next ok s ops t')
      | (t', Err _) => ATau (v_done ok (set_resp SLVERR s) t')          (* 190-192: the rest of the beat is left out *)
      end
  | VResp b t => AEmit b (VIdle t)
  | VDead _ => ADead
  end.
(** 115-147; 149-184 *)
Definition vs_in (s : wslow) (e : wev) : wslow :=
  match s, e with
  | VIdle t, EvAW a => match sl_start lanes a with Ok s' => v_beats s' t | Err _ => VDead t end
  | VBeat s t, EvW w =>
      match to_bytes (w_data w) lanes Little with
      | Err _ => VDead t
      | Ok data =>
          v_next (Bool.eqb (w_last w) (ss_left s =? 1))
            {| ss_id := ss_id s; ss_nb := ss_nb s; ss_left := ss_left s - 1; ss_burst := ss_burst s; ss_lo := ss_lo s; ss_hi := ss_hi s;
               ss_cur := sl_next s; ss_resp := ss_resp s |}
            (sw_ops (ss_cur s / lanes * lanes) data (if strb_present then w_strb w else strb_mask lanes) (zrange 0 lanes) 0 None) t
      end
  | _, _ => s
  end.
Definition vs_target (s : wslow) : T := match s with VIdle t | VBeat _ t | VWr _ _ _ t | VResp _ t | VDead t => t end.
(** others change the target *)
Definition vs_poke (f : T -> T) (s : wslow) : wslow :=
  match s with VIdle t => VIdle (f t) | VBeat b t => VBeat b (f t) | VWr ok s ops t => VWr ok s ops (f t) | VResp b t => VResp b (f t) | VDead t => VDead (f t) end.
End Slow.
Arguments wslow : clear implicits.

Definition vsys_step {T} (c : mcfg) (idn : Z) (tw : T -> Z -> list Z -> T * res unit) (lanes : Z) (sp : bool) :=
  y_step (w_sends c) w_opens w_epat w_chk b_id op_id idn w_opens (vs_act tw) (vs_in lanes sp).
Definition vsys_run {T} (c : mcfg) (idn : Z) (tw : T -> Z -> list Z -> T * res unit) (lanes : Z) (sp : bool) (t : T) :=
  y_run (w_sends c) w_opens w_epat w_chk b_id op_id idn w_opens (vs_act tw) (vs_in lanes sp) (sys_init (VIdle t)).
