(** Blocking recv() and read() of the stream receivers with any number of concurrent callers. *)
From Coq Require Import ZArith List Bool.
From Verif Require Import Py M_stream S_stream M_axisframe M_axis S_axis S_axisrun.
Import ListNotations.
Open Scope Z_scope.

(** stream.py 315-317, axis.py 631-643: [await self.queue.get()].  cocotb's Queue.get is "while self.empty(): wait until a put wakes this
    call; then take the head"; a put wakes one waiting call if there is one.  Which one (cocotb: the oldest) is left open: [c].
    A receiver [v_s], the calls that were woken and have not run yet, and those waiting.  Cancelled calls are not modelled. *)
Section Recv.
Context {St A K R Op : Type} (q : St -> list A) (step : St -> Op -> St) (clears : Op -> bool).
(** what a call does from its beginning, what it does when it continues inside Queue.get, and what the nowait variant does: items taken, state, result
    (None: blocks in Queue.get; of a nowait variant: raises QueueEmpty) *)
Variables (enter resume now : K -> St -> list A * St * option R).

Record vst := { v_s : St; v_run : list (Z * K); v_wait : list (Z * K) }.
Definition v_init (s : St) : vst := {| v_s := s; v_run := []; v_wait := [] |}.

(** a call, with a number; a call of the nowait variant; woken call number [i] continues; anything else that happens to the receiver, with the
    waiting calls that its puts wake *)
Inductive vop := VCall (id : Z) (k : K) | VNow (id : Z) (k : K) | VRun (i : nat) | VOp (o : Op) (cs : list nat).
(** an item was put into the queue; a call took one; a call returned; raised QueueEmpty; the queue was cleared *)
Inductive vev := VArr (a : A) | VTake (id : Z) (k : K) (a : A) | VRet (id : Z) (k : K) (r : R) | VEmpty (id : Z) (k : K) | VClr.

(** Queue._wakeup_next for the puts of [n] items *)
Fixpoint v_wake (n : nat) (cs : list nat) (run wait : list (Z * K)) : list (Z * K) * list (Z * K) :=
  match n, wait with
  | S n', w :: wait' =>
      match nth_error wait (hd O cs) with
      | Some k => v_wake n' (tl cs) (run ++ [k]) (firstn (hd O cs) wait ++ skipn (S (hd O cs)) wait)
      | None => v_wake n' (tl cs) (run ++ [w]) wait'
      end
  | _, _ => (run, wait)
  end.

Definition v_do (id : Z) (k : K) (x : list A * St * option R) (run wait : list (Z * K)) : vst * list vev :=
  let '(tk, s, r) := x in
  match r with
  | Some r => ({| v_s := s; v_run := run; v_wait := wait |}, map (VTake id k) tk ++ [VRet id k r])
  | None => ({| v_s := s; v_run := run; v_wait := wait ++ [(id, k)] |}, map (VTake id k) tk)
  end.

Definition vstep (x : vst) (o : vop) : vst * list vev :=
  match o with
  | VCall id k => v_do id k (enter k (v_s x)) (v_run x) (v_wait x)
  | VNow id k =>
      let '(tk, s, r) := now k (v_s x) in
      ({| v_s := s; v_run := v_run x; v_wait := v_wait x |},
       map (VTake id k) tk ++ [match r with Some r => VRet id k r | None => VEmpty id k end])
  | VRun i =>
      match nth_error (v_run x) i with
      | Some (id, k) => v_do id k (resume k (v_s x)) (firstn i (v_run x) ++ skipn (S i) (v_run x)) (v_wait x)
      | None => (x, [])
      end
  | VOp o cs =>
      let s := step (v_s x) o in
      let new := skipn (length (q (v_s x))) (q s) in
      let '(run, wait) := v_wake (length new) cs (v_run x) (v_wait x) in
      ({| v_s := s; v_run := run; v_wait := wait |}, if clears o then [VClr] else map VArr new)
  end.
Fixpoint vrun (x : vst) (h : list vop) : vst * list vev :=
  match h with
  | [] => (x, [])
  | o :: h' => let '(x1, e1) := vstep x o in let '(x2, e2) := vrun x1 h' in (x2, e1 ++ e2)
  end.
End Recv.
Arguments VCall {K Op}. Arguments VNow {K Op}. Arguments VRun {K Op}. Arguments VOp {K Op}.
Arguments VArr {A K R}. Arguments VTake {A K R}. Arguments VRet {A K R}. Arguments VEmpty {A K R}. Arguments VClr {A K R}.
Arguments vst St K : clear implicits. Arguments vop K Op : clear implicits. Arguments vev A K R : clear implicits.

(** ** StreamMonitor, StreamSink: recv() and recv_nowait(), stream.py 309-321 *)
Section S.
Context {A : Type}.
Definition mon_get (_ : unit) (m : mon A) : list A * mon A * option A :=
  match m_q m with [] => ([], m, None) | a :: _ => ([a], mon_step true m MRecv, Some a) end.
Definition snk_get (_ : unit) (k : snk A) : list A * snk A * option A :=
  match k_q k with [] => ([], k, None) | a :: _ => ([a], snk_step true k KRecv, Some a) end.
Definition mon_vrun (hr : bool) := vrun (m_q (A := A)) (mon_step hr) (fun o => match o with MClear => true | _ => false end) mon_get mon_get mon_get.
Definition snk_vrun (hr : bool) := vrun (k_q (A := A)) (kev_step hr) (fun o => match o with KOp KClear => true | _ => false end) snk_get snk_get snk_get.
End S.

(** ** AxiStreamMonitor, AxiStreamSink: recv(compact), recv_nowait(compact), read(count), read_nowait(count), axis.py 621-653 *)
Inductive rcall := CRecv (cp : bool) | CRead (count : Z).
Section X.
Context {St : Type} (q : St -> list frame) (readq : St -> list Z) (recvf : St -> rop -> St * rres) (extend : St -> list Z -> St).

(** 641-642: one frame from the queue, self.read_queue.extend(frame.tdata) *)
Definition x_take (s : St) : St :=
  match q s with [] => s | f :: _ => extend (fst (recvf s (RRecv true))) (cdata f) end.
(** 640-643 from the test of the loop *)
Fixpoint x_loop (fuel : nat) (count : Z) (tk : list frame) (s : St) : list frame * St * option rres :=
  match fuel with
  | O => (tk, s, None)
  | S fuel' =>
      match readq s, q s with
      | [], [] => (tk, s, None)
      | [], f :: _ => x_loop fuel' count (tk ++ [f]) (x_take s)
      | _, _ => let '(s', r) := recvf s (RRead count) in (tk ++ q s, s', Some r)
      end
  end.
Definition x_get (cp : bool) (s : St) : list frame * St * option rres :=
  match q s with [] => ([], s, None) | f :: _ => let '(s', r) := recvf s (RRecv cp) in ([f], s', Some r) end.
Definition x_enter (k : rcall) (s : St) : list frame * St * option rres :=
  match k with CRecv cp => x_get cp s | CRead n => x_loop (S (S (length (q s)))) n [] s end.
Definition x_resume (k : rcall) (s : St) : list frame * St * option rres :=
  match k with
  | CRecv cp => x_get cp s
  | CRead n => match q s with [] => ([], s, None) | f :: _ => x_loop (S (S (length (q s)))) n [f] (x_take s) end
  end.
(** 645-653 *)
Definition x_now (k : rcall) (s : St) : list frame * St * option rres :=
  match k with CRecv cp => x_get cp s | CRead n => let '(s', r) := recvf s (RRead n) in (q s, s', Some r) end.
End X.

Definition amon_extend (m : amon) (l : list Z) : amon :=
  {| n_q := n_q m; n_part := n_part m; n_readq := n_readq m ++ l; n_occb := n_occb m; n_occf := n_occf m; n_wake := n_wake m; n_task := n_task m;
     n_valid := n_valid m; n_ready := n_ready m; n_beat := n_beat m |}.
Definition asnk_extend (k : asnk) (l : list Z) : asnk :=
  {| z_q := z_q k; z_part := z_part k; z_readq := z_readq k ++ l; z_occb := z_occb k; z_occf := z_occf k; z_limb := z_limb k; z_limf := z_limf k;
     z_pause := z_pause k; z_wake := z_wake k; z_task := z_task k; z_ready := z_ready k |}.
Definition amon_vrun (c : scfg) := vrun n_q (amon_step c) (fun o => match o with NClear => true | _ => false end)
  (x_enter n_q n_readq amon_recv amon_extend) (x_resume n_q n_readq amon_recv amon_extend) (x_now n_q amon_recv).
Definition asnk_vrun (c : scfg) := vrun z_q (zev_step c) (fun o => match o with ZOp ZClear => true | _ => false end)
  (x_enter z_q z_readq asnk_recv asnk_extend) (x_resume z_q z_readq asnk_recv asnk_extend) (x_now z_q asnk_recv).
