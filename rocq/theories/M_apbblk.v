(** An APB master and slave (apb.py) on a target whose accesses take time: _write and _read of the slave block (556-612: `await self._write`,
    `await self._read`), any number of clock edges and other steps pass before an access is done.

    Master as in M_apb.v.  Simplified: an access of the target changes it and returns in one step, at any time after it was begun. *)
From Coq Require Import ZArith List Bool.
From Verif Require Import Py M_axi M_axil M_apb.
Import ListNotations.
Open Scope Z_scope.

Section Slave.
Context {T : Type}.
Variable t_write : T -> Z -> list Z -> T * res unit.
Variable t_read : T -> Z -> Z -> T * res (list Z).
Variable L : Z.
Variable ep : bool.

(** as [stask]; line 596 with the writes that are left, the first of them begun; 602 *)
Inductive gtask := GT (s : stask) | GWr (ops : list (Z * list Z)) | GRd (addr : Z).
Record gslv := { g_task : gtask; g_pready : bool; g_prdata : Z; g_pslverr : bool; g_t : T }.
Definition gslv_init (t : T) : gslv := {| g_task := GT VIdle; g_pready := false; g_prdata := 0; g_pslverr := false; g_t := t |}.
Definition g_set (v : gslv) (k : gtask) : gslv := {| g_task := k; g_pready := g_pready v; g_prdata := g_prdata v; g_pslverr := g_pslverr v; g_t := g_t v |}.

(** 612-616 *)
Definition g_finish (t : T) (d : option Z) (e : bool) (v : gslv) : gslv :=
  {| g_task := GT VAck; g_pready := true; g_prdata := match d with Some x => x | None => g_prdata v end;
     g_pslverr := if ep then e else g_pslverr v; g_t := t |}.
(** 560-602: up to the first access *)
Definition g_begin (addr : Z) (w : pword) (v : gslv) : gslv :=
  if pw_write w then
    match to_bytes (pw_data w) L Little with
    | Err _ => g_set v (GT VKill)
    | Ok data =>
        match sw_ops addr data (pw_strb w) (zrange 0 L) 0 None with
        | [] => g_finish (g_t v) None false v
        | ops => g_set v (GWr ops)
        end
    end
  else g_set v (GRd addr).
(** 594-612: an access is done *)
Definition g_go (v : gslv) : gslv :=
  match g_task v with
  | GWr ((a, d) :: ops) =>
      match t_write (g_t v) a d with
      | (t', Err _) => g_finish t' None true v
      | (t', Ok _) => match ops with [] => g_finish t' None false v | _ => {| g_task := GWr ops; g_pready := g_pready v; g_prdata := g_prdata v; g_pslverr := g_pslverr v; g_t := t' |} end
      end
  | GRd addr =>
      let '(t', r) := t_read (g_t v) addr L in
      g_finish t' (Some (le_int (match r with Ok d => d | Err _ => zeros L end))) (v_err r) v
  | _ => v
  end.
(** 557-602 *)
Definition g_serve (pause : bool) (addr : Z) (w : pword) (v : gslv) : gslv := if pause then g_set v (GT (VPaus addr)) else g_begin addr w v.
(** the task at a clock edge: 544-624 *)
Definition g_edge (pause psel : bool) (w : pword) (v : gslv) : gslv :=
  match g_task v with
  | GT VKill | GWr _ | GRd _ => v
  | GT VIdle => if psel then g_serve pause (pw_addr w / L * L) w v else v
  | GT (VPaus addr) => g_serve pause addr w v
  | GT VAck => {| g_task := GT VIdle; g_pready := false; g_prdata := g_prdata v; g_pslverr := g_pslverr v; g_t := g_t v |}
  end.
(** 523-536, 541: the task is killed wherever it is *)
Definition g_reset (v : gslv) (b : bool) : gslv :=
  if b then {| g_task := GT VKill; g_pready := false; g_prdata := g_prdata v; g_pslverr := g_pslverr v; g_t := g_t v |}
  else match g_task v with
       | GT VKill => {| g_task := GT VIdle; g_pready := false; g_prdata := g_prdata v; g_pslverr := g_pslverr v; g_t := g_t v |}
       | _ => v
       end.

Record gsys := { g_m : apb; g_s : gslv }.
Inductive gop :=
| GK (o : kop)         (* as in M_apb.v *)
| GGo.                 (* the access of the target that the slave waits for is done *)
Definition gsys0 (t : T) : gsys := {| g_m := apb_init; g_s := gslv_init t |}.
Definition g_step (y : gsys) (o : gop) : gsys * list aout :=
  match o with
  | GK (KM (BEdge _ _ _ _)) => (y, [])
  | GK (KM o) => let '(m, os) := b_step L ep (g_m y) o in ({| g_m := m; g_s := g_s y |}, os)
  | GK (KEdge mp sp) =>
      let '(m, os) := a_edge L ep mp (g_pready (g_s y)) (g_prdata (g_s y)) (g_pslverr (g_s y)) (g_m y) in
      ({| g_m := m; g_s := g_edge sp (b_psel (g_m y)) (b_word (g_m y)) (g_s y) |}, os)
  | GK (KReset b) => ({| g_m := g_m y; g_s := g_reset (g_s y) b |}, [])
  | GGo => ({| g_m := g_m y; g_s := g_go (g_s y) |}, [])
  end.
Fixpoint g_run (y : gsys) (h : list gop) : gsys * list aout :=
  match h with
  | [] => (y, [])
  | o :: h' => let '(y1, o1) := g_step y o in let '(y2, o2) := g_run y1 h' in (y2, o1 ++ o2)
  end.
End Slave.
Arguments gslv : clear implicits. Arguments gsys : clear implicits.
