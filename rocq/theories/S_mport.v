(** Specification vocabulary for multi-port memories (M_mport.v): what the user of one port sees of it, and what it means that the port
    is served by a memory that others change too. *)
From Coq Require Import ZArith List Bool.
From Verif Require Import Py S_flat M_axi S_axi M_axil M_liteeng S_liteeng M_axieng S_axieng M_sys S_sys M_axisys S_axisys M_litesys S_litesys M_literw S_literw M_mport.
Import ListNotations.
Open Scope Z_scope.

(** ** the operations of a port at the moments 0, 1, .. *)
Record pview := {
  pv_writes : nat -> list (list (Z * Z));        (* the writes issued until moment k, in issue order: addresses and bytes *)
  pv_wdone : nat -> nat -> Prop;                 (* write number i has completed at moment k *)
  pv_wret : nat -> resp_t -> Prop;               (* write number i returned r *)
  pv_reads : nat -> list (Z * Z);                (* the reads issued until moment k: address, length *)
  pv_rdone : nat -> nat -> Prop;
  pv_rret : nat -> list Z * resp_t -> Prop;
  pv_word : nat -> Z -> Z }.                     (* the beat of read number j that carries address x *)

Definition in_read (v : pview) (n j : nat) (x : Z) : Prop :=
  exists a len, nth_error (pv_reads v n) j = Some (a, len) /\ a <= x < a + len.

(** [m k]: the memory's bytes at moment k; [own k]: step k is one of this port.  Step k of this port writes the bytes bs k, and
    - these are the bytes of the port's writes in issue order, none before its write was issued, all when the write has completed;
    - all writes return OKAY;
    - a read returns for each address the memory's byte at some moment [mom j x] between its issue and its completion, the bytes of a beat at the same
      moment, the moments in the order of the reads and addresses. *)
Definition served (phi : Z -> Z) (n : nat) (m : nat -> flat) (own : nat -> bool) (v : pview) : Prop :=
  (forall k k', (k <= k' <= n)%nat -> is_prefix (pv_writes v k) (pv_writes v k') /\ is_prefix (pv_reads v k) (pv_reads v k')) /\
  exists (bs : nat -> list (Z * Z)) (mom : nat -> Z -> nat),
    (forall k, (k < n)%nat -> own k = false -> bs k = []) /\
    (forall k, (k < n)%nat -> own k = true -> m (S k) =f put phi (m k) (bs k)) /\
    (forall k, (k <= n)%nat -> is_prefix (flat_map bs (seq 0 k)) (concat (pv_writes v k))) /\
    (forall k i b, (k <= n)%nat -> nth_error (pv_writes v k) i = Some b -> b <> [] -> pv_wdone v k i ->
       is_prefix (concat (firstn (S i) (pv_writes v k))) (flat_map bs (seq 0 k))) /\
    (forall i r, pv_wret v i r -> r = OKAY) /\
    (forall j a len d, nth_error (pv_reads v n) j = Some (a, len) -> pv_rret v j d ->
       d = (map (fun x => m (mom j x) (phi x)) (zrange a (a + len)), OKAY)) /\
    (forall j x, in_read v n j x -> (mom j x <= n)%nat) /\
    (forall k j x, (k <= n)%nat -> in_read v n j x -> (length (pv_reads v k) <= j)%nat -> (k <= mom j x)%nat) /\
    (forall k j x, (k <= n)%nat -> in_read v n j x -> pv_rdone v k j -> (mom j x < k)%nat) /\
    (forall j x x', in_read v n j x -> in_read v n j x' -> pv_word v j x = pv_word v j x' -> mom j x = mom j x') /\
    (forall j x j' x', in_read v n j x -> in_read v n j' x' -> ((j < j')%nat \/ j = j' /\ x <= x') -> (mom j x <= mom j' x')%nat).

(** everything issued has returned *)
Definition all_returned (v : pview) (n : nat) : Prop :=
  (forall i, (i < length (pv_writes v n))%nat -> exists r, pv_wret v i r) /\ (forall j, (j < length (pv_reads v n))%nat -> exists d, pv_rret v j d).

(** ** the two kinds of ports; [l k]: the events until moment k *)
Definition axi_view (c : mcfg) (widn ridn : Z) (n : nat) (l : nat -> list aout) : pview := {|
  pv_writes := fun k => map (fun p : wop * Z => addressed (wc_addr (snd (fst p))) (wc_data (snd (fst p)))) (writes_of widn (l k));
  pv_wdone := fun k i => exists o u, nth_error (writes_of widn (l k)) i = Some (o, u) /\ done_at (writes_of widn (l k)) (w_outs (l k)) i u;
  pv_wret := fun i r => exists o u rs, nth_error (writes_of widn (l n)) i = Some (o, u) /\
     nth_error (completed_on u (w_outs (l n))) (length (with_tag u (firstn i (writes_of widn (l n))))) = Some (o, rs) /\ write_returns c o u rs = Some r;
  pv_reads := fun k => map (fun p : rop * Z => (rc_addr (snd (fst p)), rc_len (snd (fst p)))) (reads_of ridn (l k));
  pv_rdone := fun k j => exists o u, nth_error (reads_of ridn (l k)) j = Some (o, u) /\ done_at (reads_of ridn (l k)) (r_outs (l k)) j u;
  pv_rret := fun j d => exists o u rs, nth_error (reads_of ridn (l n)) j = Some (o, u) /\
     nth_error (completed_on u (r_outs (l n))) (length (with_tag u (firstn j (reads_of ridn (l n))))) = Some (o, rs) /\ read_returns c o u rs = Some d;
  pv_word := fun j x => match nth_error (reads_of ridn (l n)) j with Some (o, _) => x / 2 ^ rc_size (snd o) | None => 0 end |}.

Definition lite_view (L : Z) (n : nat) (l : nat -> list lxout) : pview := {|
  pv_writes := fun k => map (fun o => addressed (lc_addr (snd o)) (lc_data (snd o))) (lwrites_of (l k));
  pv_wdone := fun k i => (i < length (completed (lw_outs (l k))))%nat;
  pv_wret := fun i r => exists o rs, nth_error (lwrites_of (l n)) i = Some o /\ nth_error (completed (lw_outs (l n))) i = Some (o, rs) /\ lite_write_resp rs = r;
  pv_reads := fun k => map (fun o => (lr_addr (snd o), lr_len (snd o))) (lreads_of (l k));
  pv_rdone := fun k j => (j < length (completed (lr_outs (l k))))%nat;
  pv_rret := fun j d => exists o rs, nth_error (lreads_of (l n)) j = Some o /\ nth_error (completed (lr_outs (l n))) j = Some (o, rs) /\
     lite_read_resp L (snd o) rs = d;
  pv_word := fun j x => x / L |}.

(** ** ports with recorded calls on one memory *)
Notation tgt_w T := (T -> Z -> list Z -> T * res unit).
Notation tgt_r T := (T -> Z -> Z -> T * res (list Z)).
Definition cp_up {T} (f : T -> T) (a : T * list call) : T * list call := (f (fst a), snd a).
(** a port: its master and slave, its target, and the range and the cells of its addresses *)
Inductive mport (T : Type) :=
| PtAxi (c : mcfg) (widn ridn : Z) (tw : tgt_w T) (tr : tgt_r T) (lo hi : Z) (phi : Z -> Z)
| PtLite (L : Z) (tw : tgt_w T) (tr : tgt_r T) (lo hi : Z) (phi : Z -> Z).
Arguments PtAxi {T}. Arguments PtLite {T}.
Definition pt_cfg {T} (p : mport T) : pcfg (T * list call) (T * list rcall) :=
  match p with
  | PtAxi c widn ridn tw tr _ _ _ => CAxi c widn ridn (log_write tw) (log_read tr)
  | PtLite L tw tr _ _ _ => CLite L (log_write tw) (log_read tr)
  end.
Definition pt_phi {T} (p : mport T) : Z -> Z := match p with PtAxi _ _ _ _ _ _ _ phi => phi | PtLite _ _ _ _ _ phi => phi end.
(** the port's target stores bytes in its range *)
Definition pt_ok {T} (inv : T -> Prop) (view : T -> flat) (p : mport T) : Prop :=
  match p with
  | PtAxi c widn ridn tw tr lo hi phi => flat_target (m_lanes c) lo hi phi inv view tw tr /\ 0 < m_lanes c /\ lo mod m_lanes c = 0 /\ hi mod m_lanes c = 0 /\ 0 < widn /\ 0 < ridn
  | PtLite L tw tr lo hi phi => flat_target L lo hi phi inv view tw tr /\ 0 < L /\ lo mod L = 0 /\ hi mod L = 0
  end.
(** its operations are legal and in its range *)
Definition pt_legal {T} (p : mport T) (l : list pout) : Prop :=
  match p with
  | PtAxi c widn ridn _ _ lo hi _ => Forall (write_in (m_lanes c) lo hi) (writes_of widn (axi_outs l)) /\ Forall (read_in (m_lanes c) lo hi) (reads_of ridn (axi_outs l))
  | PtLite L _ _ lo hi _ => Forall (lwrite_in lo hi) (lwrites_of (lite_outs l)) /\ Forall (lread_in lo hi) (lreads_of (lite_outs l))
  end.
Definition pt_view {T} (p : mport T) (n : nat) (l : nat -> list pout) : pview :=
  match p with
  | PtAxi c widn ridn _ _ _ _ _ => axi_view c widn ridn n (fun k => axi_outs (l k))
  | PtLite L _ _ _ _ _ => lite_view L n (fun k => lite_outs (l k))
  end.

Definition mpr_init {T} (t : T) (ps : list (mport T)) : mps T (T * list call) (T * list rcall) := mp_init t (t, []) (t, []) (map pt_cfg ps).
Definition mpr_run {T} : mps T (T * list call) (T * list rcall) -> list (mop T (T * list call) (T * list rcall)) -> _ := mp_run cp_w2r cp_r2w fst cp_up.

(** the steps are steps of the ports' masters, buses and slaves, and direct accesses that keep the memory's invariant *)
Definition port_op {T} (p : mport T) (o : pop (T * list call) (T * list rcall)) : Prop :=
  match p, o with PtAxi _ _ _ _ _ _ _ _, OAxi o => a_nopoke o | PtLite _ _ _ _ _ _, OLite o => lx_nopoke o | _, _ => False end.
Definition mop_ok {T} (inv : T -> Prop) (ps : list (mport T)) (o : mop T (T * list call) (T * list rcall)) : Prop :=
  match o with
  | MPort i o => exists p, nth_error ps i = Some p /\ port_op p o
  | MDirect f => forall t, inv t -> inv (f t)
  end.
(** no coroutine of port i can run *)
Definition p_internal {TW TR} (o : pop TW TR) : Prop := match o with OAxi o => a_internal o | OLite o => lx_internal o end.
Definition port_quiet {T} (s : mps T (T * list call) (T * list rcall)) (i : nat) : Prop :=
  forall o, p_internal o -> mp_step cp_w2r cp_r2w fst cp_up s (MPort i o) = (s, []).
Definition step_of {T TW TR} (i : nat) (o : mop T TW TR) : bool := match o with MPort j _ => Nat.eqb j i | MDirect _ => false end.
Definition own_steps {T TW TR} (h : list (mop T TW TR)) (i k : nat) : bool := match nth_error h k with Some o => step_of i o | None => false end.
(** memory and events after the first k steps *)
Definition mem_after {T} (s : mps T (T * list call) (T * list rcall)) h (k : nat) : T := mp_t (fst (mpr_run s (firstn k h))).
Definition outs_after {T} (s : mps T (T * list call) (T * list rcall)) h (i k : nat) : list pout := outs_at i (snd (mpr_run s (firstn k h))).

(** ** accesses to one cell of the memory *)
Definition on_cell (phi : Z -> Z) (cell : Z) (b : list (Z * Z)) : Prop := exists q, In q b /\ phi (fst q) = cell.
(** a write of the bytes b leaves x in the cell *)
Definition leaves (phi : Z -> Z) (cell : Z) (b : list (Z * Z)) (x : Z) : Prop :=
  exists b1 a b2, b = b1 ++ (a, x) :: b2 /\ phi a = cell /\ forall q, In q b2 -> phi (fst q) <> cell.
