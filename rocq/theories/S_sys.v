(** Specification vocabulary for a master connected to a slave (M_sys.v): what serving a write or read operation
    means in terms of the target's calls and of the value the operation returns. *)
From Coq Require Import ZArith List Bool.
From Verif Require Import Py S_flat M_axi S_axi M_liteeng M_axieng S_axieng M_sys.
Import ListNotations.
Open Scope Z_scope.

Definition is_prefix {A} (a b : list A) : Prop := exists c, b = a ++ c.

(** entries of [xs] that belong to the operations of ID t *)
Definition on_tag {C X} (t : Z) (A : list (C * Z)) (xs : list X) : list X :=
  map snd (filter (fun p => snd (fst p) =? t) (combine A xs)).

(** ** runs *)
(** no task and no channel can do anything: only the user can *)
Definition internal {C S} (o : yop C S) : Prop := match o with YIssue _ | YInit _ | YPoke _ => False | _ => True end.
Definition quiescent {C E R S} (step : sys C E R S -> yop C S -> sys C E R S * list (xout C E R)) (y : sys C E R S) : Prop :=
  forall o, internal o -> step y o = (y, []).
(** nobody but the slave changes the target *)
Definition no_poke {C S} (o : yop C S) : Prop := match o with YPoke _ => False | _ => True end.

(** ** write calls of a target *)
Notation call := (Z * list Z * res unit)%type.
(** the calls, made one after the other from t, have these results and lead to t' *)
Fixpoint replays {T} (tw : T -> Z -> list Z -> T * res unit) (t : T) (l : list call) (t' : T) : Prop :=
  match l with
  | [] => t' = t
  | (a, d, r) :: l' => snd (tw t a d) = r /\ replays tw (fst (tw t a d)) l' t'
  end.
(** a nonempty call inside one bus word *)
Definition call_ok (L : Z) (e : call) : Prop :=
  let '(a, d, _) := e in 0 < zlen d /\ are_bytes d /\ down L a = down L (a + zlen d - 1).

Definition write_legal (L : Z) (o : wop) : Prop :=
  bus_ok L (wc_size (snd o)) /\ wc_burst (snd o) = INCR /\ are_bytes (wc_data (snd o)) /\ 0 <= wc_addr (snd o).

(** what write() returns as resp for the B transfers rs (None: it would not return) *)
Definition write_returns (c : mcfg) (o : wop) (u : Z) (rs : list bch) : option resp_t :=
  match mw_resp (bursts_of (aw_of (fst (master_write c u (snd o))))) rs OKAY [] with
  | Some (r, _, []) => Some r
  | _ => None
  end.

(** P: some of the bus words *)
Definition of_words (L : Z) (P : Z -> bool) : Prop := forall x y, down L x = down L y -> P x = P y.
(** of the bytes to be written, those in words in which no call raised were all written *)
Definition spared (L : Z) (cs : list call) (bytes : list (Z * Z)) : Prop :=
  forall P, of_words L P -> (forall e, In e cs -> P (fst (fst e)) = true -> failed e = false) ->
    filter (fun p => P (fst p)) (calls_bytes cs) = filter (fun p => P (fst p)) bytes.
(** the operation was served by the calls cs and answered by rs: the bytes it asked for, in ascending order, all of them
    if no call raised; SLVERR exactly if a call raised; words without a call that raised are complete *)
Definition written (c : mcfg) (p : wop * Z) (x : list bch * list call) : Prop :=
  let '(o, u) := p in let '(rs, cs) := x in
  Forall (fun b => b_id b = u) rs /\
  write_returns c o u rs = Some (if existsb failed cs then SLVERR else OKAY) /\
  Forall (call_ok (m_lanes c)) cs /\
  incl (calls_bytes cs) (addressed (wc_addr (snd o)) (wc_data (snd o))) /\
  (existsb failed cs = false -> calls_bytes cs = addressed (wc_addr (snd o)) (wc_data (snd o))) /\
  spared (m_lanes c) cs (addressed (wc_addr (snd o)) (wc_data (snd o))).

(** ** read calls of a target *)
Notation rcall := (Z * Z * res (list Z))%type.
Definition rfailed (e : rcall) : bool := is_err (snd e).
(** the bytes returned by a call are bytes of the bus word *)
Definition rcall_ok (e : rcall) : Prop := match snd e with Ok d => are_bytes d /\ zlen d <= snd (fst e) | Err _ => True end.
(** the byte of address x in the result of a call; 0 beyond the data returned or if the call raised *)
Definition call_byte (e : rcall) (x : Z) : Z := match snd e with Ok d => znth 0 d (x - fst (fst e)) | Err _ => 0 end.
Definition no_call : rcall := (0, 0, Ok []).
(** the calls, made one after the other from t, have these results and lead to t' *)
Fixpoint rreplays {T} (tr : T -> Z -> Z -> T * res (list Z)) (t : T) (l : list rcall) (t' : T) : Prop :=
  match l with
  | [] => t' = t
  | (a, n, r) :: l' => snd (tr t a n) = r /\ rreplays tr (fst (tr t a n)) l' t'
  end.

Definition read_legal (L : Z) (o : rop) : Prop :=
  bus_ok L (rc_size (snd o)) /\ rc_burst (snd o) = INCR /\ 0 <= rc_addr (snd o) /\ 0 <= rc_len (snd o).

(** what read() returns as data and resp for the R transfers rs (None: it would not return, or raise) *)
Definition read_returns (c : mcfg) (o : rop) (u : Z) (rs : list rch) : option (list Z * resp_t) :=
  match master_read_resp c (snd o) (bursts_of (master_read c u (snd o))) rs with
  | Some (Ok (d, r, _, [])) => Some (d, r)
  | _ => None
  end.

(** the calls of a read: a bus word for each container of 2^size bytes that the range touches, in ascending order *)
Definition read_calls (L : Z) (cmd : rcmd) : list (Z * Z) :=
  map (fun k => (down L (2 ^ rc_size cmd * k), L))
    (zrange (rc_addr cmd / 2 ^ rc_size cmd) ((rc_addr cmd + rc_len cmd + 2 ^ rc_size cmd - 1) / 2 ^ rc_size cmd)).

(** the operation was served by the calls cs and answered by rs: read() returns each byte as the call for its container returned
    it, and SLVERR exactly if a call raised *)
Definition fetched (c : mcfg) (p : rop * Z) (x : list rch * list rcall) : Prop :=
  let '(o, u) := p in let '(rs, cs) := x in let cmd := snd o in
  Forall (fun r => r_id r = u) rs /\
  map fst cs = read_calls (m_lanes c) cmd /\
  (Forall rcall_ok cs -> read_returns c o u rs =
     Some (map (fun x => call_byte (znth no_call cs (x / 2 ^ rc_size cmd - rc_addr cmd / 2 ^ rc_size cmd)) x)
             (zrange (rc_addr cmd) (rc_addr cmd + rc_len cmd)),
           if existsb rfailed cs then SLVERR else OKAY)).

(** others may change the target at any time (not the record of the calls) *)
Definition rothers {T C} (o : yop C (rslv (T * list rcall))) : Prop :=
  match o with YPoke f => exists g, f = rs_poke (fun tl => (g (fst tl), snd tl)) | _ => True end.
Definition wothers {T C} (o : yop C (wslv (T * list call))) : Prop :=
  match o with YPoke f => exists g, f = ws_poke (fun tl => (g (fst tl), snd tl)) | _ => True end.
