(** AXI protocol rules used as specification (AMBA AXI, section A3.4), written over the channel
    payload records only.  No function of the master or slave model is used here. *)
From Coq Require Import ZArith Lia List Bool.
From Verif Require Import Py S_flat M_axi.
Import ListNotations.
Open Scope Z_scope.

(** x rounded down to a multiple of n *)
Definition down (n x : Z) : Z := x - x mod n.

(** address of beat [n] (0-based) of a burst *)
Definition axi_beat_addr (a : axc) (n : Z) : Z :=
  let nb := 2 ^ ax_size a in
  match ax_burst a with
  | FIXED => ax_addr a
  | INCR => if n =? 0 then ax_addr a else down nb (ax_addr a) + n * nb
  | WRAP => let c := nb * (ax_len a + 1) in
            let wb := down c (ax_addr a) in
            wb + (down nb (ax_addr a) - wb + n * nb) mod c
  end.

Definition beats (a : axc) : Z := ax_len a + 1.

(** byte on lane [i] of a data word *)
Definition lane_byte (data i : Z) : Z := (data / 256 ^ i) mod 256.

(** (address, byte) pairs selected by the strobes of a beat whose bus word starts at [word] *)
Definition strobed (L word : Z) (w : wch) : list (Z * Z) :=
  map (fun i => (word + i, lane_byte (w_data w) i))
      (filter (fun i => Z.testbit (w_strb w) i) (zrange 0 L)).

(** (address, byte) pairs written by a burst with its beats, beat numbers from [n] *)
Fixpoint burst_bytes (L : Z) (a : axc) (n : Z) (ws : list wch) : list (Z * Z) :=
  match ws with
  | [] => []
  | w :: ws' => strobed L (down L (axi_beat_addr a n)) w ++ burst_bytes L a (n + 1) ws'
  end.

(** assign the W beats to the bursts in order; defined when the numbers match exactly *)
Fixpoint pair_bursts (aws : list axc) (ws : list wch) : option (list (axc * list wch)) :=
  match aws with
  | [] => match ws with [] => Some [] | _ => None end
  | a :: aws' =>
      let n := Z.to_nat (beats a) in
      if Nat.leb n (length ws)
      then match pair_bursts aws' (skipn n ws) with
           | Some r => Some ((a, firstn n ws) :: r)
           | None => None
           end
      else None
  end.

(** all (address, byte) pairs of a sequence of bursts *)
Definition all_bytes (L : Z) (l : list (axc * list wch)) : list (Z * Z) :=
  flat_map (fun p => burst_bytes L (fst p) 0 (snd p)) l.

(** wlast exactly on the last beat *)
Definition last_ok (ws : list wch) : Prop :=
  map w_last ws = repeat false (pred (length ws)) ++ [true].

(** [2^size] bytes per beat on a bus of [L] byte lanes: L is a power of two up to 128 *)
Definition bus_ok (L size : Z) : Prop := exists m, L = 2 ^ m /\ 0 <= size <= m /\ m <= 7.

(** legality of an INCR burst on a bus of [L] byte lanes and [aw] address bits *)
Definition legal_incr (L aw : Z) (a : axc) : Prop :=
  ax_burst a = INCR /\
  0 <= ax_size a < 8 /\ 2 ^ ax_size a <= L /\
  0 <= ax_len a < 256 /\
  0 <= ax_addr a < 2 ^ aw /\
  (* the first and the last byte of the burst's containers are in the same 4 kB page *)
  down 4096 (ax_addr a) =
  down 4096 (down (2 ^ ax_size a) (ax_addr a) + beats a * 2 ^ ax_size a - 1).

(** first address after the burst *)
Definition incr_end (a : axc) : Z := down (2 ^ ax_size a) (ax_addr a) + beats a * 2 ^ ax_size a.

(** every burst starts where the previous one ended *)
Fixpoint chained (from : Z) (l : list axc) : Prop :=
  match l with [] => True | a :: l' => ax_addr a = from /\ chained (incr_end a) l' end.

(** first address after a sequence of bursts *)
Definition chain_end (from : Z) (l : list axc) : Z := fold_left (fun _ a => incr_end a) l from.

(** wuser of beat k of an operation *)
Definition wuser_at (wu : wuser_t) (k : Z) : Z :=
  match wu with WInt u => u | WList l => znth 0 l k end.

(** byte-wise update *)
Definition upd (f : flat) (a b : Z) : flat := fun x => if x =? a then b else f x.

(** apply (address, byte) pairs in order, through an address translation *)
Fixpoint put (phi : Z -> Z) (f : flat) (l : list (Z * Z)) : flat :=
  match l with [] => f | (a, b) :: l' => put phi (upd f (phi a) b) l' end.

(** the data bytes with their addresses *)
Definition addressed (a : Z) (d : list Z) : list (Z * Z) := combine (zrange a (a + zlen d)) d.

(** A target that stores bytes in the range [lo, hi) of bus addresses: accesses confined to one
    bus word succeed, write exactly the addressed bytes and read them.  [phi] translates bus
    addresses to storage locations (identity, or modulo the RAM size). *)
Record flat_target {T} (L lo hi : Z) (phi : Z -> Z) (inv : T -> Prop) (view : T -> flat)
  (tw : T -> Z -> list Z -> T * res unit) (tr : T -> Z -> Z -> T * res (list Z)) : Prop := {
  ft_write : forall t a d, inv t -> are_bytes d -> 0 < zlen d -> lo <= a -> a + zlen d <= hi ->
     down L a = down L (a + zlen d - 1) ->
     exists t', tw t a d = (t', Ok tt) /\ inv t' /\ view t' =f put phi (view t) (addressed a d);
  ft_read : forall t a, inv t -> lo <= a -> a + L <= hi -> a mod L = 0 ->
     exists t', tr t a L = (t', Ok (map (fun x => view t (phi x)) (zrange a (a + L))))
             /\ inv t' /\ view t' =f view t;
  ft_bytes : forall t x, inv t -> is_byte (view t x) }.

(** a target that also records every call and its result *)
Definition log_write {T} (tw : T -> Z -> list Z -> T * res unit)
  (t : T * list (Z * list Z * res unit)) (a : Z) (d : list Z)
  : (T * list (Z * list Z * res unit)) * res unit :=
  let '(t', r) := tw (fst t) a d in ((t', snd t ++ [(a, d, r)]), r).
Definition log_read {T} (tr : T -> Z -> Z -> T * res (list Z))
  (t : T * list (Z * Z * res (list Z))) (a n : Z)
  : (T * list (Z * Z * res (list Z))) * res (list Z) :=
  let '(t', r) := tr (fst t) a n in ((t', snd t ++ [(a, n, r)]), r).

Definition is_err {A} (r : res A) : bool := match r with Err _ => true | Ok _ => false end.

(** the bursts a slave accepts: size within the bus, INCR within a 4 kB page *)
Definition accepts (L : Z) (a : axc) : Prop :=
  2 ^ ax_size a <= L /\
  (ax_burst a = INCR -> 2 ^ ax_size a * beats a <= 4096 - down (2 ^ ax_size a) (ax_addr a) mod 4096).


(** a recorded call of the target that raised *)
Definition failed {X} (e : X * res unit) : bool := is_err (snd e).

(** the bytes stored by a list of write calls *)
Definition calls_bytes (l : list (Z * list Z * res unit)) : list (Z * Z) :=
  flat_map (fun e => addressed (fst (fst e)) (snd (fst e))) l.

(** the strobes that count: all lanes when the bus has no wstrb *)
Definition eff_w (strb_present : bool) (L : Z) (w : wch) : wch :=
  if strb_present then w
  else {| w_data := w_data w; w_strb := 2 ^ L - 1; w_last := w_last w; w_user := w_user w |}.

(** Per beat of a burst (from beat n on) the recorded target calls: they write the strobed bytes
    in ascending order, up to and including the first call that raised. *)
Fixpoint logged (L : Z) (a : axc) (n : Z) (ws : list wch) (calls : list (list (Z * list Z * res unit)))
  : Prop :=
  match ws, calls with
  | [], [] => True
  | w :: ws', cs :: calls' =>
      (exists rest, strobed L (down L (axi_beat_addr a n)) w = calls_bytes cs ++ rest /\
                    (existsb failed cs = false -> rest = [])) /\
      Forall (fun e => snd (fst e) <> []) cs /\
      logged L a (n + 1) ws' calls'
  | _, _ => False
  end.

(** a burst the slave can process: fields in range, W beats as announced *)
Definition wburst_ok (L : Z) (p : axc * list wch) : Prop :=
  0 <= ax_size (fst p) /\ 0 <= ax_len (fst p) /\ (exists q, 0 < q /\ L = 2 ^ ax_size (fst p) * q) /\
  accepts L (fst p) /\
  zlen (snd p) = beats (fst p) /\ Forall (fun w => 0 <= w_data w < 256 ^ L) (snd p) /\ last_ok (snd p).

(** a read burst the slave can process *)
Definition rburst_ok (L : Z) (a : axc) : Prop :=
  0 <= ax_size a /\ 0 <= ax_len a /\ (exists q, 0 < q /\ L = 2 ^ ax_size a * q) /\ accepts L a.

(** the R beat sent for beat n of burst a when the target call returned or raised *)
Definition r_answer (a : axc) (x : Z * (Z * Z * res (list Z))) : rch :=
  {| r_id := ax_id a;
     r_data := match snd (snd x) with Ok d => le_int d | Err _ => 0 end;
     r_resp := match snd (snd x) with Ok _ => OKAY | Err _ => SLVERR end;
     r_last := fst x =? beats a - 1; r_user := 0 |}.

(** error responses *)
Definition rerr (r : resp_t) : bool := match r with SLVERR | DECERR => true | _ => false end.
