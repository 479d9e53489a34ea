(** Model of define_stream and of the objects it makes (/repo/cocotbext/axi/stream.py 38-72,
    118-125, 438-499).

    Simplifications: names are ASCII strings (Python's lower() acts on A-Z only); signal values and
    widths are integers; the name argument only names the classes and is left out; keys of a dict are
    [option string] because ready_signal may be None; a dict is the list of its items in insertion
    order. *)
From Coq Require Import ZArith List Bool String Ascii.
From Verif Require Import Py.
Import ListNotations.
Open Scope Z_scope.

Notation name := string (only parsing).

(** str.lower on one character *)
Definition lower_c (c : ascii) : ascii :=
  let n := nat_of_ascii c in
  if (65 <=? n)%nat && (n <=? 90)%nat then ascii_of_nat (n + 32) else c.

(** s.lower().endswith(suf), 448, 455 *)
Definition ends (suf s : string) : bool :=
  let l := map lower_c (list_ascii_of_string s) in
  let k := list_ascii_of_string suf in
  if list_eq_dec ascii_dec (skipn (List.length l - List.length k) l) k then true else false.

(** "x in list" *)
Definition inl (s : string) (l : list string) : bool := existsb (String.eqb s) l.

(** the loop of 447-449 and of 454-456: no break, so the last match stays *)
Definition pick (suf : string) (l : list string) : option string :=
  fold_left (fun acc s => if ends suf s then Some s else acc) l None.

(** iterating over a str yields strings of one character: list += str, 451, 459 *)
Definition chars (s : string) : list string :=
  map (fun c => String c EmptyString) (list_ascii_of_string s).

Definition dict := list (option string * Z).
Definition ostr_eqb (a b : option string) : bool :=
  match a, b with
  | Some x, Some y => String.eqb x y
  | None, None => true
  | _, _ => false
  end.
Definition dget (d : dict) (k : option string) : option Z :=
  match find (fun p => ostr_eqb (fst p) k) d with Some p => Some (snd p) | None => None end.
(** 464-468: if k not in d: d[k] = 1 *)
Definition dset1 (d : dict) (k : option string) : dict :=
  match dget d k with Some _ => d | None => d ++ [(k, 1)] end.

(** The class attributes of the five classes, 476-497.  [d_signals] and [d_widths] are the
    caller's own objects (when given), so they also say what those contain afterwards. *)
Record sdef := { d_signals : list string; d_optional : list string; d_widths : dict;
                 d_valid : option string; d_ready : option string; d_payload : list string }.

(** 438-474 *)
Definition define_stream (signals : list string) (optional : option (list string))
    (valid ready : option string) (widths : option dict) : res sdef :=
  let opt := match optional with None => [] | Some l => l end in
  let all := match optional with None => signals | Some l => signals ++ l end in
  let v := match valid with None => pick "valid" all | Some x => Some x end in
  match v with
  | None => Err TypeError                          (* signals += None *)
  | Some vs =>
      let sig1 := if inl vs all then signals else signals ++ chars vs in
      let r := match ready with None => pick "ready" all | Some x => Some x end in
      let sig2 := match ready with
                  | None => sig1
                  | Some rs => if inl rs all then sig1 else sig1 ++ chars rs
                  end in
      let w := dset1 (dset1 (match widths with None => [] | Some d => d end) v) r in
      let pay := filter (fun s => negb (ostr_eqb (Some s) r || ostr_eqb (Some s) v)) all in
      Ok {| d_signals := sig2; d_optional := opt; d_widths := w; d_valid := v; d_ready := r;
            d_payload := pay |}
  end.

(** StreamTransaction.__init__, 58-66: the attributes set, in order; what is left of kwargs goes to
    object.__init__, which refuses it *)
Fixpoint txn_loop (sigs : list string) (kw : list (string * Z)) : list (string * Z) * list (string * Z) :=
  match sigs with
  | [] => ([], kw)
  | s :: rest =>
      match find (fun p => String.eqb (fst p) s) kw with
      | Some p =>
          let '(a, k) := txn_loop rest (filter (fun q => negb (String.eqb (fst q) s)) kw) in
          ((s, snd p) :: a, k)
      | None => let '(a, k) := txn_loop rest kw in ((s, 0) :: a, k)
      end
  end.
Definition txn_init (sigs : list string) (kw : list (string * Z)) : res (list (string * Z)) :=
  let '(a, k) := txn_loop sigs kw in
  match k with [] => Ok a | _ => Err TypeError end.

(** reading an attribute: the last assignment counts *)
Definition attr (a : list (string * Z)) (s : string) : option Z :=
  fold_left (fun acc p => if String.eqb (fst p) s then Some (snd p) else acc) a None.

(** StreamBase.__init__, 122-125: the widths are asserted for the signals the bus has; [bus s] is the
    width of signal s of the bus, None if the bus does not have it *)
Fixpoint base_check (bus : string -> option Z) (w : dict) (sigs : list string) : res unit :=
  match sigs with
  | [] => Ok tt
  | s :: rest =>
      match bus s, dget w (Some s) with
      | Some n, Some m => if n =? m then base_check bus w rest else Err AssertionError
      | _, _ => base_check bus w rest
      end
  end.
Definition base_init (bus : string -> option Z) (d : sdef) : res unit :=
  base_check bus (d_widths d) (d_signals d ++ d_optional d).

(** axi_channels.py 28-62 *)
Definition def_aw := define_stream
  ["awid"; "awaddr"; "awlen"; "awsize"; "awburst"; "awvalid"; "awready"]%string
  (Some ["awlock"; "awcache"; "awprot"; "awqos"; "awregion"; "awuser"]%string) None None
  (Some [(Some "awlen"%string, 8); (Some "awsize"%string, 3); (Some "awburst"%string, 2);
         (Some "awlock"%string, 1); (Some "awcache"%string, 4); (Some "awprot"%string, 3);
         (Some "awqos"%string, 4); (Some "awregion"%string, 4)]).
Definition def_w := define_stream
  ["wdata"; "wlast"; "wvalid"; "wready"]%string (Some ["wstrb"; "wuser"]%string) None None
  (Some [(Some "wlast"%string, 1)]).
Definition def_b := define_stream
  ["bid"; "bvalid"; "bready"]%string (Some ["bresp"; "buser"]%string) None None
  (Some [(Some "bresp"%string, 2)]).
Definition def_ar := define_stream
  ["arid"; "araddr"; "arlen"; "arsize"; "arburst"; "arvalid"; "arready"]%string
  (Some ["arlock"; "arcache"; "arprot"; "arqos"; "arregion"; "aruser"]%string) None None
  (Some [(Some "arlen"%string, 8); (Some "arsize"%string, 3); (Some "arburst"%string, 2);
         (Some "arlock"%string, 1); (Some "arcache"%string, 4); (Some "arprot"%string, 3);
         (Some "arqos"%string, 4); (Some "arregion"%string, 4)]).
Definition def_r := define_stream
  ["rid"; "rdata"; "rlast"; "rvalid"; "rready"]%string (Some ["rresp"; "ruser"]%string) None None
  (Some [(Some "rresp"%string, 2); (Some "rlast"%string, 1)]).

(** axil_channels.py 28-59 *)
Definition def_law := define_stream
  ["awaddr"; "awvalid"; "awready"]%string (Some ["awprot"]%string) None None (Some [(Some "awprot"%string, 3)]).
Definition def_lw := define_stream
  ["wdata"; "wvalid"; "wready"]%string (Some ["wstrb"]%string) None None None.
Definition def_lb := define_stream
  ["bvalid"; "bready"]%string (Some ["bresp"]%string) None None (Some [(Some "bresp"%string, 2)]).
Definition def_lar := define_stream
  ["araddr"; "arvalid"; "arready"]%string (Some ["arprot"]%string) None None (Some [(Some "arprot"%string, 3)]).
Definition def_lr := define_stream
  ["rdata"; "rvalid"; "rready"]%string (Some ["rresp"]%string) None None (Some [(Some "rresp"%string, 2)]).
