(** Property C51: define_stream separates the handshake signals from the payload. *)
From Coq Require Import ZArith Lia List Bool String Ascii.
From Verif Require Import Py M_define.
Import ListNotations.
Open Scope Z_scope.

(* ------------------------------------------------------------------ *)
(** * Specification *)

(** two characters equal up to the case of ASCII letters, the right one in lower case *)
Definition ci (c d : ascii) : Prop :=
  c = d /\ ~ (65 <= nat_of_ascii c <= 90)%nat
  \/ (65 <= nat_of_ascii c <= 90)%nat /\ (nat_of_ascii c + 32 = nat_of_ascii d)%nat.

(** the name ends in [suf], in whatever case *)
Definition named (suf s : string) : Prop :=
  exists p v, list_ascii_of_string s = p ++ v /\ Forall2 ci v (list_ascii_of_string suf).

(** [x] is the last name of the list that ends in [suf] *)
Definition last_named (suf : string) (l : list string) (x : string) : Prop :=
  exists a b, l = a ++ x :: b /\ named suf x /\ Forall (fun s => ~ named suf s) b.

(** the handshake signal: the one given, or else the last so named *)
Definition chosen (given : option string) (suf : string) (l : list string) (x : string) : Prop :=
  match given with Some y => x = y | None => last_named suf l x end.

(** [l'] is [l] in order without the elements [P] *)
Inductive without {A} (P : A -> Prop) : list A -> list A -> Prop :=
| without_nil : without P [] []
| without_drop x l l' : P x -> without P l l' -> without P (x :: l) l'
| without_keep x l l' : ~ P x -> without P l l' -> without P (x :: l) (x :: l').

Definition opt_list (o : option (list string)) : list string := match o with Some l => l | None => [] end.
Definition opt_dict (o : option dict) : dict := match o with Some l => l | None => [] end.

(* ------------------------------------------------------------------ *)
(** * Lemmas *)

Lemma lower_ci c d : lower_c c = d <-> ci c d.
Proof.
  unfold lower_c, ci. pose proof (nat_ascii_bounded c) as Hc.
  destruct ((65 <=? nat_of_ascii c)%nat && (nat_of_ascii c <=? 90)%nat) eqn:E.
  - apply andb_true_iff in E. destruct E as [E1 E2]. apply Nat.leb_le in E1, E2. split.
    + intros <-. right. split; [lia|]. rewrite nat_ascii_embedding by lia. reflexivity.
    + intros [[_ H]|[_ H]]; [lia|]. rewrite H. apply ascii_nat_embedding.
  - apply andb_false_iff in E. rewrite !Nat.leb_gt in E. split.
    + intros <-. left. split; [reflexivity|lia].
    + intros [[H _]|[H _]]; [exact H|lia].
Qed.

Lemma map_lower_ci v k : map lower_c v = k <-> Forall2 ci v k.
Proof.
  revert k. induction v as [|c v IH]; intros k; cbn.
  - split; [intros <-; constructor|intros H; inversion H; reflexivity].
  - split.
    + intros <-. constructor; [apply lower_ci; reflexivity|apply IH; reflexivity].
    + intros H. inversion H; subst. f_equal; [apply lower_ci; assumption|apply IH; assumption].
Qed.

Lemma ends_named suf s : ends suf s = true <-> named suf s.
Proof.
  unfold ends, named. set (l := list_ascii_of_string s). set (k := list_ascii_of_string suf).
  rewrite map_length, skipn_map.
  destruct (list_eq_dec ascii_dec (map lower_c (skipn (List.length l - List.length k) l)) k) as [H|H].
  - split; [|reflexivity]. intros _. exists (firstn (List.length l - List.length k) l), (skipn (List.length l - List.length k) l).
    split; [symmetry; apply firstn_skipn|apply map_lower_ci; exact H].
  - split; [discriminate|]. intros (p & v & Hl & Hv). exfalso. apply H. apply map_lower_ci in Hv.
    assert (Hn : (List.length v = List.length k)%nat) by (rewrite <- Hv; symmetry; apply map_length).
    rewrite Hl. rewrite app_length, Hn. replace (List.length p + List.length k - List.length k)%nat with (List.length p) by lia.
    rewrite skipn_app, skipn_all, Nat.sub_diag. exact Hv.
Qed.

Lemma ends_not suf s : ends suf s = false <-> ~ named suf s.
Proof.
  rewrite <- ends_named. destruct (ends suf s); split; intros H; congruence.
Qed.

Lemma pick_snoc suf l x : pick suf (l ++ [x]) = if ends suf x then Some x else pick suf l.
Proof. unfold pick. rewrite fold_left_app. reflexivity. Qed.

Lemma pick_some suf l x : pick suf l = Some x <-> last_named suf l x.
Proof.
  induction l as [|y l IH] using rev_ind.
  - split; [discriminate|]. intros (a & b & H & _). destruct a; discriminate H.
  - rewrite pick_snoc. destruct (ends suf y) eqn:E.
    + split.
      * intros H. injection H as <-. exists l, []. split; [reflexivity|]. split; [apply ends_named; exact E|constructor].
      * intros (a & b & Hab & Hx & Hb). destruct b as [|z b] using rev_ind.
        -- apply app_inj_tail in Hab. destruct Hab as [_ ->]. reflexivity.
        -- exfalso. rewrite app_comm_cons, app_assoc in Hab. apply app_inj_tail in Hab. destruct Hab as [_ <-].
           apply Forall_app in Hb. destruct Hb as [_ Hb]. inversion Hb; subst. apply H1. apply ends_named. exact E.
    + rewrite IH. split.
      * intros (a & b & -> & Hx & Hb). exists a, (b ++ [y]). split; [rewrite <- app_assoc; reflexivity|].
        split; [exact Hx|]. apply Forall_app. split; [exact Hb|]. constructor; [apply ends_not; exact E|constructor].
      * intros (a & b & Hab & Hx & Hb). destruct b as [|z b _] using rev_ind.
        -- exfalso. apply app_inj_tail in Hab. destruct Hab as [_ <-]. apply ends_named in Hx. congruence.
        -- rewrite app_comm_cons, app_assoc in Hab. apply app_inj_tail in Hab. destruct Hab as [-> _].
           apply Forall_app in Hb. destruct Hb as [Hb _]. exists a, b. auto.
Qed.

Lemma pick_none suf l : pick suf l = None <-> Forall (fun s => ~ named suf s) l.
Proof.
  induction l as [|y l IH] using rev_ind; [split; [constructor|reflexivity]|].
  rewrite pick_snoc, Forall_app. destruct (ends suf y) eqn:E.
  - split; [discriminate|]. intros [_ H]. inversion H; subst. exfalso. apply H2. apply ends_named. exact E.
  - rewrite IH. apply ends_not in E. split; [intros H; split; [exact H|constructor; [exact E|constructor]]|tauto].
Qed.

Lemma inl_In s l : inl s l = true <-> In s l.
Proof.
  unfold inl. rewrite existsb_exists. split.
  - intros (x & H & E). apply String.eqb_eq in E. subst. exact H.
  - intros H. exists s. split; [exact H|apply String.eqb_refl].
Qed.

Lemma ostr_eqb_spec a b : ostr_eqb a b = true <-> a = b.
Proof.
  destruct a, b; cbn; try (split; congruence). rewrite String.eqb_eq. split; congruence.
Qed.

Lemma dget_app d e k : dget (d ++ e) k = match dget d k with Some v => Some v | None => dget e k end.
Proof.
  unfold dget. induction d as [|p d IH]; cbn; [destruct (find _ e); reflexivity|].
  destruct (ostr_eqb (fst p) k); [reflexivity|exact IH].
Qed.

Lemma dget_dset1 d k j : dget (dset1 d k) j =
  match dget d j with Some v => Some v | None => if ostr_eqb k j then Some 1 else None end.
Proof.
  unfold dset1. destruct (dget d k) eqn:E.
  - destruct (dget d j) eqn:Ej; [reflexivity|]. destruct (ostr_eqb k j) eqn:Ek; [|reflexivity].
    apply ostr_eqb_spec in Ek. congruence.
  - rewrite dget_app. destruct (dget d j); [reflexivity|]. unfold dget. cbn. destruct (ostr_eqb k j); reflexivity.
Qed.

Lemma filter_without {A} (P : A -> Prop) f l :
  (forall x, f x = true <-> ~ P x) -> (forall x, f x = false <-> P x) -> without P l (filter f l).
Proof.
  intros H1 H2. induction l as [|x l IH]; cbn; [constructor|].
  destruct (f x) eqn:E; [constructor 3; [apply H1; exact E|exact IH]|constructor 2; [apply H2; exact E|exact IH]].
Qed.

Lemma chosen_in given suf l x :
  chosen given suf l x -> In x l \/ given = Some x.
Proof.
  destruct given; cbn; [intros ->; auto|]. intros (a & b & -> & _). left. apply in_or_app. right. left. reflexivity.
Qed.

(* ------------------------------------------------------------------ *)
(** * Theorems *)

(** For every signal list that contains its handshake signals: the call succeeds; the transaction's
    attributes are all signals without the two, in order; the bus and the endpoints declare exactly
    the signals given, the caller's list unchanged; the given widths hold and the handshake signals
    have width 1 unless given otherwise. *)
Theorem C51_define : forall signals optional valid ready widths v r,
  chosen valid "valid" (signals ++ opt_list optional) v ->
  chosen ready "ready" (signals ++ opt_list optional) r ->
  In v (signals ++ opt_list optional) -> In r (signals ++ opt_list optional) ->
  exists d, define_stream signals optional valid ready widths = Ok d
  /\ d_valid d = Some v /\ d_ready d = Some r
  /\ d_signals d = signals /\ d_optional d = opt_list optional
  /\ without (fun s => s = v \/ s = r) (signals ++ opt_list optional) (d_payload d)
  /\ (forall k n, dget (opt_dict widths) k = Some n -> dget (d_widths d) k = Some n)
  /\ (forall k, dget (opt_dict widths) k = None -> k = Some v \/ k = Some r -> dget (d_widths d) k = Some 1)
  /\ (forall k, dget (opt_dict widths) k = None -> k <> Some v -> k <> Some r -> dget (d_widths d) k = None).
Proof.
  intros signals optional valid ready widths v r Hv Hr Iv Ir. unfold define_stream.
  replace (match optional with None => signals | Some l => signals ++ l end) with (signals ++ opt_list optional)
    by (destruct optional; cbn; [reflexivity|apply app_nil_r]).
  set (all := signals ++ opt_list optional) in *.
  replace (match valid with None => pick "valid" all | Some x => Some x end) with (Some v)
    by (destruct valid; cbn in Hv; [congruence|symmetry; apply pick_some; exact Hv]).
  replace (match ready with None => pick "ready" all | Some x => Some x end) with (Some r)
    by (destruct ready; cbn in Hr; [congruence|symmetry; apply pick_some; exact Hr]).
  apply inl_In in Iv, Ir. rewrite Iv.
  eexists. split; [reflexivity|]. cbn [d_valid d_ready d_signals d_optional d_payload d_widths].
  split; [reflexivity|]. split; [reflexivity|]. split.
  { destruct ready; [|reflexivity]. cbn in Hr. subst. rewrite Ir. reflexivity. }
  split; [reflexivity|]. split.
  { apply filter_without; intros x; cbn [ostr_eqb];
      destruct (String.eqb_spec x r), (String.eqb_spec x v); cbn; intuition (try congruence). }
  fold (opt_dict widths).
  split; [|split]; intros k.
  - intros n Hn. rewrite !dget_dset1, Hn. reflexivity.
  - intros Hn Hk. rewrite !dget_dset1, Hn. destruct Hk as [->| ->].
    + cbn. rewrite String.eqb_refl. reflexivity.
    + destruct (ostr_eqb (Some v) (Some r)); [reflexivity|]. cbn. rewrite String.eqb_refl. reflexivity.
  - intros Hn Hk1 Hk2. rewrite !dget_dset1, Hn.
    destruct (ostr_eqb (Some v) k) eqn:E1; [apply ostr_eqb_spec in E1; congruence|].
    destruct (ostr_eqb (Some r) k) eqn:E2; [apply ostr_eqb_spec in E2; congruence|]. reflexivity.
Qed.
Print Assumptions C51_define.

(** mixed case, the last match counts, a given width is kept *)
Example C51_define_example :
  define_stream ["TDATA"; "in_valid"; "TVALID"; "TREADY"]%string (Some ["tuser"]%string) None None
    (Some [(Some "TREADY"%string, 2)])
  = Ok {| d_signals := ["TDATA"; "in_valid"; "TVALID"; "TREADY"]%string; d_optional := ["tuser"]%string;
          d_widths := [(Some "TREADY"%string, 2); (Some "TVALID"%string, 1)];
          d_valid := Some "TVALID"%string; d_ready := Some "TREADY"%string;
          d_payload := ["TDATA"; "in_valid"; "tuser"]%string |}.
Proof. vm_compute. reflexivity. Qed.

(** A stream without a ready signal (none given, none so named): same, only valid is taken out. *)
Theorem C51_no_ready : forall signals optional valid widths v,
  chosen valid "valid" (signals ++ opt_list optional) v ->
  In v (signals ++ opt_list optional) ->
  Forall (fun s => ~ named "ready" s) (signals ++ opt_list optional) ->
  exists d, define_stream signals optional valid None widths = Ok d
  /\ d_valid d = Some v /\ d_ready d = None
  /\ d_signals d = signals /\ d_optional d = opt_list optional
  /\ without (fun s => s = v) (signals ++ opt_list optional) (d_payload d).
Proof.
  intros signals optional valid widths v Hv Iv Hr. unfold define_stream.
  replace (match optional with None => signals | Some l => signals ++ l end) with (signals ++ opt_list optional)
    by (destruct optional; cbn; [reflexivity|apply app_nil_r]).
  set (all := signals ++ opt_list optional) in *.
  replace (match valid with None => pick "valid" all | Some x => Some x end) with (Some v)
    by (destruct valid; cbn in Hv; [congruence|symmetry; apply pick_some; exact Hv]).
  apply pick_none in Hr. rewrite Hr. apply inl_In in Iv. rewrite Iv.
  eexists. split; [reflexivity|]. cbn [d_valid d_ready d_signals d_optional d_payload].
  repeat (split; [reflexivity|]).
  apply filter_without; intros x; cbn [ostr_eqb orb]; destruct (String.eqb_spec x v); cbn; intuition (try congruence).
Qed.
Print Assumptions C51_no_ready.

Example C51_no_ready_example :
  option_map d_payload (match define_stream ["data"; "valid"]%string None None None None with Ok d => Some d | _ => None end)
  = Some ["data"]%string.
Proof. vm_compute. reflexivity. Qed.

(** The channels of AXI and AXI-Lite as this library declares them: the signals that a bus must have and those that it may have, the names that
    the endpoints drive and sample as payload, and the width they insist on for each signal in turn (None: any). *)
Definition channel (def : res sdef) (valid ready : string) (signals optional payload : list string) (widths : list (option Z)) : Prop :=
  exists d, def = Ok d /\ d_valid d = Some valid /\ d_ready d = Some ready /\ d_signals d = signals /\ d_optional d = optional /\ d_payload d = payload /\
    map (fun s => dget (d_widths d) (Some s)) (signals ++ optional) = widths.
Theorem C51_channels :
  channel def_aw "awvalid" "awready"
    ["awid"; "awaddr"; "awlen"; "awsize"; "awburst"; "awvalid"; "awready"]%string ["awlock"; "awcache"; "awprot"; "awqos"; "awregion"; "awuser"]%string
    ["awid"; "awaddr"; "awlen"; "awsize"; "awburst"; "awlock"; "awcache"; "awprot"; "awqos"; "awregion"; "awuser"]%string
    [None; None; Some 8; Some 3; Some 2; Some 1; Some 1; Some 1; Some 4; Some 3; Some 4; Some 4; None] /\
  channel def_w "wvalid" "wready"
    ["wdata"; "wlast"; "wvalid"; "wready"]%string ["wstrb"; "wuser"]%string
    ["wdata"; "wlast"; "wstrb"; "wuser"]%string
    [None; Some 1; Some 1; Some 1; None; None] /\
  channel def_b "bvalid" "bready"
    ["bid"; "bvalid"; "bready"]%string ["bresp"; "buser"]%string
    ["bid"; "bresp"; "buser"]%string
    [None; Some 1; Some 1; Some 2; None] /\
  channel def_ar "arvalid" "arready"
    ["arid"; "araddr"; "arlen"; "arsize"; "arburst"; "arvalid"; "arready"]%string ["arlock"; "arcache"; "arprot"; "arqos"; "arregion"; "aruser"]%string
    ["arid"; "araddr"; "arlen"; "arsize"; "arburst"; "arlock"; "arcache"; "arprot"; "arqos"; "arregion"; "aruser"]%string
    [None; None; Some 8; Some 3; Some 2; Some 1; Some 1; Some 1; Some 4; Some 3; Some 4; Some 4; None] /\
  channel def_r "rvalid" "rready"
    ["rid"; "rdata"; "rlast"; "rvalid"; "rready"]%string ["rresp"; "ruser"]%string
    ["rid"; "rdata"; "rlast"; "rresp"; "ruser"]%string
    [None; None; Some 1; Some 1; Some 1; Some 2; None] /\
  channel def_law "awvalid" "awready"
    ["awaddr"; "awvalid"; "awready"]%string ["awprot"]%string
    ["awaddr"; "awprot"]%string
    [None; Some 1; Some 1; Some 3] /\
  channel def_lw "wvalid" "wready"
    ["wdata"; "wvalid"; "wready"]%string ["wstrb"]%string
    ["wdata"; "wstrb"]%string
    [None; Some 1; Some 1; None] /\
  channel def_lb "bvalid" "bready"
    ["bvalid"; "bready"]%string ["bresp"]%string
    ["bresp"]%string
    [Some 1; Some 1; Some 2] /\
  channel def_lar "arvalid" "arready"
    ["araddr"; "arvalid"; "arready"]%string ["arprot"]%string
    ["araddr"; "arprot"]%string
    [None; Some 1; Some 1; Some 3] /\
  channel def_lr "rvalid" "rready"
    ["rdata"; "rvalid"; "rready"]%string ["rresp"]%string
    ["rdata"; "rresp"]%string
    [None; Some 1; Some 1; Some 2].
Proof. repeat split; eexists; vm_compute; repeat split. Qed.
Print Assumptions C51_channels.

(** A handshake signal that is given but not in the lists is not added to the bus: the bus gets its
    characters as signals instead (so it has the signal only if its name is one character long). *)
Theorem C51_given_not_listed_refuted : forall signals optional ready widths v,
  ~ In v (signals ++ opt_list optional) -> String.length v <> 1%nat ->
  forall d, define_stream signals optional (Some v) ready widths = Ok d ->
  ~ In v (d_signals d ++ d_optional d)
  /\ (forall c, In c (list_ascii_of_string v) -> In (String c EmptyString) (d_signals d)).
Proof.
  intros signals optional ready widths v Hn Hl d H. unfold define_stream in H.
  replace (match optional with None => signals | Some l => signals ++ l end) with (signals ++ opt_list optional) in H
    by (destruct optional; cbn; [reflexivity|apply app_nil_r]).
  assert (Hc : forall x, ~ In v (chars x)).
  { intros x Hi. unfold chars in Hi. apply in_map_iff in Hi. destruct Hi as (c & <- & _). apply Hl. reflexivity. }
  assert (Ei : inl v (signals ++ opt_list optional) = false).
  { destruct (inl v (signals ++ opt_list optional)) eqn:E; [|reflexivity]. exfalso. apply Hn, inl_In, E. }
  rewrite Ei in H. injection H as <-. cbn [d_signals d_optional].
  fold (opt_list optional).
  assert (Hn1 : ~ In v signals /\ ~ In v (opt_list optional)).
  { split; intros X; apply Hn, in_or_app; auto. }
  assert (Hno : forall r, ~ In v ((if inl r (signals ++ opt_list optional) then signals ++ chars v
             else (signals ++ chars v) ++ chars r) ++ opt_list optional)).
  { intros r. destruct (inl r _); rewrite !in_app_iff; intros X; pose proof (Hc v); pose proof (Hc r); tauto. }
  split.
  - destruct ready as [r|]; [apply Hno|]. rewrite !in_app_iff. pose proof (Hc v). tauto.
  - intros c Hin. assert (In (String c EmptyString) (signals ++ chars v)).
    { apply in_or_app. right. unfold chars. apply in_map_iff. exists c. auto. }
    destruct ready as [r|]; [|assumption]. destruct (inl r _); [assumption|]. apply in_or_app. left. assumption.
Qed.
Print Assumptions C51_given_not_listed_refuted.

Example C51_given_not_listed_example :
  option_map d_signals (match define_stream ["data"]%string None (Some "vld"%string) (Some "rdy"%string) None with Ok d => Some d | _ => None end)
  = Some ["data"; "v"; "l"; "d"; "r"; "d"; "y"]%string.
Proof. vm_compute. reflexivity. Qed.

(** Without a given and without a so named valid signal the call raises TypeError, whatever else is passed;
    in all other cases it succeeds. *)
Theorem C51_raises : forall signals optional valid ready widths,
  (exists d, define_stream signals optional valid ready widths = Ok d)
  \/ define_stream signals optional valid ready widths = Err TypeError.
Proof.
  intros. unfold define_stream.
  destruct (match valid with None => _ | Some x => Some x end); [left; eexists; reflexivity|right; reflexivity].
Qed.
Print Assumptions C51_raises.

Theorem C51_no_valid : forall signals optional valid ready widths,
  define_stream signals optional valid ready widths = Err TypeError <->
  valid = None /\ Forall (fun s => ~ named "valid" s) (signals ++ opt_list optional).
Proof.
  intros. unfold define_stream.
  replace (match optional with None => signals | Some l => signals ++ l end) with (signals ++ opt_list optional)
    by (destruct optional; cbn; [reflexivity|apply app_nil_r]).
  destruct valid as [v|].
  - split; [discriminate|]. intros [X _]. discriminate X.
  - destruct (pick "valid" (signals ++ opt_list optional)) eqn:E.
    + split; [discriminate|]. intros [_ X]. apply pick_none in X. congruence.
    + split; [|reflexivity]. intros _. split; [reflexivity|]. apply pick_none, E.
Qed.
Print Assumptions C51_no_valid.

Example C51_no_valid_example :
  define_stream ["data"; "ready"]%string None None None None = Err TypeError.
Proof. vm_compute. reflexivity. Qed.

(** The transaction: for a signal list without repetitions, the attribute of each signal is the value passed
    or else 0, and a keyword that is not a signal is refused. *)
Definition kw_get (kw : list (string * Z)) (s : string) : option Z :=
  option_map snd (find (fun p => String.eqb (fst p) s) kw).

Lemma find_filter_other kw s t : s <> t ->
  find (fun p : string * Z => String.eqb (fst p) s) (filter (fun q => negb (String.eqb (fst q) t)) kw)
  = find (fun p => String.eqb (fst p) s) kw.
Proof.
  intros Hne. induction kw as [|p kw IH]; cbn; [reflexivity|].
  destruct (String.eqb_spec (fst p) t) as [E|E]; cbn.
  - destruct (String.eqb_spec (fst p) s); [congruence|exact IH].
  - destruct (String.eqb (fst p) s); [reflexivity|exact IH].
Qed.

Lemma attr_cons p a s : attr (p :: a) s =
  match attr a s with Some v => Some v | None => if String.eqb (fst p) s then Some (snd p) else None end.
Proof.
  unfold attr. cbn. generalize (if String.eqb (fst p) s then Some (snd p) else None) as o.
  induction a as [|q a IH] using rev_ind; intros o; [destruct o; reflexivity|].
  rewrite !fold_left_app. cbn. destruct (String.eqb (fst q) s); [reflexivity|apply IH].
Qed.

Lemma attr_none a s : ~ In s (map fst a) -> attr a s = None.
Proof.
  induction a as [|p a IH]; [reflexivity|]. cbn [map In]. intros H. rewrite attr_cons, IH by tauto.
  destruct (String.eqb_spec (fst p) s); [tauto|reflexivity].
Qed.

Lemma txn_loop_spec sigs : forall kw a k, NoDup sigs -> txn_loop sigs kw = (a, k) ->
  map fst a = sigs
  /\ (forall s, In s sigs -> attr a s = Some (match kw_get kw s with Some v => v | None => 0 end))
  /\ (forall p, In p k <-> In p kw /\ ~ In (fst p) sigs).
Proof.
  induction sigs as [|s sigs IH]; intros kw a k Hnd H; cbn in H.
  - injection H as <- <-. split; [reflexivity|]. split; [intros s []|]. intros p. tauto.
  - inversion Hnd as [|? ? Hs Hnd']; subst.
    destruct (find (fun p => String.eqb (fst p) s) kw) as [q|] eqn:Ef.
    + destruct (txn_loop sigs (filter (fun q => negb (String.eqb (fst q) s)) kw)) as [a' k'] eqn:E.
      injection H as <- <-. destruct (IH _ _ _ Hnd' E) as (H1 & H2 & H3).
      split; [cbn; rewrite H1; reflexivity|]. split.
      * intros t Ht. rewrite attr_cons. cbn [fst snd]. destruct (String.eqb_spec s t) as [<-|Hne].
        -- rewrite attr_none by (rewrite H1; exact Hs). unfold kw_get. rewrite Ef. reflexivity.
        -- destruct Ht as [Ht|Ht]; [congruence|]. rewrite (H2 t Ht). unfold kw_get.
           rewrite find_filter_other by congruence. reflexivity.
      * intros p. rewrite H3, filter_In. cbn [In]. destruct (String.eqb_spec (fst p) s); cbn; intuition congruence.
    + destruct (txn_loop sigs kw) as [a' k'] eqn:E.
      injection H as <- <-. destruct (IH _ _ _ Hnd' E) as (H1 & H2 & H3).
      split; [cbn; rewrite H1; reflexivity|]. split.
      * intros t Ht. rewrite attr_cons. cbn [fst snd]. destruct (String.eqb_spec s t) as [<-|Hne].
        -- rewrite attr_none by (rewrite H1; exact Hs). unfold kw_get. rewrite Ef. reflexivity.
        -- destruct Ht as [Ht|Ht]; [congruence|]. rewrite (H2 t Ht). reflexivity.
      * intros p. rewrite H3. cbn [In]. split; [|tauto]. intros [Hp Hn]. split; [exact Hp|].
        intros [X|X]; [|tauto]. pose proof (find_none _ _ Ef p Hp) as Y. cbn in Y.
        rewrite <- X, String.eqb_refl in Y. discriminate Y.
Qed.

Theorem C51_transaction : forall sigs kw, NoDup sigs ->
  ((forall p, In p kw -> In (fst p) sigs) ->
     exists a, txn_init sigs kw = Ok a
     /\ (forall s, In s sigs -> attr a s = Some (match kw_get kw s with Some v => v | None => 0 end))
     /\ (forall s, ~ In s sigs -> attr a s = None))
  /\ ((exists p, In p kw /\ ~ In (fst p) sigs) -> txn_init sigs kw = Err TypeError).
Proof.
  intros sigs kw Hnd. unfold txn_init. destruct (txn_loop sigs kw) as [a k] eqn:E.
  destruct (txn_loop_spec _ _ _ _ Hnd E) as (H1 & H2 & H3). split.
  - intros H. destruct k as [|p k].
    + exists a. split; [reflexivity|]. split; [exact H2|]. intros s Hs. apply attr_none. rewrite H1. exact Hs.
    + exfalso. destruct (proj1 (H3 p) (or_introl eq_refl)) as [Hp Hq]. apply Hq, H, Hp.
  - intros (p & Hp & Hq). destruct k as [|q k]; [|reflexivity]. exfalso. apply (proj2 (H3 p)). split; assumption.
Qed.
Print Assumptions C51_transaction.

Example C51_transaction_example :
  txn_init ["awid"; "awaddr"; "awprot"]%string [("awaddr"%string, 64)]
  = Ok [("awid"%string, 0); ("awaddr"%string, 64); ("awprot"%string, 0)]
  /\ txn_init ["awid"; "awaddr"]%string [("awadr"%string, 64)] = Err TypeError.
Proof. vm_compute. split; reflexivity. Qed.

(** A signal listed twice (say, in both lists) loses the value passed: the second pass sets it to 0. *)
Theorem C51_transaction_duplicate_refuted : exists sigs kw a,
  txn_init sigs kw = Ok a /\ kw_get kw "data" = Some 7 /\ attr a "data" = Some 0.
Proof.
  exists ["data"; "user"; "data"]%string, [("data"%string, 7)]. eexists. vm_compute. repeat split.
Qed.
Print Assumptions C51_transaction_duplicate_refuted.

(** The endpoint's constructor refuses a bus exactly if some declared signal that the bus has
    differs from its declared width. *)
Theorem C51_widths : forall bus d,
  base_init bus d = Ok tt <->
  forall s n m, In s (d_signals d ++ d_optional d) -> bus s = Some n -> dget (d_widths d) (Some s) = Some m -> n = m.
Proof.
  intros bus d. unfold base_init. induction (d_signals d ++ d_optional d) as [|s l IH]; cbn.
  - split; [intros _ s n m []|reflexivity].
  - destruct (bus s) as [n|] eqn:Eb.
    + destruct (dget (d_widths d) (Some s)) as [m|] eqn:Ed.
      * destruct (Z.eqb_spec n m) as [Hnm|Hnm].
        -- rewrite IH. split.
           ++ intros H t a b [<-|Ht] Ha Hb; [congruence|exact (H t a b Ht Ha Hb)].
           ++ intros H t a b Ht. apply H. right. exact Ht.
        -- split; [discriminate|]. intros H. exfalso. apply Hnm. exact (H s n m (or_introl eq_refl) Eb Ed).
      * rewrite IH. split; intros H t a b; [intros [<-|Ht] Ha Hb; [congruence|exact (H t a b Ht Ha Hb)]|intros Ht; apply H; right; exact Ht].
    + rewrite IH. split; intros H t a b; [intros [<-|Ht] Ha Hb; [congruence|exact (H t a b Ht Ha Hb)]|intros Ht; apply H; right; exact Ht].
Qed.
Print Assumptions C51_widths.

Example C51_widths_example :
  let bus w s := if String.eqb s "bvalid" then Some 1 else if String.eqb s "bresp" then Some w else None in
  match def_b with
  | Ok d => base_init (bus 2) d = Ok tt /\ base_init (bus 3) d = Err AssertionError
  | Err _ => False
  end.
Proof. vm_compute. split; reflexivity. Qed.
