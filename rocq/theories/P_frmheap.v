(** Proofs about frames handed over by reference. *)
From Coq Require Import ZArith List Bool Lia.
From Verif Require Import Py M_stream M_axisframe M_axis M_frmheap S_frmheap.
Import ListNotations.
Open Scope Z_scope.

(** ** the heap *)
Lemma nth_set_at {A} n (x d : A) l k : (n < length l)%nat -> nth k (set_at n x l) d = if Nat.eqb k n then x else nth k l d.
Proof.
  revert k l. induction n as [|n IH]; intros k [|a l] H; cbn in *; try lia; destruct k; cbn; auto. apply IH. lia.
Qed.
Lemma set_at_length {A} n (x : A) l : length (set_at n x l) = length l.
Proof. revert l. induction n as [|n IH]; intros [|a l]; cbn; auto. f_equal. apply IH. Qed.

Definition olists (o : option nat) : list nat := match o with Some l => [l] | None => [] end.
Definition slists (s : sbr) : list nat := match s with RList l => [l] | _ => [] end.
Definition lists_of (o : fobj) : list nat := o_data o :: olists (o_keep o) ++ slists (o_id o) ++ slists (o_dest o) ++ slists (o_user o).
Definition nl (h : heap) := length (h_l h).
Definition nf (h : heap) := length (h_f h).

Lemma obj_val_eq h h' o : (forall l, In l (lists_of o) -> lget h' l = lget h l) -> obj_val h' o = obj_val h o.
Proof.
  intros H. unfold obj_val. assert (E : forall s, incl (slists s) (lists_of o) -> sb_val h' s = sb_val h s).
  { intros [|v|l] Hs; auto. cbn. rewrite H; auto. apply Hs. now left. }
  rewrite (H (o_data o)) by now left. rewrite !E.
  - f_equal. destruct (o_keep o) as [l|] eqn:Ek; auto. cbn. rewrite H; auto. unfold lists_of. rewrite Ek. cbn. auto.
  - unfold lists_of. intros l Hl. right. rewrite !in_app_iff. auto.
  - unfold lists_of. intros l Hl. right. rewrite !in_app_iff. auto.
  - unfold lists_of. intros l Hl. right. rewrite !in_app_iff. auto.
Qed.

Lemma lget_new h x l : lget (fst (lnew h x)) l = if Nat.eqb l (nl h) then x else lget h l.
Proof.
  unfold lget, lnew, nl. cbn. destruct (Nat.eqb l (length (h_l h))) eqn:E.
  - apply Nat.eqb_eq in E. subst l. rewrite app_nth2, Nat.sub_diag by lia. reflexivity.
  - apply Nat.eqb_neq in E. destruct (Nat.lt_ge_cases l (length (h_l h))).
    + now rewrite app_nth1.
    + rewrite !nth_overflow; auto; try rewrite app_length; cbn; lia.
Qed.

(** h' has h's lists and further ones *)
Definition ext (h h' : heap) : Prop := (nl h <= nl h')%nat /\ forall l, (l < nl h)%nat -> lget h' l = lget h l.
Lemma ext_refl h : ext h h. Proof. split; auto. Qed.
Lemma ext_trans h1 h2 h3 : ext h1 h2 -> ext h2 h3 -> ext h1 h3.
Proof. intros [A B] [C D]. split; [lia|]. intros l Hl. rewrite D by lia. auto. Qed.
Lemma ext_new h x : ext h (fst (lnew h x)).
Proof. split; [unfold nl; cbn; rewrite app_length; lia|]. intros l Hl. rewrite lget_new. destruct (Nat.eqb l (nl h)) eqn:E; auto. apply Nat.eqb_eq in E. lia. Qed.
Lemma ext_fset h f o : ext h (fset h f o). Proof. split; auto. Qed.
Lemma ext_fnew h o : ext h (fst (fnew h o)). Proof. split; auto. Qed.

Definition valid (h : heap) : Prop := forall f, (f < nf h)%nat -> Forall (fun l => (l < nl h)%nat) (lists_of (fget h f)).

(** *** copies *)
Lemma copy_list_ok h o : let '(h', o') := copy_list h o in
  ext h h' /\ h_f h' = h_f h /\ (forall l, In l (olists o') -> (nl h <= l < nl h')%nat) /\ option_map (fun l => snd (lget h' l)) o' = option_map (fun l => snd (lget h l)) o.
Proof.
  destruct o as [l|]; cbn [copy_list].
  - split; [apply (ext_new h)|]. split; [reflexivity|]. split.
    + intros k [<-|[]]. unfold nl. cbn. rewrite app_length. cbn. lia.
    + cbn [option_map]. change {| h_l := h_l h ++ [(false, snd (lget h l))]; h_f := h_f h |} with (fst (lnew h (false, snd (lget h l)))).
      rewrite lget_new. unfold nl. now rewrite Nat.eqb_refl.
  - split; [apply ext_refl|]. repeat split; auto; cbn in *; tauto.
Qed.
Lemma copy_sb_ok h s : let '(h', s') := copy_sb h s in
  ext h h' /\ h_f h' = h_f h /\ (forall l, In l (slists s') -> (nl h <= l < nl h')%nat) /\ sb_val h' s' = sb_val h s.
Proof.
  destruct s as [|v|l]; cbn [copy_sb]; try (split; [apply ext_refl|]; repeat split; auto; cbn in *; tauto).
  split; [apply (ext_new h)|]. split; [reflexivity|]. split.
  - intros k [<-|[]]. unfold nl. cbn. rewrite app_length. cbn. lia.
  - cbn [sb_val]. change {| h_l := h_l h ++ [(false, snd (lget h l))]; h_f := h_f h |} with (fst (lnew h (false, snd (lget h l)))).
    rewrite lget_new. unfold nl. now rewrite Nat.eqb_refl.
Qed.
Lemma fget_fnew h o f : fget (fst (fnew h o)) f = if Nat.eqb f (nf h) then o else fget h f.
Proof.
  unfold fget, fnew, nf. cbn. destruct (Nat.eqb f (length (h_f h))) eqn:E.
  - apply Nat.eqb_eq in E. subst f. rewrite app_nth2, Nat.sub_diag by lia. reflexivity.
  - apply Nat.eqb_neq in E. destruct (Nat.lt_ge_cases f (length (h_f h))).
    + now rewrite app_nth1.
    + rewrite !nth_overflow; auto; try rewrite app_length; cbn; lia.
Qed.

Lemma sb_ext h h' s : ext h h' -> Forall (fun l => (l < nl h)%nat) (slists s) -> sb_val h' s = sb_val h s.
Proof. intros [_ H] Hs. destruct s as [|v|l]; auto. cbn. inversion Hs; subst. now rewrite H. Qed.

Lemma copy_ok h f : valid h -> (f < nf h)%nat -> let '(h', g) := copy_frame h f in
  ext h h' /\ g = nf h /\ nf h' = S (nf h) /\ (forall k, (k < nf h)%nat -> fget h' k = fget h k) /\
  (forall l, In l (lists_of (fget h' g)) -> (nl h <= l < nl h')%nat) /\ deref h' g = deref h f.
Proof.
  intros Hv Hf. specialize (Hv f Hf). unfold copy_frame. set (o := fget h f) in *. unfold lists_of in Hv. apply Forall_cons_iff in Hv as [Vd Hv].
  rewrite !Forall_app in Hv. destruct Hv as (Vk & Vi & Ve & Vu).
  destruct (lnew h (lget h (o_data o))) as [h1 d] eqn:E1. assert (X1 : ext h h1) by (pose proof (ext_new h (lget h (o_data o))) as X; now rewrite E1 in X).
  assert (F1 : h_f h1 = h_f h) by (unfold lnew in E1; now inversion E1). assert (Ed : d = nl h) by (unfold lnew in E1; now inversion E1).
  assert (D1 : lget h1 d = lget h (o_data o)). { pose proof (lget_new h (lget h (o_data o)) d) as X. rewrite E1, Ed, Nat.eqb_refl in X. now rewrite Ed. }
  assert (L1 : nl h1 = S (nl h)) by (unfold lnew in E1; inversion E1; unfold nl; cbn; rewrite app_length; cbn; lia).
  pose proof (copy_list_ok h1 (o_keep o)) as H2. destruct (copy_list h1 (o_keep o)) as [h2 k]. destruct H2 as (X2 & F2 & N2 & V2).
  pose proof (copy_sb_ok h2 (o_id o)) as H3. destruct (copy_sb h2 (o_id o)) as [h3 i]. destruct H3 as (X3 & F3 & N3 & V3).
  pose proof (copy_sb_ok h3 (o_dest o)) as H4. destruct (copy_sb h3 (o_dest o)) as [h4 e]. destruct H4 as (X4 & F4 & N4 & V4).
  pose proof (copy_sb_ok h4 (o_user o)) as H5. destruct (copy_sb h4 (o_user o)) as [h5 u]. destruct H5 as (X5 & F5 & N5 & V5).
  pose proof (proj1 X2) as Y2. pose proof (proj1 X3) as Y3. pose proof (proj1 X4) as Y4. pose proof (proj1 X5) as Y5.
  set (o' := {| o_data := d; o_keep := k; o_id := i; o_dest := e; o_user := u |}).
  assert (FF : h_f h5 = h_f h) by congruence. assert (NF : nf h5 = nf h) by (unfold nf; congruence).
  pose proof (fget_fnew h5 o') as G. destruct (fnew h5 o') as [h6 g] eqn:E6. cbn [fst] in G.
  assert (Eg : g = nf h) by (unfold fnew in E6; inversion E6; exact NF). assert (L6 : h_l h6 = h_l h5) by (unfold fnew in E6; now inversion E6).
  assert (X6 : ext h h6).
  { apply (ext_trans _ h5); [|split; [unfold nl; rewrite L6; auto|intros; unfold lget; now rewrite L6]]. eauto using ext_trans. }
  split; [exact X6|]. split; [exact Eg|]. split; [unfold fnew in E6; inversion E6; unfold nf in *; cbn; rewrite app_length; cbn; lia|].
  split. { intros j Hj. rewrite G, NF. destruct (Nat.eqb j (nf h)) eqn:E; [apply Nat.eqb_eq in E; lia|]. unfold fget. now rewrite FF. }
  assert (Go : fget h6 g = o') by (rewrite G, NF, Eg, Nat.eqb_refl; reflexivity). split.
  - rewrite Go. intros l Hl. unfold lists_of, o' in Hl. cbn [o_data o_keep o_id o_dest o_user] in Hl. unfold nl in *. rewrite L6. destruct Hl as [<-|Hl]; [lia|].
    rewrite !in_app_iff in Hl. destruct Hl as [Hl|[Hl|[Hl|Hl]]]; [apply N2 in Hl|apply N3 in Hl|apply N4 in Hl|apply N5 in Hl]; lia.
  - unfold deref. rewrite Go. fold o. unfold obj_val. cbn [o_data o_keep o_id o_dest o_user o'].
    assert (LG : forall l, lget h6 l = lget h5 l) by (intros l; unfold lget; now rewrite L6).
    assert (SG : forall s, sb_val h6 s = sb_val h5 s) by (intros [|v|l]; cbn; rewrite ?LG; auto).
    rewrite LG, !SG. assert (D5 : lget h5 d = lget h (o_data o)). { rewrite <- D1. assert (X : ext h1 h5) by eauto using ext_trans. apply X. lia. }
    rewrite D5. f_equal.
    + assert (X : ext h2 h5) by eauto using ext_trans. destruct k as [l|], (o_keep o) as [l0|]; cbn in *; try discriminate; auto. rewrite LG.
      rewrite (proj2 X) by (specialize (N2 l); lia). injection V2 as V2. rewrite V2. f_equal. inversion Vk; subst. now rewrite (proj2 X1).
    + assert (X : ext h3 h5) by eauto using ext_trans. rewrite (sb_ext h3 h5 i X). { rewrite V3. apply sb_ext; [eauto using ext_trans|exact Vi]. } apply Forall_forall. intros l Hl. apply N3 in Hl. lia.
    + rewrite (sb_ext h4 h5 e X5). { rewrite V4. apply sb_ext; [eauto using ext_trans|exact Ve]. } apply Forall_forall. intros l Hl. apply N4 in Hl. lia.
    + rewrite V5. apply sb_ext; [eauto using ext_trans|exact Vu].
Qed.

(** ** normalize *)
Lemma fget_fset h f o k : (f < nf h)%nat -> fget (fset h f o) k = if Nat.eqb k f then o else fget h k.
Proof. intros H. unfold fget, fset. cbn. now apply nth_set_at. Qed.
Lemma nf_fset h f o : nf (fset h f o) = nf h. Proof. unfold nf, fset. cbn. apply set_at_length. Qed.

(** one attribute gets a new list *)
Lemma put_ok h f (x : bool * list Z) (w : nat -> fobj) : (f < nf h)%nat ->
  let h1 := fst (lnew h x) in let h2 := fset h1 f (w (nl h)) in
  ext h h2 /\ nl h2 = S (nl h) /\ nf h2 = nf h /\ lget h2 (nl h) = x /\ fget h2 f = w (nl h) /\ forall k, k <> f -> fget h2 k = fget h k.
Proof.
  intros Hf h1 h2. assert (N1 : nf h1 = nf h) by reflexivity.
  split; [apply (ext_trans _ h1); [apply ext_new|apply ext_fset]|]. split; [unfold nl; cbn; rewrite app_length; cbn; lia|].
  split; [unfold h2; rewrite nf_fset; exact N1|]. split; [unfold h2; change (lget h1 (nl h) = x); unfold h1; rewrite lget_new, Nat.eqb_refl; reflexivity|]. split.
  - unfold h2. rewrite fget_fset, Nat.eqb_refl by lia. reflexivity.
  - intros k Hk. unfold h2. rewrite fget_fset by lia. destruct (Nat.eqb k f) eqn:E; [apply Nat.eqb_eq in E; contradiction|reflexivity].
Qed.

Lemma normalize_ok h f g : valid h -> (f < nf h)%nat -> normalize (deref h f) = Ok g ->
  let '(h', r) := h_normalize h f in
  r = Ok tt /\ ext h h' /\ nf h' = nf h /\ (forall k, k <> f -> fget h' k = fget h k) /\
  (forall l, In l (lists_of (fget h' f)) -> l = o_data (fget h f) \/ (nl h <= l < nl h')%nat) /\ deref h' f = g.
Proof.
  intros Hv Hf Hg. specialize (Hv f Hf). unfold lists_of in Hv. apply Forall_cons_iff in Hv as [Vd Hv].
  rewrite !Forall_app in Hv. destruct Hv as (Vk & Vi & Ve & Vu). unfold normalize in Hg. unfold h_normalize.
  set (n := zlen (f_data (deref h f))) in *.
  assert (EK : match f_keep (deref h f) with Some l => fit n l | None => Ok (repeat 1 (Z.to_nat n)) end =
               match o_keep (fget h f) with Some l => fit n (snd (lget h l)) | None => Ok (repeat 1 (Z.to_nat n)) end) by (unfold deref; cbn; now destruct (o_keep (fget h f))).
  rewrite EK in Hg. destruct (match o_keep (fget h f) with Some l => fit n (snd (lget h l)) | None => Ok (repeat 1 (Z.to_nat n)) end) as [k|e]; [|discriminate].
  change (f_id (deref h f)) with (sb_val h (o_id (fget h f))) in Hg. change (f_dest (deref h f)) with (sb_val h (o_dest (fget h f))) in Hg.
  change (f_user (deref h f)) with (sb_val h (o_user (fget h f))) in Hg. cbn [bind] in Hg.
  set (o0 := fget h f) in *.
  (* tkeep *)
  pose proof (put_ok h f (false, k) (fun l => {| o_data := o_data o0; o_keep := Some l; o_id := o_id o0; o_dest := o_dest o0; o_user := o_user o0 |}) Hf) as P1.
  cbn zeta in P1. unfold lnew at 1. cbn [fst] in P1. fold (nl h). unfold lnew in P1. cbn [fst] in P1. fold (nl h) in P1.
  change (fget {| h_l := h_l h ++ [(false, k)]; h_f := h_f h |} f) with o0.
  set (h1 := fset {| h_l := h_l h ++ [(false, k)]; h_f := h_f h |} f _) in *. destruct P1 as (X1 & L1 & N1 & G1 & O1 & K1). clearbody h1.
  rewrite !O1. cbn [o_data o_keep o_id o_dest o_user].
  rewrite (sb_ext h h1 (o_id o0) X1 Vi). destruct (fit_sb n (sb_val h (o_id o0))) as [i|e]; [|discriminate]. cbn [bind] in Hg.
  (* tid *)
  assert (Hf1 : (f < nf h1)%nat) by lia.
  pose proof (put_ok h1 f (false, i) (fun l => {| o_data := o_data o0; o_keep := Some (nl h); o_id := RList l; o_dest := o_dest o0; o_user := o_user o0 |}) Hf1) as P2.
  unfold lnew at 1. cbn zeta in P2. unfold lnew in P2. cbn [fst] in P2. fold (nl h1) in P2 |- *.
  change (fget {| h_l := h_l h1 ++ [(false, i)]; h_f := h_f h1 |} f) with (fget h1 f). rewrite !O1. cbn [o_data o_keep o_id o_dest o_user].
  set (h2 := fset {| h_l := h_l h1 ++ [(false, i)]; h_f := h_f h1 |} f _) in *. destruct P2 as (X2 & L2 & N2 & G2 & O2 & K2). clearbody h2.
  rewrite !O2. cbn [o_data o_keep o_id o_dest o_user]. assert (X02 : ext h h2) by eauto using ext_trans.
  rewrite (sb_ext h h2 (o_dest o0) X02 Ve). destruct (fit_sb n (sb_val h (o_dest o0))) as [d|e]; [|discriminate]. cbn [bind] in Hg.
  (* tdest *)
  assert (Hf2 : (f < nf h2)%nat) by lia.
  pose proof (put_ok h2 f (false, d) (fun l => {| o_data := o_data o0; o_keep := Some (nl h); o_id := RList (nl h1); o_dest := RList l; o_user := o_user o0 |}) Hf2) as P3.
  unfold lnew at 1. cbn zeta in P3. unfold lnew in P3. cbn [fst] in P3. fold (nl h2) in P3 |- *.
  change (fget {| h_l := h_l h2 ++ [(false, d)]; h_f := h_f h2 |} f) with (fget h2 f). rewrite !O2. cbn [o_data o_keep o_id o_dest o_user].
  set (h3 := fset {| h_l := h_l h2 ++ [(false, d)]; h_f := h_f h2 |} f _) in *. destruct P3 as (X3 & L3 & N3 & G3 & O3 & K3). clearbody h3.
  rewrite !O3. cbn [o_data o_keep o_id o_dest o_user]. assert (X03 : ext h h3) by eauto using ext_trans.
  rewrite (sb_ext h h3 (o_user o0) X03 Vu). destruct (fit_sb n (sb_val h (o_user o0))) as [u|e]; [|discriminate]. cbn [bind] in Hg.
  (* tuser *)
  assert (Hf3 : (f < nf h3)%nat) by lia.
  pose proof (put_ok h3 f (false, u) (fun l => {| o_data := o_data o0; o_keep := Some (nl h); o_id := RList (nl h1); o_dest := RList (nl h2); o_user := RList l |}) Hf3) as P4.
  unfold lnew at 1. cbn zeta in P4. unfold lnew in P4. cbn [fst] in P4. fold (nl h3) in P4 |- *.
  change (fget {| h_l := h_l h3 ++ [(false, u)]; h_f := h_f h3 |} f) with (fget h3 f). rewrite !O3. cbn [o_data o_keep o_id o_dest o_user].
  set (h4 := fset {| h_l := h_l h3 ++ [(false, u)]; h_f := h_f h3 |} f _) in *. destruct P4 as (X4 & L4 & N4 & G4 & O4 & K4). clearbody h4.
  assert (X04 : ext h h4) by eauto using ext_trans.
  split; [reflexivity|]. split; [exact X04|]. split; [lia|]. split; [intros j Hj; rewrite K4, K3, K2, K1; auto|]. split.
  - rewrite O4. unfold lists_of. cbn. intros l Hl. intuition lia.
  - unfold deref. rewrite O4. unfold obj_val. cbn [o_data o_keep o_id o_dest o_user sb_val option_map].
    rewrite (proj2 X04) by exact Vd. injection Hg as <-. unfold deref. fold o0. unfold obj_val. cbn [f_ba f_data]. rewrite G4. cbn [snd].
    rewrite (proj2 X4 (nl h2)) by lia. rewrite (proj2 (ext_trans _ _ _ X3 X4) (nl h1)) by lia. rewrite (proj2 (ext_trans _ _ _ X2 (ext_trans _ _ _ X3 X4)) (nl h)) by lia.
    rewrite G1, G2, G3. reflexivity.
Qed.

(** ** the invariant *)
Definition olist {A} (o : option A) : list A := match o with Some a => [a] | None => [] end.
Definition own (s : hsrc) : list nat := map snd (hs_q s) ++ map snd (olist (hs_current s)).
Definition disj (l m : list nat) : Prop := forall k, In k l -> ~ In k m.
Record Inv (h : heap) (e : list ref) (s : hsrc) : Prop := {
  iv_valid : valid h;
  iv_envl : forall l, In (RL l) e -> (l < nl h)%nat;
  iv_envf : forall f, In (RF f) e -> (f < nf h)%nat;
  iv_own : NoDup (own s);
  iv_ownf : forall f, In f (own s) -> (f < nf h)%nat;
  iv_cur : forall y, hs_cur s = Some y -> hs_current s = Some (fst y);
  iv_A : forall f g, In f (own s) -> (g < nf h)%nat -> f <> g -> disj (lists_of (fget h f)) (lists_of (fget h g));
  iv_B : forall f l, In f (own s) -> In (RL l) e -> ~ In l (lists_of (fget h f));
  iv_C : forall f, In (RF f) e -> ~ In f (own s) }.

Lemma seen_q s f t : In (t, f) (hs_q s) -> In f (own s).
Proof. intros H. unfold own. apply in_app_iff. left. apply in_map_iff. exists (t, f). auto. Qed.
Lemma seen_c s t f : hs_current s = Some (t, f) -> In f (own s).
Proof. intros H. unfold own. apply in_app_iff. right. rewrite H. now left. Qed.

(** the source sees the same as long as its frames show the same *)
Lemma seen_same h h' e s : Inv h e s -> (forall f, In f (own s) -> deref h' f = deref h f) -> seen h' s = seen h s.
Proof.
  intros HI H. unfold seen. assert (E : forall tf, In (snd tf) (own s) -> seen_t h' tf = seen_t h tf) by (intros tf Ht; unfold seen_t; now rewrite H).
  f_equal.
  - apply map_ext_in. intros [t f] Ht. apply E. now apply (seen_q _ _ t).
  - destruct (hs_cur s) as [[[t f] fo]|] eqn:Ec; auto. cbn [option_map fst snd]. rewrite E; auto. pose proof (iv_cur _ _ _ HI _ Ec) as X. now apply (seen_c _ t).
  - destruct (hs_current s) as [[t f]|] eqn:Ec; auto. cbn [option_map]. rewrite E; auto. now apply (seen_c _ t).
Qed.
Lemma same_deref h h' f : fget h' f = fget h f -> (forall l, In l (lists_of (fget h f)) -> lget h' l = lget h l) -> deref h' f = deref h f.
Proof. intros E H. unfold deref. rewrite E. now apply obj_val_eq. Qed.

Lemma in_snoc {A} (x y : A) l : In x (l ++ [y]) -> In x l \/ x = y.
Proof. rewrite in_app_iff. cbn. intuition. Qed.

(** what may be in the fields of a frame that the user builds or changes *)
Definition from_env (e : list ref) (l : nat) : Prop := In (RL l) e.
Lemma arg_list_env e a : forall l, In l (olists (arg_list e a)) -> from_env e l.
Proof. intros l. destruct a as [i| |v]; cbn; try tauto. destruct (nth_error e i) as [[r|f]|] eqn:E; cbn; try tauto. intros [<-|[]]. now apply nth_error_In in E. Qed.
Lemma arg_sb_env e a : forall l, In l (slists (arg_sb e a)) -> from_env e l.
Proof. intros l. destruct a as [i| |v]; cbn; try tauto. destruct (nth_error e i) as [[r|f]|] eqn:E; cbn; try tauto. intros [<-|[]]. now apply nth_error_In in E. Qed.

Lemma new_ok h d k i e u : let '(h', f) := new_frame h d k i e u in
  ext h h' /\ f = nf h /\ nf h' = S (nf h) /\ nl h' = S (nl h) /\ (forall j, (j < nf h)%nat -> fget h' j = fget h j) /\
  fget h' f = {| o_data := nl h; o_keep := k; o_id := i; o_dest := e; o_user := u |} /\ lget h' (nl h) = lget h d.
Proof.
  unfold new_frame. pose proof (ext_new h (lget h d)) as X. pose proof (lget_new h (lget h d) (nl h)) as G. rewrite Nat.eqb_refl in G.
  unfold lnew in *. cbn [fst] in *. fold (nl h) in *. set (h1 := {| h_l := _; h_f := _ |}) in *.
  set (o := {| o_data := nl h; o_keep := k; o_id := i; o_dest := e; o_user := u |}). pose proof (fget_fnew h1 o) as F. unfold fnew in *. cbn [fst] in F.
  split; [exact X|]. split; [reflexivity|]. split; [unfold nf; cbn; rewrite app_length; cbn; lia|]. split; [unfold nl; cbn; rewrite app_length; cbn; lia|].
  split; [|split].
  - intros j Hj. rewrite F. change (nf h1) with (nf h). destruct (Nat.eqb j (nf h)) eqn:E; [apply Nat.eqb_eq in E; lia|reflexivity].
  - rewrite F. change (nf h1) with (length (h_f h1)). now rewrite Nat.eqb_refl.
  - exact G.
Qed.

(** a frame object made by the constructor: its lists are new or come from the arguments *)
Lemma construct_ok h v k i e u : valid h -> match v with RF f => (f < nf h)%nat | RL l => (l < nl h)%nat end ->
  let '(h', f) := construct h v k i e u in
  ext h h' /\ f = nf h /\ nf h' = S (nf h) /\ (forall j, (j < nf h)%nat -> fget h' j = fget h j) /\
  (forall l, In l (lists_of (fget h' f)) -> (nl h <= l < nl h')%nat \/ In l (olists k ++ slists i ++ slists e ++ slists u)) /\
  (k = None -> i = RNone -> e = RNone -> u = RNone -> deref h' f = given h v).
Proof.
  intros Hv Hr. destruct v as [r|g]; cbn [construct].
  - pose proof (new_ok h r k i e u) as H. destruct (new_frame h r k i e u) as [h' f]. destruct H as (X & E & N & L & F & O & G).
    split; [exact X|]. split; [exact E|]. split; [exact N|]. split; [exact F|]. split.
    + rewrite O. unfold lists_of. cbn [o_data o_keep o_id o_dest o_user]. intros l [<-|Hl]; [left; lia|right; exact Hl].
    + intros -> -> -> ->. unfold deref. rewrite O. unfold obj_val. cbn. rewrite G. reflexivity.
  - pose proof (copy_ok h g Hv Hr) as H. destruct (copy_frame h g) as [h' f]. destruct H as (X & E & N & F & O & G).
    split; [exact X|]. split; [exact E|]. split; [exact N|]. split; [exact F|]. split; [intros l Hl; left; auto|]. intros _ _ _ _. exact G.
Qed.
Lemma valid_new h h' f : valid h -> ext h h' -> f = nf h -> nf h' = S (nf h) -> (forall j, (j < nf h)%nat -> fget h' j = fget h j) ->
  (forall l, In l (lists_of (fget h' f)) -> (l < nl h')%nat) -> valid h'.
Proof.
  intros Hv X E N F O j Hj. apply Forall_forall. intros l Hl. destruct (Nat.eq_dec j f) as [->|Hne]; [auto|].
  rewrite F in Hl by lia. assert (Hj' : (j < nf h)%nat) by lia. specialize (Hv j Hj'). rewrite Forall_forall in Hv. specialize (Hv l Hl). destruct X. lia.
Qed.
Lemma env_ref_ok h e s i v : Inv h e s -> nth_error e i = Some v -> match v with RF f => (f < nf h)%nat | RL l => (l < nl h)%nat end.
Proof. intros HI H. apply nth_error_In in H. destruct v; [eapply iv_envl|eapply iv_envf]; eauto. Qed.
Lemma own_lists_lt h e s f l : Inv h e s -> In f (own s) -> In l (lists_of (fget h f)) -> (l < nl h)%nat.
Proof. intros HI Hf Hl. pose proof (iv_valid _ _ _ HI f (iv_ownf _ _ _ HI f Hf)) as X. rewrite Forall_forall in X. auto. Qed.

(** the user makes a frame object *)
Lemma Inv_uframe h e s h' f : Inv h e s -> ext h h' -> f = nf h -> nf h' = S (nf h) -> (forall j, (j < nf h)%nat -> fget h' j = fget h j) ->
  (forall l, In l (lists_of (fget h' f)) -> (nl h <= l < nl h')%nat \/ from_env e l) -> Inv h' (e ++ [RF f]) s.
Proof.
  intros HI X E N F O. pose proof (proj1 X) as XL. constructor.
  - apply (valid_new h h' f); auto; try apply HI. intros l Hl. destruct (O l Hl) as [?|Hl']; [lia|]. apply (iv_envl _ _ _ HI) in Hl'. lia.
  - intros l Hl. apply in_snoc in Hl as [Hl|Hl]; [|discriminate]. apply (iv_envl _ _ _ HI) in Hl. lia.
  - intros g Hg. apply in_snoc in Hg as [Hg|Hg]; [apply (iv_envf _ _ _ HI) in Hg; lia|injection Hg as ->; lia].
  - apply HI.
  - intros g Hg. apply (iv_ownf _ _ _ HI) in Hg. lia.
  - apply HI.
  - intros g k Hg Hk Hne. pose proof (iv_ownf _ _ _ HI g Hg). rewrite (F g) by auto. destruct (Nat.eq_dec k f) as [->|Hkf].
    + intros l Hl Hl'. apply O in Hl' as [?|Hl']; [pose proof (own_lists_lt _ _ _ _ _ HI Hg Hl); lia|]. now apply (iv_B _ _ _ HI g l).
    + rewrite (F k) by lia. apply (iv_A _ _ _ HI); auto. lia.
  - intros g l Hg Hl. apply in_snoc in Hl as [Hl|Hl]; [|discriminate]. rewrite F by (apply (iv_ownf _ _ _ HI); auto). now apply (iv_B _ _ _ HI).
  - intros g Hg Ho. apply in_snoc in Hg as [Hg|Hg]; [now apply (iv_C _ _ _ HI g)|]. injection Hg as ->. apply (iv_ownf _ _ _ HI) in Ho. lia.
Qed.

(** ** the steps of the user's program *)
Lemma Inv_ulist h e s x : Inv h e s -> Inv (fst (lnew h x)) (e ++ [RL (nl h)]) s /\ seen (fst (lnew h x)) s = seen h s.
Proof.
  intros HI. set (h' := fst (lnew h x)). pose proof (ext_new h x) as X. fold h' in X. assert (N : nl h' = S (nl h)) by (unfold nl; cbn; rewrite app_length; cbn; lia).
  assert (F : forall k, fget h' k = fget h k) by reflexivity. assert (NF : nf h' = nf h) by reflexivity. split.
  - constructor; try apply HI.
    + intros f Hf. rewrite F. apply Forall_forall. intros l Hl. pose proof (iv_valid _ _ _ HI f Hf) as V. rewrite Forall_forall in V. specialize (V l Hl). lia.
    + intros l Hl. apply in_snoc in Hl as [Hl|Hl]; [apply (iv_envl _ _ _ HI) in Hl; lia|]. injection Hl as ->. lia.
    + intros f Hf. apply in_snoc in Hf as [Hf|Hf]; [|discriminate]. rewrite NF. now apply (iv_envf _ _ _ HI).
    + intros f l Hf Hl. apply in_snoc in Hl as [Hl|Hl]; [rewrite F; now apply (iv_B _ _ _ HI)|]. injection Hl as ->. rewrite F. intros Hl. pose proof (own_lists_lt _ _ _ _ _ HI Hf Hl). lia.
    + intros f Hf. apply in_snoc in Hf as [Hf|Hf]; [|discriminate]. now apply (iv_C _ _ _ HI).
  - apply (seen_same _ _ e); auto. intros f Hf. apply same_deref; auto. intros l Hl. apply X. now apply (own_lists_lt _ _ _ _ _ HI Hf).
Qed.
Lemma Inv_ustore h e s r l : Inv h e s -> In (RL r) e -> Inv (lset h r l) e s /\ seen (lset h r l) s = seen h s.
Proof.
  intros HI Hr. pose proof (iv_envl _ _ _ HI r Hr) as Hlt. assert (N : nl (lset h r l) = nl h) by (unfold nl, lset; cbn; apply set_at_length).
  assert (F : forall k, fget (lset h r l) k = fget h k) by reflexivity. split.
  - destruct HI. constructor; auto; try (now rewrite N). intros f Hf. rewrite F, N. auto.
  - apply (seen_same _ _ e); auto. intros f Hf. apply same_deref; auto. intros k Hk. unfold lget at 1, lset. cbn. rewrite nth_set_at by exact Hlt.
    destruct (Nat.eqb k r) eqn:E; auto. apply Nat.eqb_eq in E. subst k. destruct (iv_B _ _ _ HI f r Hf Hr Hk).
Qed.
Lemma Inv_uget h e s f l : Inv h e s -> In (RF f) e -> In l (lists_of (fget h f)) -> Inv h (e ++ [RL l]) s.
Proof.
  intros HI Hf Hl. pose proof (iv_envf _ _ _ HI f Hf) as Hlt. constructor; try apply HI.
  - intros k Hk. apply in_snoc in Hk as [Hk|Hk]; [now apply (iv_envl _ _ _ HI)|]. injection Hk as ->. pose proof (iv_valid _ _ _ HI f Hlt) as V. rewrite Forall_forall in V. auto.
  - intros g Hg. apply in_snoc in Hg as [Hg|Hg]; [|discriminate]. now apply (iv_envf _ _ _ HI).
  - intros g k Hg Hk. apply in_snoc in Hk as [Hk|Hk]; [now apply (iv_B _ _ _ HI)|]. injection Hk as ->. intros Hin. apply (iv_A _ _ _ HI g f Hg Hlt) in Hin; auto.
    intros ->. now apply (iv_C _ _ _ HI f).
  - intros g Hg. apply in_snoc in Hg as [Hg|Hg]; [|discriminate]. now apply (iv_C _ _ _ HI).
Qed.
Lemma Inv_uset h e s f o : Inv h e s -> In (RF f) e -> (forall l, In l (lists_of o) -> In l (lists_of (fget h f)) \/ from_env e l) ->
  Inv (fset h f o) e s /\ seen (fset h f o) s = seen h s.
Proof.
  intros HI Hf Ho. pose proof (iv_envf _ _ _ HI f Hf) as Hlt. assert (N : nf (fset h f o) = nf h) by apply nf_fset.
  pose proof (iv_C _ _ _ HI f Hf) as Hno. assert (NE : forall g, In g (own s) -> g <> f) by (intros g Hg ->; auto).
  assert (F : forall g, g <> f -> fget (fset h f o) g = fget h g). { intros g Hg. rewrite fget_fset by auto. destruct (Nat.eqb g f) eqn:E; auto. apply Nat.eqb_eq in E. contradiction. }
  assert (Ff : fget (fset h f o) f = o) by (rewrite fget_fset, Nat.eqb_refl by auto; reflexivity). split.
  - constructor; try apply HI.
    + intros g Hg. apply Forall_forall. intros l Hl. change (nl (fset h f o)) with (nl h). destruct (Nat.eq_dec g f) as [->|Hne].
      * rewrite Ff in Hl. destruct (Ho l Hl) as [Hl'|Hl']; [|now apply (iv_envl _ _ _ HI)]. pose proof (iv_valid _ _ _ HI f Hlt) as V. rewrite Forall_forall in V. auto.
      * rewrite F in Hl by auto. rewrite N in Hg. pose proof (iv_valid _ _ _ HI g Hg) as V. rewrite Forall_forall in V. auto.
    + intros g Hg. rewrite N. now apply (iv_envf _ _ _ HI).
    + intros g Hg. rewrite N. now apply (iv_ownf _ _ _ HI).
    + intros g k Hg Hk Hne. rewrite N in Hk. rewrite (F g) by auto. destruct (Nat.eq_dec k f) as [->|Hkf].
      * rewrite Ff. intros l Hl Hl'. destruct (Ho l Hl') as [H|H]; [now apply (iv_A _ _ _ HI g f Hg Hlt Hne l)|now apply (iv_B _ _ _ HI g l)].
      * rewrite (F k) by auto. now apply (iv_A _ _ _ HI).
    + intros g l Hg Hl. rewrite F by auto. now apply (iv_B _ _ _ HI).
  - apply (seen_same _ _ e); auto. intros g Hg. apply same_deref; auto.
Qed.
Lemma fld_set_lists e o x a : forall l, In l (lists_of (fld_set e o x a)) -> In l (lists_of o) \/ from_env e l.
Proof.
  intros l Hl. destruct x; unfold lists_of, fld_set in *; cbn [o_data o_keep o_id o_dest o_user] in Hl.
  - destruct Hl as [Hl|Hl]; [|left; now right]. destruct (arg_list e a) as [r|] eqn:E; [|left; now left]. right. apply (arg_list_env e a). rewrite E. now left.
  - destruct Hl as [Hl|Hl]; [left; now left|]. rewrite !in_app_iff in Hl. destruct Hl as [Hl|Hl]; [right; now apply arg_list_env in Hl|left; right; rewrite !in_app_iff; tauto].
  - destruct Hl as [Hl|Hl]; [left; now left|]. rewrite !in_app_iff in Hl. destruct Hl as [Hl|[Hl|Hl]]; [|right; now apply arg_sb_env in Hl|]; left; right; rewrite !in_app_iff; tauto.
  - destruct Hl as [Hl|Hl]; [left; now left|]. rewrite !in_app_iff in Hl. destruct Hl as [Hl|[Hl|[Hl|Hl]]]; [| |right; now apply arg_sb_env in Hl|]; left; right; rewrite !in_app_iff; tauto.
  - destruct Hl as [Hl|Hl]; [left; now left|]. rewrite !in_app_iff in Hl. destruct Hl as [Hl|[Hl|[Hl|Hl]]]; [| | |right; now apply arg_sb_env in Hl]; left; right; rewrite !in_app_iff; tauto.
Qed.
Lemma fld_list_in o x l : fld_list o x = Some l -> In l (lists_of o).
Proof.
  unfold lists_of. destruct x; cbn [fld_list].
  - intros H. injection H as <-. now left.
  - intros ->. cbn. auto.
  - destruct (o_id o); try discriminate. intros H. injection H as <-. right. rewrite !in_app_iff. cbn. auto.
  - destruct (o_dest o); try discriminate. intros H. injection H as <-. right. rewrite !in_app_iff. cbn. auto.
  - destruct (o_user o); try discriminate. intros H. injection H as <-. right. rewrite !in_app_iff. cbn. auto.
Qed.

Definition user_op (o : hop) : bool := match o with HSend _ _ | HOp _ => false | _ => true end.
Definition InvX (x : hst) : Prop := Inv (h_heap x) (h_env x) (h_src x).
Definition seenx (x : hst) : asrc := seen (h_heap x) (h_src x).

Lemma user_step c x o : InvX x -> user_op o = true -> InvX (h_step c x o) /\ seenx (h_step c x o) = seenx x /\ h_src (h_step c x o) = h_src x.
Proof.
  unfold InvX, seenx. intros HI Ho. destruct o as [ba l|i l|d k i de u|i a|i a v|t i|o]; try discriminate; cbn [h_step].
  - pose proof (Inv_ulist _ _ _ (ba, l) HI) as [A B]. unfold lnew in *. cbn [fst] in *. cbn. split; [exact A|]. now split.
  - destruct (nth_error (h_env x) i) as [[r|f]|] eqn:E; auto. apply nth_error_In in E. pose proof (Inv_ustore _ _ _ r l HI E) as [A B]. cbn. auto.
  - destruct (nth_error (h_env x) d) as [v|] eqn:E; auto. pose proof (env_ref_ok _ _ _ _ _ HI E) as Hr.
    pose proof (construct_ok (h_heap x) v (arg_list (h_env x) k) (arg_sb (h_env x) i) (arg_sb (h_env x) de) (arg_sb (h_env x) u) (iv_valid _ _ _ HI) Hr) as H.
    destruct (construct _ _ _ _ _ _) as [h' f]. destruct H as (X & Ef & N & F & O & _). cbn [h_heap h_env h_src]. split; [|split; [|reflexivity]].
    + apply (Inv_uframe _ _ _ _ _ HI X Ef N F). intros l Hl. destruct (O l Hl) as [Hl'|Hl']; [now left|right]. rewrite !in_app_iff in Hl'.
      destruct Hl' as [H|[H|[H|H]]]; [apply arg_list_env in H|apply arg_sb_env in H|apply arg_sb_env in H|apply arg_sb_env in H]; exact H.
    + apply (seen_same _ _ (h_env x)); auto. intros g Hg. apply same_deref; [apply F; now apply (iv_ownf _ _ _ HI)|]. intros l Hl. apply X. now apply (own_lists_lt _ _ _ _ _ HI Hg).
  - destruct (nth_error (h_env x) i) as [[r|f]|] eqn:E; auto. apply nth_error_In in E. destruct (fld_list (fget (h_heap x) f) a) as [l|] eqn:El; auto. cbn.
    split; auto. apply (Inv_uget _ _ _ f); auto. now apply fld_list_in in El.
  - destruct (nth_error (h_env x) i) as [[r|f]|] eqn:E; auto. apply nth_error_In in E. cbn [h_heap h_env h_src].
    pose proof (Inv_uset _ _ _ f (fld_set (h_env x) (fget (h_heap x) f) a v) HI E (fld_set_lists _ _ _ _)) as [A B]. auto.
Qed.

(** ** sending *)
Lemma NoDup_app_remove_l {A} (l m : list A) : NoDup (l ++ m) -> NoDup m.
Proof. induction l as [|a l IH]; auto. intros H. inversion H; auto. Qed.
Lemma NoDup_app_remove_r {A} (l m : list A) : NoDup (l ++ m) -> NoDup l.
Proof. induction l as [|a l IH]; intros H; [constructor|]. inversion H; subst. constructor; auto. intros Ha. apply H2. apply in_app_iff. now left. Qed.
Lemma NoDup_mid {A} (a : A) l m : NoDup (l ++ m) -> ~ In a (l ++ m) -> NoDup ((l ++ [a]) ++ m).
Proof. intros H1 H2. rewrite <- app_assoc. cbn. now apply NoDup_Add with (a := a) (l := l ++ m) ; [apply Add_app|]. Qed.
Lemma own_send s t f r : forall g, In g (own {| hs_q := hs_q s ++ [(t, f)]; hs_cur := hs_cur s; hs_current := hs_current s; hs_r := r |}) <-> In g (own s) \/ g = f.
Proof. intros g. unfold own. cbn. rewrite map_app, !in_app_iff. cbn. intuition. Qed.
Lemma send_step c x t i : InvX x -> InvX (h_step c x (HSend t i)) /\ seenx (h_step c x (HSend t i)) = fold_left (asrc_step c) (as_value x (HSend t i)) (seenx x) /\
  h_env (h_step c x (HSend t i)) = h_env x.
Proof.
  unfold InvX, seenx. intros HI. cbn [h_step as_value]. destruct (nth_error (h_env x) i) as [v|] eqn:E; [|auto]. cbn [fold_left].
  destruct (asrc_full (seen (h_heap x) (h_src x))) eqn:Efull; [cbn [asrc_step]; rewrite Efull; auto|].
  pose proof (env_ref_ok _ _ _ _ _ HI E) as Hr. pose proof (construct_ok (h_heap x) v None RNone RNone RNone (iv_valid _ _ _ HI) Hr) as H.
  destruct (construct _ _ _ _ _ _) as [h' f]. destruct H as (X & Ef & N & F & O & G). specialize (G eq_refl eq_refl eq_refl eq_refl). cbn [h_heap h_env h_src].
  set (s := h_src x) in *. set (h := h_heap x) in *. set (e := h_env x) in *. pose proof (proj1 X) as XL.
  assert (O' : forall l, In l (lists_of (fget h' f)) -> (nl h <= l < nl h')%nat) by (intros l Hl; destruct (O l Hl) as [?|[]]; auto).
  assert (Hnew : ~ In f (own s)) by (intros Hf; apply (iv_ownf _ _ _ HI) in Hf; lia).
  assert (OL : forall g l, In g (own s) -> In l (lists_of (fget h' g)) -> (l < nl h)%nat).
  { intros g l Hg Hl. rewrite F in Hl by (now apply (iv_ownf _ _ _ HI)). now apply (own_lists_lt _ _ _ _ _ HI Hg). }
  assert (SS : seen h' s = seen h s).
  { apply (seen_same _ _ e); auto. intros g Hg. apply same_deref; [apply F; now apply (iv_ownf _ _ _ HI)|]. intros l Hl. apply X. now apply (own_lists_lt _ _ _ _ _ HI Hg). }
  split; [|split; [|reflexivity]].
  - constructor.
    + apply (valid_new h h' f); auto; try apply HI. intros l Hl. apply O' in Hl. lia.
    + intros l Hl. apply (iv_envl _ _ _ HI) in Hl. lia.
    + intros g Hg. apply (iv_envf _ _ _ HI) in Hg. lia.
    + unfold own. cbn. rewrite map_app. cbn. apply NoDup_mid; [apply HI|exact Hnew].
    + intros g Hg. apply own_send in Hg as [Hg| ->]; [apply (iv_ownf _ _ _ HI) in Hg; lia|lia].
    + cbn. apply HI.
    + intros g k Hg Hk Hne. apply own_send in Hg as [Hg| ->].
      * destruct (Nat.eq_dec k f) as [->|Hkf]; [intros l Hl Hl'; apply (OL g) in Hl; auto; apply O' in Hl'; lia|].
        rewrite (F g) by (apply (iv_ownf _ _ _ HI); auto). rewrite (F k) by lia. apply (iv_A _ _ _ HI); auto. lia.
      * intros l Hl Hl'. apply O' in Hl. assert (Hk' : (k < nf h)%nat) by lia. rewrite F in Hl' by exact Hk'. pose proof (iv_valid _ _ _ HI k Hk') as V. rewrite Forall_forall in V. specialize (V l Hl'). lia.
    + intros g l Hg Hl Hin. apply (own_send s) in Hg as [Hg| ->].
      * rewrite F in Hin by (now apply (iv_ownf _ _ _ HI)). now apply (iv_B _ _ _ HI g l).
      * apply O' in Hin. apply (iv_envl _ _ _ HI) in Hl. lia.
    + intros g Hg Hin. apply (own_send s) in Hin as [Hin| ->]; [now apply (iv_C _ _ _ HI g)|]. apply (iv_envf _ _ _ HI) in Hg. lia.
  - rewrite SS, G. rewrite <- SS. cbn [asrc_step]. rewrite SS, Efull, <- SS. unfold seen at 1. cbn [hs_q hs_cur hs_current hs_r].
    rewrite map_app. cbn [map]. unfold seen_t at 2. cbn [fst snd]. rewrite G. reflexivity.
Qed.

(** ** the source acts *)
Definition norm_q (v : asrc) : Prop := Forall (fun tf : tframe => exists g, normalize (snd tf) = Ok g) (a_q v).

Lemma edge_cases c v r : norm_q v -> let v' := asrc_edge c v r in
  (exists t f q g, a_q v = (t, f) :: q /\ normalize f = Ok g /\ a_q v' = q /\
     ((exists fo, a_cur v' = Some ((t, g), fo)) /\ a_current v' = Some (t, g) /\ a_done v' = a_done v \/
      a_cur v' = None /\ a_current v' = None /\ a_done v' = a_done v ++ [t])) \/
  (a_q v' = a_q v /\
     (match a_cur v with Some y => exists fo, a_cur v' = Some (fst y, fo) | None => a_cur v' = None end /\ a_current v' = a_current v /\ a_done v' = a_done v \/
      (exists t f fo, a_cur v = Some ((t, f), fo) /\ a_cur v' = None /\ a_current v' = None /\ a_done v' = a_done v ++ [t]))).
Proof.
  intros Hn. cbn zeta. assert (HS : let v' := v in a_q v' = a_q v /\
     (match a_cur v with Some y => exists fo, a_cur v' = Some (fst y, fo) | None => a_cur v' = None end /\ a_current v' = a_current v /\ a_done v' = a_done v \/
      (exists t f fo, a_cur v = Some ((t, f), fo) /\ a_cur v' = None /\ a_current v' = None /\ a_done v' = a_done v ++ [t]))).
  { cbn zeta. split; auto. left. destruct (a_cur v) as [[y fo]|]; eauto. }
  unfold asrc_edge. destruct (a_task v); auto. destruct ((negb (x_ready c) || r) && a_valid v || negb (a_valid v)); auto.
  destruct (asrc_fetch v) as [s1|e] eqn:Ef.
  2: { exfalso. unfold asrc_fetch in Ef. destruct (ftrue (a_cur v)); [discriminate|]. unfold norm_q in Hn. destruct (a_q v) as [|[t f] q]; [discriminate|].
       inversion Hn; subst. cbn [snd] in *. destruct H1 as [g Hg]. rewrite Hg in Ef. discriminate. }
  unfold asrc_fetch in Ef. destruct (ftrue (a_cur v)) eqn:Et.
  - injection Ef as <-. right. destruct (a_cur v) as [[[t f] fo]|] eqn:Ec; [|discriminate].
    destruct ((0 <? zlen (f_data f)) && negb (a_pause v)).
    + unfold asrc_drive. destruct (drive_beat c f fo) as [[b fo'] fin]. cbn. split; auto. destruct fin; [right; eauto 10|left; eauto].
    + unfold asrc_hold. cbn. rewrite Ec. split; auto. left. eauto.
  - unfold norm_q in Hn. destruct (a_q v) as [|[t f] q] eqn:Eq.
    + injection Ef as <-. right. destruct (a_cur v) as [[[t f] fo]|] eqn:Ec.
      * cbn in Et. rewrite Et. cbn [andb]. unfold asrc_hold. cbn. rewrite Ec, Eq. split; auto. left. eauto.
      * unfold asrc_hold. cbn. rewrite Ec, Eq. split; auto.
    + inversion Hn; subst. cbn [snd] in *. destruct H1 as [g Hg]. rewrite Hg in Ef. cbn [bind] in Ef. injection Ef as <-. cbn [a_cur a_pause]. left.
      exists t, f, q, g. split; auto. split; auto. destruct ((0 <? zlen (f_data g)) && negb (a_pause v)).
      * unfold asrc_drive. destruct (drive_beat c g 0) as [[b fo'] fin]. cbn. split; auto. destruct fin; [right; auto|left; eauto].
      * unfold asrc_hold. cbn. split; auto. left. eauto.
Qed.

Lemma seen_is h s v : hs_r s = v -> map (seen_t h) (hs_q s) = a_q v -> option_map (fun x => (seen_t h (fst x), snd x)) (hs_cur s) = a_cur v ->
  option_map (seen_t h) (hs_current s) = a_current v -> seen h s = v.
Proof. intros E1 E2 E3 E4. unfold seen. rewrite E1, E2, E3, E4. now destruct v. Qed.

(** fewer owned frames, those given up go to the user *)
Lemma Inv_release h e s s' fs : Inv h e s -> (forall f, In f (own s') -> In f (own s)) -> NoDup (own s') ->
  (forall y, hs_cur s' = Some y -> hs_current s' = Some (fst y)) -> (forall f, In f fs -> In f (own s) /\ ~ In f (own s')) -> Inv h (e ++ map RF fs) s'.
Proof.
  intros HI Hsub Hnd Hc Hfs. constructor; auto; try apply HI.
  - intros l Hl. apply in_app_iff in Hl as [Hl|Hl]; [now apply (iv_envl _ _ _ HI)|]. apply in_map_iff in Hl as (? & ? & _). discriminate.
  - intros f Hf. apply in_app_iff in Hf as [Hf|Hf]; [now apply (iv_envf _ _ _ HI)|]. apply in_map_iff in Hf as (g & Eg & Hg). injection Eg as ->. apply (iv_ownf _ _ _ HI). now apply Hfs.
  - intros f Hf. apply (iv_ownf _ _ _ HI). auto.
  - intros f g Hf. apply (iv_A _ _ _ HI). auto.
  - intros f l Hf Hl. apply in_app_iff in Hl as [Hl|Hl]; [apply (iv_B _ _ _ HI); auto|]. apply in_map_iff in Hl as (? & ? & _). discriminate.
  - intros f Hf Ho. apply in_app_iff in Hf as [Hf|Hf]; [apply (iv_C _ _ _ HI f); auto|]. apply in_map_iff in Hf as (g & Eg & Hg). injection Eg as ->. now apply (proj2 (Hfs f Hg)).
Qed.
(** normalize in place *)
Lemma Inv_normalize h e s f g : Inv h e s -> In f (own s) -> normalize (deref h f) = Ok g -> let h' := fst (h_normalize h f) in
  Inv h' e s /\ deref h' f = g /\ forall k, In k (own s) -> k <> f -> deref h' k = deref h k.
Proof.
  intros HI Hf Hg. pose proof (iv_ownf _ _ _ HI f Hf) as Hlt. pose proof (normalize_ok h f g (iv_valid _ _ _ HI) Hlt Hg) as H.
  destruct (h_normalize h f) as [h' rr]. cbn [fst]. destruct H as (_ & X & N & F & O & G). pose proof (proj1 X) as XL. split; [|split; [exact G|]].
  2: { intros k Hk Hne. apply same_deref; [auto|]. intros l Hl. apply X. now apply (own_lists_lt _ _ _ _ _ HI Hk). }
  assert (V : forall k l, (k < nf h)%nat -> In l (lists_of (fget h k)) -> (l < nl h)%nat).
  { intros k l Hk Hl. pose proof (iv_valid _ _ _ HI k Hk) as V. rewrite Forall_forall in V. auto. }
  assert (Od : In (o_data (fget h f)) (lists_of (fget h f))) by now left.
  constructor; try apply HI.
  - intros k Hk. apply Forall_forall. intros l Hl. rewrite N in Hk. destruct (Nat.eq_dec k f) as [->|Hne].
    + destruct (O l Hl) as [->|?]; [|lia]. apply V in Od; auto. lia.
    + rewrite F in Hl by auto. apply V in Hl; auto. lia.
  - intros l Hl. apply (iv_envl _ _ _ HI) in Hl. lia.
  - intros k Hk. rewrite N. now apply (iv_envf _ _ _ HI).
  - intros k Hk. rewrite N. now apply (iv_ownf _ _ _ HI).
  - intros k j Hk Hj Hne. rewrite N in Hj. pose proof (iv_ownf _ _ _ HI k Hk) as Hkn. intros l Hl Hl'.
    destruct (Nat.eq_dec k f) as [->|Hkf]; [|destruct (Nat.eq_dec j f) as [->|Hjf]].
    + rewrite F in Hl' by auto. destruct (O l Hl) as [->|?]; [now apply (iv_A _ _ _ HI f j Hf Hj Hne (o_data (fget h f)))|apply V in Hl'; auto; lia].
    + rewrite F in Hl by auto. destruct (O l Hl') as [->|?]; [|apply V in Hl; auto; lia]. now apply (iv_A _ _ _ HI k f Hk Hlt Hne (o_data (fget h f))).
    + rewrite F in Hl, Hl' by auto. now apply (iv_A _ _ _ HI k j Hk Hj Hne l).
  - intros k l Hk Hl Hin. destruct (Nat.eq_dec k f) as [->|Hkf].
    + destruct (O l Hin) as [->|?]; [now apply (iv_B _ _ _ HI f (o_data (fget h f)))|apply (iv_envl _ _ _ HI) in Hl; lia].
    + rewrite F in Hin by auto. now apply (iv_B _ _ _ HI k l).
Qed.

(** what the user gets back for a tag *)
Definition back (v : asrc) (t : Z) (g : frame) : Prop :=
  In (t, g) (a_q v) \/ a_current v = Some (t, g) \/ exists f, In (t, f) (a_q v) /\ normalize f = Ok g.
Definition gives_back (x x' : hst) (v v' : asrc) : Prop :=
  exists ts fs, a_done v' = a_done v ++ ts /\ h_env x' = h_env x ++ map RF fs /\ NoDup fs /\
    (forall f, In f fs -> ~ In (RF f) (h_env x) /\ ~ In f (own (h_src x'))) /\ Forall2 (fun t f => back v t (deref (h_heap x') f)) ts fs.
Lemma back_none x x' v v' : a_done v' = a_done v -> h_env x' = h_env x -> gives_back x x' v v'.
Proof. intros E1 E2. exists [], []. cbn. rewrite !app_nil_r. repeat split; auto; try constructor; contradiction. Qed.
Lemma ltb_app (l : list Z) t : (length l <? length (l ++ [t]))%nat = true.
Proof. apply Nat.ltb_lt. rewrite app_length. cbn. lia. Qed.
Lemma back_one x x' v v' t f : a_done v' = a_done v ++ [t] -> h_env x' = h_env x ++ [RF f] -> ~ In (RF f) (h_env x) -> ~ In f (own (h_src x')) ->
  back v t (deref (h_heap x') f) -> gives_back x x' v v'.
Proof. intros. exists [t], [f]. repeat split; auto; try (destruct H4 as [<-|[]]; auto). constructor; [intros []|constructor]. Qed.

Lemma src_step c x o : InvX x -> norm_q (seenx x) -> (forall t f, o <> ASend t f) ->
  InvX (src_op c x o) /\ seenx (src_op c x o) = asrc_step c (seenx x) o /\ gives_back x (src_op c x o) (seenx x) (seenx (src_op c x o)).
Proof.
  unfold InvX, seenx. intros HI Hn Hns. destruct o as [t f|b|lb lf| |[]|r]; [now destruct (Hns t f)| | | | | |]; cbn [src_op].
  - cbn [h_heap h_env h_src]. split; [destruct HI; now constructor|]. split; [reflexivity|apply back_none; auto].
  - cbn [h_heap h_env h_src]. split; [destruct HI; now constructor|]. split; [reflexivity|apply back_none; auto].
  - (* clear *)
    cbn [h_heap h_env h_src]. set (s' := {| hs_q := []; hs_cur := hs_cur (h_src x); hs_current := hs_current (h_src x); hs_r := _ |}).
    pose proof (iv_own _ _ _ HI) as ND. unfold own in ND.
    assert (Hfs : forall f, In f (map snd (hs_q (h_src x))) -> In f (own (h_src x)) /\ ~ In f (own s')).
    { intros f Hf. split; [unfold own; apply in_app_iff; now left|]. unfold own, s'. cbn. intros Hf'. revert ND Hf Hf'. generalize (map snd (hs_q (h_src x))), (map snd (olist (hs_current (h_src x)))).
      intros l m ND H1 H2. induction l as [|a l IH]; [contradiction|]. inversion ND; subst. destruct H1 as [->|H1]; [apply H3; apply in_app_iff; now right|auto]. }
    split; [|split; [reflexivity|]].
    + replace (map (fun y => RF (snd y)) (hs_q (h_src x))) with (map RF (map snd (hs_q (h_src x)))) by (rewrite map_map; reflexivity).
      apply (Inv_release _ _ (h_src x)); auto.
      * intros f Hf. unfold own, s' in *. cbn in Hf. apply in_app_iff. now right.
      * unfold own, s'. cbn. now apply NoDup_app_remove_l in ND.
      * unfold s'. cbn. apply HI.
    + exists (map fst (hs_q (h_src x))), (map snd (hs_q (h_src x))). split; [cbn; f_equal; rewrite map_map; now apply map_ext|].
      split; [now rewrite map_map|]. split; [now apply NoDup_app_remove_r in ND|]. split.
      * intros f Hf. split; [|now apply Hfs]. intros He. apply (iv_C _ _ _ HI f He). now apply Hfs.
      * cbn [h_heap]. assert (HB : forall tf, In tf (hs_q (h_src x)) -> back (seen (h_heap x) (h_src x)) (fst tf) (deref (h_heap x) (snd tf))).
        { intros tf Htf. left. cbn. apply in_map_iff. now exists tf. }
        revert HB. generalize (back (seen (h_heap x) (h_src x))). intros B HB. clear - HB. induction (hs_q (h_src x)) as [|y q IH]; cbn; constructor; [apply HB; now left|apply IH; intros; apply HB; now right].
  - (* reset *)
    cbn [h_heap h_env h_src]. set (v := seen (h_heap x) (h_src x)) in *. cbn [asrc_step a_done a_current].
    assert (Ecv : a_current v = option_map (seen_t (h_heap x)) (hs_current (h_src x))) by reflexivity. pose proof (iv_own _ _ _ HI) as ND. unfold own in ND.
    destruct (hs_current (h_src x)) as [[t f]|] eqn:Ec; cbn [option_map] in Ecv; unfold seen_t in Ecv; cbn [fst snd] in Ecv; rewrite !Ecv; cbn [option_map].
    + destruct (0 <? zlen (f_data (deref (h_heap x) f))) eqn:Ez; cbn [app]; rewrite ?app_nil_r.
      * assert (Eb : (length (a_done v) <? length (a_done v ++ [t]))%nat = true) by apply ltb_app. rewrite Eb. cbn [snd].
        assert (Hin : In f (own (h_src x))) by (now apply (seen_c _ t)).
        assert (Hout : ~ In f (map snd (hs_q (h_src x)) ++ [])).
        { rewrite app_nil_r. cbn in ND. apply NoDup_remove in ND. now rewrite app_nil_r in ND. }
        split; [|split].
        -- apply (Inv_release _ _ (h_src x) _ [f]); auto.
           ++ unfold own. cbn. rewrite app_nil_r. intros k Hk. apply in_app_iff. now left.
           ++ unfold own. cbn. rewrite app_nil_r. now apply NoDup_app_remove_r in ND.
           ++ cbn. discriminate.
           ++ intros k [<-|[]]. split; auto.
        -- apply seen_is; reflexivity.
        -- eapply back_one; cbn [h_env h_heap h_src]; [reflexivity|reflexivity| |exact Hout|right; left; exact Ecv]. intros He. now apply (iv_C _ _ _ HI f He).
      * rewrite Nat.ltb_irrefl, ?app_nil_r. split; [|split].
        -- pose proof (Inv_release _ _ (h_src x) {| hs_q := hs_q (h_src x); hs_cur := None; hs_current := Some (t, f); hs_r := hs_r (h_src x) |} [] HI) as R. cbn [map] in R. rewrite app_nil_r in R.
           assert (R' : Inv (h_heap x) (h_env x) {| hs_q := hs_q (h_src x); hs_cur := None; hs_current := Some (t, f); hs_r := hs_r (h_src x) |}).
           { apply R; [unfold own; cbn; rewrite Ec; auto|unfold own; cbn; exact ND|discriminate|contradiction]. } destruct R'. now constructor.
        -- apply seen_is; reflexivity.
        -- apply back_none; [cbn; reflexivity|reflexivity].
    + rewrite ?app_nil_r, Nat.ltb_irrefl, ?app_nil_r. split; [|split].
      -- pose proof (Inv_release _ _ (h_src x) {| hs_q := hs_q (h_src x); hs_cur := None; hs_current := None; hs_r := hs_r (h_src x) |} [] HI) as R. cbn [map] in R. rewrite app_nil_r in R.
         assert (R' : Inv (h_heap x) (h_env x) {| hs_q := hs_q (h_src x); hs_cur := None; hs_current := None; hs_r := hs_r (h_src x) |}).
         { apply R; [unfold own; cbn; rewrite Ec; auto|unfold own; cbn; exact ND|discriminate|contradiction]. } destruct R'. now constructor.
      -- apply seen_is; reflexivity.
      -- apply back_none; [cbn; now rewrite ?app_nil_r|reflexivity].
  - cbn [h_heap h_env h_src]. split; [destruct HI; now constructor|]. split; [reflexivity|apply back_none; auto].
  - (* clock edge *)
    set (h := h_heap x) in *. set (s := h_src x) in *. set (e := h_env x) in *. set (v := seen h s) in *. cbn [asrc_step] in *. set (v' := asrc_edge c v r) in *.
    pose proof (edge_cases c v r Hn) as HC. cbn zeta in HC. fold v' in HC. clearbody v'. unfold moved. pose proof (iv_own _ _ _ HI) as ND. unfold own in ND.
    destruct HC as [(t & F & Q & g & Eq & Eg & Eq' & HC)|[Eq HC]].
    + assert (Em : (length (a_q v') <? length (a_q v))%nat = true) by (rewrite Eq, Eq'; apply Nat.ltb_lt; cbn; lia). rewrite Em.
      assert (Eqs : map (seen_t h) (hs_q s) = (t, F) :: Q) by exact Eq.
      destruct (hs_q s) as [|[t0 f] q] eqn:Ehq; [discriminate|]. cbn [map] in Eqs. unfold seen_t at 1 in Eqs. cbn [fst snd] in Eqs. injection Eqs as -> EF EQ. cbn [snd].
      assert (Hin : In f (own s)) by (unfold own; rewrite Ehq; now left). rewrite <- EF in Eg.
      pose proof (Inv_normalize h e s f g HI Hin Eg) as (HI' & Hd & Ho). set (h' := fst (h_normalize h f)) in *. clearbody h'.
      cbn in ND. apply NoDup_cons_iff in ND as [NF ND'].
      assert (Sq : map (seen_t h') q = a_q v').
      { rewrite Eq', <- EQ. apply map_ext_in. intros [t1 f1] H1. unfold seen_t. cbn [fst snd]. f_equal. apply Ho; [unfold own; rewrite Ehq; cbn; right; apply in_app_iff; left; apply in_map_iff; exists (t1, f1); auto|].
        intros ->. apply NF. apply in_app_iff. left. apply in_map_iff. exists (t1, f). auto. }
      destruct HC as [([fo Ecur] & Ecurr & Ed)|(Ecur & Ecurr & Ed)]; rewrite Ecur, Ecurr, Ed; cbn [option_map snd].
      * rewrite Nat.ltb_irrefl, ?app_nil_r. cbn [h_heap h_env h_src]. split; [|split].
        -- pose proof (Inv_release h' e s {| hs_q := q; hs_cur := Some ((t, f), fo); hs_current := Some (t, f); hs_r := v' |} [] HI') as R. cbn [map] in R. rewrite app_nil_r in R. apply R.
           ++ unfold own. cbn. rewrite Ehq. cbn. intros k Hk. apply in_app_iff in Hk as [Hk|[->|[]]]; [right; apply in_app_iff; now left|now left].
           ++ unfold own. cbn. apply NoDup_app_remove_r in ND'. apply NoDup_Add with (a := f) (l := map snd q ++ []).
              { apply Add_app. } { rewrite app_nil_r. split; auto. intros Hf. apply NF. apply in_app_iff. now left. }
           ++ cbn. intros y Hy. injection Hy as <-. reflexivity.
           ++ contradiction.
        -- apply seen_is; cbn [hs_q hs_cur hs_current hs_r option_map fst snd]; auto; unfold seen_t; cbn [fst snd]; rewrite Hd; auto.
        -- apply back_none; [cbn; exact Ed|reflexivity].
      * rewrite ltb_app. cbn [h_heap h_env h_src].
        assert (Hout : ~ In f (map snd q ++ [])) by (rewrite app_nil_r; intros Hf; apply NF; apply in_app_iff; now left). split; [|split].
        -- apply (Inv_release h' e s _ [f] HI').
           ++ unfold own. cbn. rewrite Ehq, app_nil_r. cbn. intros k Hk. right. apply in_app_iff. now left.
           ++ unfold own. cbn. rewrite app_nil_r. now apply NoDup_app_remove_r in ND'.
           ++ cbn. discriminate.
           ++ intros k [<-|[]]. split; auto.
        -- apply seen_is; cbn [hs_q hs_cur hs_current hs_r option_map]; auto.
        -- eapply back_one; cbn [h_env h_heap h_src]; [cbn; exact Ed|reflexivity| |exact Hout|].
           ++ intros He. now apply (iv_C _ _ _ HI f He).
           ++ right. right. exists (deref h f). split; [rewrite Eq; left; now rewrite <- EF|]. now rewrite Hd.
    + assert (Em : (length (a_q v') <? length (a_q v))%nat = false) by (rewrite Eq; apply Nat.ltb_irrefl). rewrite Em.
      assert (Ecv : a_cur v = option_map (fun y => (seen_t h (fst y), snd y)) (hs_cur s)) by reflexivity.
      assert (Ecrv : a_current v = option_map (seen_t h) (hs_current s)) by reflexivity.
      destruct HC as [(Ecur & Ecurr & Ed)|(t & F & fo & Ec & Ecur & Ecurr & Ed)].
      * rewrite Ed, Nat.ltb_irrefl, app_nil_r.
        assert (HI2 : forall cu r', (forall y, cu = Some y -> hs_current s = Some (fst y)) -> Inv h e {| hs_q := hs_q s; hs_cur := cu; hs_current := hs_current s; hs_r := r' |}).
        { intros cu r' Hcu. destruct HI. now constructor. }
        assert (E2 : match a_current v' with Some _ => hs_current s | None => None end = hs_current s) by (rewrite Ecurr, Ecrv; now destruct (hs_current s)).
        destruct (hs_cur s) as [[tf fo]|] eqn:Ehc; rewrite Ecv in Ecur; cbn [option_map fst snd] in Ecur; [destruct Ecur as [fo' Ecur]|]; rewrite Ecur; cbn [fst snd];
          (split; [|split; [|destruct (hs_q s); apply back_none; [cbn; exact Ed|reflexivity|cbn; exact Ed|reflexivity]]]).
        -- assert (HJ : Inv h e {| hs_q := hs_q s; hs_cur := Some (tf, fo'); hs_current := hs_current s; hs_r := v' |}).
           { apply HI2. intros y Hy. injection Hy as <-. cbn. now apply (iv_cur _ _ _ HI) in Ehc. }
           rewrite E2. destruct (hs_q s) eqn:?; exact HJ.
        -- rewrite E2. assert (HS : seen h {| hs_q := hs_q s; hs_cur := Some (tf, fo'); hs_current := hs_current s; hs_r := v' |} = v').
           { apply seen_is; cbn [hs_q hs_cur hs_current hs_r option_map fst snd]; auto; try (now rewrite Eq); now rewrite ?Ecurr, ?Ecrv. }
           destruct (hs_q s) eqn:?; exact HS.
        -- assert (HJ : Inv h e {| hs_q := hs_q s; hs_cur := None; hs_current := hs_current s; hs_r := v' |}) by (apply HI2; discriminate).
           rewrite E2. destruct (hs_q s) eqn:?; exact HJ.
        -- rewrite E2. assert (HS : seen h {| hs_q := hs_q s; hs_cur := None; hs_current := hs_current s; hs_r := v' |} = v').
           { apply seen_is; cbn [hs_q hs_cur hs_current hs_r option_map fst snd]; auto; try (now rewrite Eq); now rewrite ?Ecurr, ?Ecrv. }
           destruct (hs_q s) eqn:?; exact HS.
      * rewrite Ecur, Ecurr, Ed, ltb_app. destruct (hs_cur s) as [[[t0 f] fo0]|] eqn:Ehc; cbn [option_map fst snd] in Ecv; [|congruence].
        pose proof (iv_cur _ _ _ HI _ Ehc) as Ehcr. cbn [fst] in Ehcr. rewrite Ecv in Ec. unfold seen_t in Ec. cbn [fst snd] in Ec. injection Ec as -> EF ->.
        assert (Hin : In f (own s)) by (now apply (seen_c _ t)). rewrite Ehcr in ND. cbn in ND. pose proof (NoDup_remove _ _ _ ND) as [ND1 ND2]. rewrite app_nil_r in ND1, ND2. cbn [fst snd].
        assert (HJ : Inv h (e ++ map RF [f]) {| hs_q := hs_q s; hs_cur := None; hs_current := None; hs_r := v' |}).
        { apply (Inv_release h e s); auto.
          - unfold own. cbn. rewrite app_nil_r. intros k Hk. apply in_app_iff. now left.
          - unfold own. cbn. now rewrite app_nil_r.
          - cbn. discriminate.
          - intros k [<-|[]]. split; auto. unfold own. cbn. now rewrite app_nil_r. }
        assert (HS : seen h {| hs_q := hs_q s; hs_cur := None; hs_current := None; hs_r := v' |} = v') by (apply seen_is; cbn [hs_q hs_cur hs_current hs_r option_map]; auto).
        assert (HB : gives_back x {| h_heap := h; h_env := e ++ [RF f]; h_src := {| hs_q := hs_q s; hs_cur := None; hs_current := None; hs_r := v' |} |} v v').
        { eapply back_one; cbn [h_env h_heap h_src]; [exact Ed|reflexivity| | |].
          - intros He. now apply (iv_C _ _ _ HI f He).
          - unfold own. cbn. now rewrite app_nil_r.
          - right. left. rewrite Ecrv, Ehcr. reflexivity. }
        rewrite <- HS in HB at 2. destruct (hs_q s) eqn:?; (split; [exact HJ|split; [exact HS|exact HB]]).
Qed.

(** ** whole histories *)
(** queue and current frame come from what was sent *)
Definition from_sent (L : list aop) (v : asrc) : Prop :=
  (forall t f, In (t, f) (a_q v) -> In (ASend t f) L) /\
  (forall t g, a_current v = Some (t, g) -> exists f, In (ASend t f) L /\ normalize f = Ok g).
Lemma from_sent_more L L' v : from_sent L v -> from_sent (L ++ L') v.
Proof. intros [A B]. split; [intros; apply in_app_iff; auto|]. intros t g H. destruct (B t g H) as (f & H1 & H2). exists f. split; auto. apply in_app_iff. auto. Qed.
Lemma from_sent_step c L v o : norm_q v -> from_sent L v -> from_sent (L ++ [o]) (asrc_step c v o).
Proof.
  intros Hn HF. pose proof (from_sent_more L [o] v HF) as HM. destruct o as [t f|b|lb lf| |[]|r]; cbn [asrc_step]; try exact HM.
  - destruct (asrc_full v); [exact HM|]. destruct HM as [A B]. split; cbn [a_q a_current]; auto. intros t' f' H. apply in_app_iff in H as [H|[H|[]]]; [auto|]. injection H as <- <-. apply in_app_iff. right. now left.
  - destruct HM as [A B]. split; cbn [a_q a_current]; [intros ? ? []|auto].
  - destruct HM as [A B]. split; cbn [a_q a_current]; [auto|]. intros t g H. apply B. destruct (a_current v) as [[t1 f1]|]; [|discriminate]. destruct (0 <? zlen (f_data f1)); [discriminate|auto].
  - destruct HM as [A B]. pose proof (edge_cases c v r Hn) as HC. cbn zeta in HC. destruct HC as [(t & F & Q & g & Eq & Eg & Eq' & HC)|[Eq HC]].
    + split; [rewrite Eq'; intros; apply A; rewrite Eq; now right|]. intros t' g' H. destruct HC as [(_ & E & _)|(_ & E & _)]; rewrite E in H; [|discriminate].
      injection H as <- <-. exists F. split; auto. apply A. rewrite Eq. now left.
    + split; [rewrite Eq; auto|]. intros t' g' H. destruct HC as [(_ & E & _)|(t & F & fo & _ & _ & E & _)]; rewrite E in H; [auto|discriminate].
Qed.
Lemma norm_q_step c v o : norm_q v -> can_normalize o -> norm_q (asrc_step c v o).
Proof.
  unfold norm_q. intros Hn Ho. destruct o as [t f|b|lb lf| |[]|r]; cbn [asrc_step]; auto; cbn [a_q]; auto.
  - destruct (asrc_full v); auto. cbn. apply Forall_app. split; auto.
  - pose proof (edge_cases c v r Hn) as HC. cbn zeta in HC. destruct HC as [(t & F & Q & g & Eq & Eg & Eq' & HC)|[Eq HC]]; [rewrite Eq'; rewrite Eq in Hn; now inversion Hn|now rewrite Eq].
Qed.

Definition Good (L : list aop) (x : hst) : Prop := InvX x /\ norm_q (seenx x) /\ from_sent L (seenx x).
Lemma good_step c L x o : Good L x -> Forall can_normalize (as_value x o) ->
  Good (L ++ as_value x o) (h_step c x o) /\ seenx (h_step c x o) = fold_left (asrc_step c) (as_value x o) (seenx x) /\
  ((exists o', o = HOp o') -> gives_back x (h_step c x o) (seenx x) (seenx (h_step c x o))).
Proof.
  intros (HI & Hn & HF) Hc. unfold Good.
  assert (G1 : InvX (h_step c x o) -> seenx (h_step c x o) = fold_left (asrc_step c) (as_value x o) (seenx x) ->
     InvX (h_step c x o) /\ norm_q (seenx (h_step c x o)) /\ from_sent (L ++ as_value x o) (seenx (h_step c x o))).
  { intros A B. split; auto. rewrite B. assert (Hl : as_value x o = [] \/ exists a, as_value x o = [a]).
    { destruct o as [| | | | |t i|[]]; cbn; eauto. destruct (nth_error (h_env x) i); eauto. }
    destruct Hl as [->|[a Ha]]; [cbn; rewrite app_nil_r; auto|]. rewrite Ha in *. cbn. inversion Hc; subst. split; [now apply norm_q_step|now apply from_sent_step]. }
  destruct (user_op o) eqn:Eu.
  - destruct (user_step c x o HI Eu) as (A & B & _). assert (Ev : as_value x o = []) by (destruct o; try discriminate; reflexivity). rewrite Ev in *. split; [apply G1; auto|]. split; [exact B|].
    intros [o' ->]. discriminate.
  - destruct o as [| | | | |t i|o]; try discriminate.
    + destruct (send_step c x t i HI) as (A & B & _). split; [apply G1; auto|]. split; [exact B|]. intros [o' Ho]. discriminate.
    + destruct (match o with ASend _ _ => true | _ => false end) eqn:Es.
      * destruct o; try discriminate. cbn [h_step as_value] in *. rewrite app_nil_r in *. split; [auto|]. split; [reflexivity|]. intros _. apply back_none; auto.
      * assert (Hns : forall t f, o <> ASend t f) by (intros t f ->; discriminate). destruct (src_step c x o HI Hn Hns) as (A & B & C).
        assert (E1 : h_step c x (HOp o) = src_op c x o) by (destruct o; try discriminate; reflexivity). assert (E2 : as_value x (HOp o) = [o]) by (destruct o; try discriminate; reflexivity).
        rewrite E1, E2 in *. split; [apply G1; auto|]. split; [exact B|]. intros _. exact C.
Qed.
Lemma good_init lb lf : Good [] (h_init lb lf).
Proof.
  split; [|split; [constructor|]].
  - constructor; cbn; try (intros; contradiction); try discriminate; [intros f Hf; unfold nf in Hf; cbn in Hf; lia|constructor].
  - split; cbn; [intros ? ? []|discriminate].
Qed.
Lemma good_run c l : forall L x, Good L x -> Forall can_normalize (as_values c x l) ->
  Good (L ++ as_values c x l) (h_run c x l) /\ seenx (h_run c x l) = fold_left (asrc_step c) (as_values c x l) (seenx x).
Proof.
  induction l as [|o l IH]; intros L x HG Hc; cbn [as_values h_run].
  - rewrite app_nil_r. auto.
  - cbn [as_values] in Hc. apply Forall_app in Hc as [Hc1 Hc2]. destruct (good_step c L x o HG Hc1) as (A & B & _). destruct (IH _ _ A Hc2) as [C D].
    rewrite app_assoc. split; [exact C|]. now rewrite D, B, fold_left_app.
Qed.
Lemma seen_init lb lf : seenx (h_init lb lf) = asrc_init lb lf. Proof. reflexivity. Qed.
