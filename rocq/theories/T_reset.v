(** Property C50: reset state tracking. *)
From Coq Require Import List Bool.
From Verif Require Import M_reset.
Import ListNotations.

(** Specification, from the history only: the last argument of assert_reset (a call without
    argument is a pulse and leaves it released) ... *)
Definition last_local (l : list rop) : bool :=
  fold_left (fun b o => match o with RAssert (Some v) => v | RAssert None => false | _ => b end) l false.

(** ... and whether the last definite level that the signal changed to is the active one. *)
Fixpoint last_ext (act : bool) (sig : option bool) (ext : bool) (l : list rop) : bool :=
  match l with
  | [] => ext
  | RAssert _ :: l' => last_ext act sig ext l'
  | RSignal v :: l' =>
      last_ext act v (match v with
                      | Some x => if obool_eqb sig v then ext else Bool.eqb x act
                      | None => ext end) l'
  end.

(** the levels of "local or external reset" in time order; assert_reset() passes through true *)
Fixpoint levels (act : bool) (sig : option bool) (loc ext : bool) (l : list rop) : list bool :=
  match l with
  | [] => []
  | RAssert (Some v) :: l' => (v || ext) :: levels act sig v ext l'
  | RAssert None :: l' => true :: (false || ext) :: levels act sig false ext l'
  | RSignal v :: l' =>
      let ext' := match v with
                  | Some x => if obool_eqb sig v then ext else Bool.eqb x act
                  | None => ext end in
      (loc || ext') :: levels act v loc ext' l'
  end.

(** the changes in a sequence of levels *)
Fixpoint changes (prev : bool) (l : list bool) : list bool :=
  match l with
  | [] => []
  | x :: l' => if Bool.eqb x prev then changes prev l' else x :: changes x l'
  end.

Fixpoint alternating (b : bool) (l : list bool) : Prop :=
  match l with [] => True | x :: l' => x = b /\ alternating (negb b) l' end.

Lemma changes_alternating l : forall p, alternating (negb p) (changes p l).
Proof.
  induction l as [|x l IH]; intros p; cbn [changes]; [exact I|].
  destruct (Bool.eqb x p) eqn:E; [apply IH|]. cbn [alternating]. split; [|].
  - destruct x, p; try discriminate; reflexivity.
  - replace (negb (negb p)) with (negb x) by (destruct x, p; try discriminate; reflexivity). apply IH.
Qed.

Lemma run_spec act l : forall s, r_state s = r_local s || r_ext s ->
  let s' := r_run act s l in
  r_local s' = fold_left (fun b o => match o with RAssert (Some v) => v | RAssert None => false | _ => b end) l (r_local s) /\
  r_ext s' = last_ext act (r_sig s) (r_ext s) l /\ r_state s' = r_local s' || r_ext s' /\
  r_calls s' = r_calls s ++ changes (r_state s) (levels act (r_sig s) (r_local s) (r_ext s) l).
Proof.
  induction l as [|o l IH]; intros [lo ex st ca sg] H; cbn [r_state r_local r_ext r_calls r_sig] in *.
  - cbn. rewrite app_nil_r. auto.
  - subst st. change (r_run act ?s (o :: l)) with (r_run act (r_step act s o) l). cbv zeta.
    destruct o as [[v|]|v]; cbn [levels changes last_ext fold_left].
    + destruct v, lo, ex; cbn [orb Bool.eqb changes];
        match goal with |- context [r_run act (r_step act ?s ?o) l] => specialize (IH (r_step act s o) eq_refl) end;
        cbn in IH |- *; rewrite <- ?app_assoc in IH; rewrite <- ?app_assoc; cbn [app] in IH |- *; exact IH.
    + destruct lo, ex; cbn [orb Bool.eqb changes];
        match goal with |- context [r_run act (r_step act ?s ?o) l] => specialize (IH (r_step act s o) eq_refl) end;
        cbn in IH |- *; rewrite <- ?app_assoc in IH; rewrite <- ?app_assoc; cbn [app] in IH |- *; exact IH.
    + destruct v as [[|]|], sg as [[|]|], lo, ex, act; cbn [orb Bool.eqb changes obool_eqb];
        match goal with |- context [r_run ?a (r_step ?a ?s ?o) l] => specialize (IH (r_step a s o) eq_refl) end;
        cbn in IH |- *; rewrite <- ?app_assoc in IH; rewrite <- ?app_assoc; cbn [app] in IH |- *; exact IH.
Qed.

(** C50: for every history, the component is in reset iff the local reset or the external reset
    (by the last level the signal changed to, X ignored) is asserted; [_handle_reset] was called
    exactly at the changes of that state, hence alternating. *)
Theorem C50_reset_tracking_partial : forall act level l,
  let s := r_run act (r_init level) l in
  r_state s = last_local l || last_ext act level false l /\
  r_calls s = changes true (false :: levels act level false false l) /\
  alternating false (r_calls s).
Proof.
  intros act level l s.
  pose proof (run_spec act l (r_init level) eq_refl) as (H1 & H2 & H3 & H4).
  fold s in H1, H2, H3, H4.
  split; [rewrite H3, H1, H2; reflexivity|].
  assert (H : r_calls s = changes true (false :: levels act level false false l)) by exact H4.
  split; [exact H|]. rewrite H. exact (changes_alternating _ true).
Qed.
Print Assumptions C50_reset_tracking_partial.

Example C50_nontrivial :
  let s := r_run true (r_init (Some false))
    [RSignal (Some true); RAssert (Some true); RSignal None; RSignal (Some false); RAssert (Some false); RAssert None] in
  (r_state s, r_calls s) = (false, [false; true; false; true; false]).
Proof. reflexivity. Qed.

(** A reset signal that is active from the start is not noticed: the component runs. *)
Theorem C50_initial_level_refuted : exists act level,
  level = Some act /\ r_state (r_run act (r_init level) []) = false.
Proof. exists true, (Some true). auto. Qed.
Print Assumptions C50_initial_level_refuted.
