(** Lemmas about the calls of a master (C81). *)
From Coq Require Import ZArith List Bool Permutation Lia.
From Verif Require Import Py M_initev S_initev.
Import ListNotations.
Open Scope Z_scope.

Section Calls.
Context {S O U C X R : Type}.
Variable stp : S -> O -> S * list U.
Variable issue : C -> O.
Variable env : O -> bool.
Variable beg : U -> option X.
Variable fin : U -> option (X * R).
Variable key : X -> Z.
Variable cmd : X -> C.
Variable s0 : S.

Fixpoint erun (s : S) (g : list O) : S * list U :=
  match g with [] => (s, []) | o :: g' => let '(s1, u1) := stp s o in let '(s2, u2) := erun s1 g' in (s2, u1 ++ u2) end.
Lemma erun_app : forall g1 g2 s, erun s (g1 ++ g2) = let '(s1, u1) := erun s g1 in let '(s2, u2) := erun s1 g2 in (s2, u1 ++ u2).
Proof.
  induction g1 as [|o g1 IH]; intros g2 s; cbn [app erun].
  - destruct (erun s g2). reflexivity.
  - destruct (stp s o) as [s1 u1]. rewrite IH. destruct (erun s1 g1) as [s2 u2]. destruct (erun s2 g2) as [s3 u3]. now rewrite app_assoc.
Qed.

Hypothesis Hissue : forall s c, exists x, ibegs beg (snd (stp s (issue c))) = [x] /\ cmd x = c /\ Forall (fun u => fin u = None) (snd (stp s (issue c))).
Hypothesis Henv : forall s o, env o = true -> ibegs beg (snd (stp s o)) = [].
Hypothesis Hfin : forall g y r, In (Some (y, r)) (map fin (snd (erun s0 g))) -> exists x, In x (ibegs beg (snd (erun s0 g))) /\ key x = key y.

Notation istep := (istep stp issue env beg fin key).
Notation irun := (irun stp issue env beg fin key).
Notation deliver := (deliver fin key).
Notation upd := (upd fin key).
Notation res_of := (result fin key).

Lemma did_app : forall l1 l2 : list (iout U X R), did (l1 ++ l2) = did l1 ++ did l2.
Proof. intros. apply flat_map_app. Qed.
Lemma did_io : forall us : list U, did (map IO us : list (iout U X R)) = us.
Proof. induction us as [|u us IH]; cbn; [auto|]. f_equal. exact IH. Qed.
Lemma ended_app : forall l1 l2 : list (iout U X R), ended (l1 ++ l2) = ended l1 ++ ended l2.
Proof. intros. apply flat_map_app. Qed.
Lemma ended_io : forall us : list U, ended (map IO us : list (iout U X R)) = [].
Proof. induction us; cbn; auto. Qed.
Lemma begs_app : forall u1 u2, ibegs beg (u1 ++ u2) = ibegs beg u1 ++ ibegs beg u2.
Proof. intros. apply flat_map_app. Qed.
Lemma queued_did : forall l : list (iout U X R), queued beg l = ibegs beg (did l).
Proof. reflexivity. Qed.
Lemma result_app : forall k u1 u2, res_of k (u1 ++ u2) =
  fold_left (fun o u => match fin u with Some (y, r) => if key y =? k then Some r else o | None => o end) u2 (res_of k u1).
Proof. intros. unfold result. apply fold_left_app. Qed.

(** what the outputs us make of a task *)
Definition task_ok (us : list U) (t : task C X R) : Prop :=
  match t_st t with TNew _ => True | TWait x => res_of (key x) us = None | TRet x r => res_of (key x) us = Some r end.

Lemma upd_keeps : forall us t, t_ev (fold_left upd us t) = t_ev t /\ op_of (fold_left upd us t) = op_of t /\ asked_of cmd (fold_left upd us t) = asked_of cmd t.
Proof.
  induction us as [|u us IH]; intros t; cbn [fold_left]; auto. destruct (IH (upd t u)) as (E1 & E2 & E3). rewrite E1, E2, E3. clear.
  unfold M_initev.upd, op_of, asked_of. destruct (fin u) as [[y r]|]; auto. destruct t as [e [c|x|x r']]; cbn; auto; destruct (key y =? key x); cbn; auto.
Qed.
Lemma upd_ok : forall us us0 t, task_ok us0 t -> task_ok (us0 ++ us) (fold_left upd us t).
Proof.
  induction us as [|u us IH]; intros us0 t Ht; cbn [fold_left]; [now rewrite app_nil_r|].
  replace (us0 ++ u :: us) with ((us0 ++ [u]) ++ us) by (now rewrite <- app_assoc). apply IH. clear IH.
  unfold task_ok in *. unfold M_initev.upd. destruct (fin u) as [[y r]|] eqn:E.
  - destruct t as [e [c|x|x r']]; cbn in *; auto; destruct (key y =? key x) eqn:EK; cbn; rewrite result_app; cbn; rewrite E, EK; auto.
  - destruct t as [e [c|x|x r']]; cbn in *; auto; rewrite result_app; cbn; rewrite E; auto.
Qed.
Lemma deliver_ops : forall us ts, flat_map (op_of (C:=C)) (deliver us ts) = flat_map op_of ts.
Proof. intros us ts. unfold M_initev.deliver. induction ts as [|t ts IH]; cbn; auto. destruct (upd_keeps us t) as (_ & E & _). now rewrite E, IH. Qed.
Lemma deliver_asked : forall us ts, map (asked_of cmd) (deliver us ts) = map (asked_of cmd) ts.
Proof. intros us ts. unfold M_initev.deliver. rewrite map_map. apply map_ext. intros t. apply upd_keeps. Qed.
Lemma deliver_ok : forall us0 us ts, Forall (task_ok us0) ts -> Forall (task_ok (us0 ++ us)) (deliver us ts).
Proof. intros us0 us ts H. unfold M_initev.deliver. apply Forall_map. eapply Forall_impl; [|exact H]. intros t. apply upd_ok. Qed.

Definition eop (o : O) : Prop := (exists c, o = issue c) \/ env o = true.
Definition inv (h : list (iop O C)) (y : ist S C X R) (l : list (iout U X R)) : Prop :=
  (exists g, erun s0 g = (i_s y, did l) /\ Forall eop g) /\
  Permutation (asked h) (map (fun p => (cmd (snd (fst p)), fst (fst p))) (ended l) ++ map (asked_of cmd) (i_ts y)) /\
  Permutation (queued beg l) (map (fun p => snd (fst p)) (ended l) ++ flat_map op_of (i_ts y)) /\
  (NoDup (map key (queued beg l)) ->
   (forall l1 e x r l2, l = l1 ++ IEnd e x r :: l2 -> res_of (key x) (did l1) = Some r) /\ Forall (task_ok (did l)) (i_ts y)).

Lemma asked_app : forall h1 h2 : list (iop O C), asked (h1 ++ h2) = asked h1 ++ asked h2.
Proof. intros. apply flat_map_app. Qed.

(** no result of an operation that was not queued *)
Lemma fresh : forall g us s k, erun s0 g = (s, us) -> ~ In k (map key (ibegs beg us)) -> res_of k us = None.
Proof.
  intros g us s k E Hk. assert (Hn : forall y r, In (Some (y, r)) (map fin us) -> key y <> k).
  { intros y r Hi Hy. pose proof (Hfin g y r) as H. rewrite E in H. destruct (H Hi) as (x & Hx & Ex). apply Hk. rewrite <- Hy, <- Ex. now apply in_map. }
  clear E Hk. unfold result. enough (HG : forall o, (forall y r, In (Some (y, r)) (map fin us) -> key y <> k) ->
    fold_left (fun o u => match fin u with Some (y, r) => if key y =? k then Some r else o | None => o end) us o = o) by (now apply HG).
  induction us as [|u us IH]; intros o HF; cbn [fold_left]; auto.
  assert (E : match fin u with Some (y, r) => if key y =? k then Some r else o | None => o end = o).
  { destruct (fin u) as [[y r]|] eqn:Eu; auto. assert (key y <> k) by (apply (HF y r); cbn; auto). destruct (Z.eqb_spec (key y) k); congruence. }
  rewrite E. apply IH; [intros y r Hi; apply (Hn y r); now right|intros y r Hi; apply (HF y r); now right].
Qed.

Lemma split_io : forall (l : list (iout U X R)) us l1 e x r l2, l ++ map IO us = l1 ++ IEnd e x r :: l2 -> exists l2', l = l1 ++ IEnd e x r :: l2'.
Proof.
  intros l us l1 e x r l2 E. revert l1 E. induction l as [|a l IH]; intros l1 E.
  - exfalso. assert (Hi : In (IEnd e x r) (map IO us : list (iout U X R))) by (cbn [app] in E; rewrite E; apply in_or_app; right; now left).
    apply in_map_iff in Hi as (u & Hu & _). discriminate.
  - destruct l1 as [|b l1]; cbn [app] in E; inversion E; subst.
    + now exists l.
    + destruct (IH _ H1) as (l2' & ->). now exists l2'.
Qed.
Lemma nodup_app_l : forall (a b : list Z), NoDup (a ++ b) -> NoDup a.
Proof. induction a as [|x a IH]; intros b H; cbn in *; [constructor|]. inversion H; subst. constructor; [|eauto]. intros Hi. apply H2. apply in_or_app. now left. Qed.
Lemma list_eq_nil_or_last : forall {A} (l : list A), l = [] \/ exists l' z, l = l' ++ [z].
Proof. intros A l. destruct l as [|a l] using rev_ind; eauto. Qed.
Lemma nodup_mid : forall (a : list Z) x, NoDup (a ++ [x]) -> ~ In x a.
Proof. intros a x H Hi. apply NoDup_remove_2 with (l' := []) in H. rewrite app_nil_r in H. auto. Qed.

(** the master starts an operation for a task *)
Lemma issue_inv : forall h y l c e ts s' us t, inv h y l ->
  i_issue stp issue beg (i_s y) c = (s', us, t) ->
  forall h', asked h' = asked h \/ asked h' = asked h ++ [(c, e)] ->
  Permutation (map (asked_of cmd) (i_ts y) ++ skipn (length (asked h)) (asked h')) (map (asked_of cmd) ts ++ [(c, e)]) ->
  Permutation (flat_map op_of (i_ts y)) (flat_map op_of ts) -> incl ts (i_ts y) ->
  inv h' {| i_s := s'; i_ts := deliver us ts ++ [{| t_ev := e; t_st := t |}] |} (l ++ map IO us).
Proof.
  intros h y l c e ts s' us t ((g & Eg & Hg) & Ha & Hq & Hr) Ei h' Eh Hp Ho Hi. unfold i_issue in Ei.
  destruct (stp (i_s y) (issue c)) as [s1 us1] eqn:Es. apply pair_equal_spec in Ei as [Ei Et]. apply pair_equal_spec in Ei as [-> ->].
  destruct (Hissue (i_s y) c) as (x & Ex & Ec & Ef). rewrite Es in Ex, Ef. cbn [snd] in Ex, Ef. rewrite Ex in Et. subst t.
  assert (Ed : did (l ++ map IO us) = did l ++ us) by (now rewrite did_app, did_io).
  assert (Eb : queued beg (l ++ map IO us) = queued beg l ++ [x]) by (rewrite !queued_did, Ed, begs_app, Ex; reflexivity).
  unfold inv. cbn [i_s i_ts]. rewrite Ed, Eb, ended_app, ended_io, app_nil_r. repeat split.
  - exists (g ++ [issue c]). rewrite erun_app, Eg. cbn [erun]. rewrite Es, app_nil_r. split; [reflexivity|]. apply Forall_app; split; auto. constructor; [left; eauto|constructor].
  - rewrite map_app, deliver_asked. cbn [map]. assert (E1 : asked_of cmd ({| t_ev := e; t_st := TWait x |} : task C X R) = (c, e)) by (unfold asked_of; cbn; now rewrite Ec). rewrite E1.
    assert (Eh' : asked h' = asked h ++ skipn (length (asked h)) (asked h')).
    { destruct Eh as [-> | ->]; [now rewrite skipn_all, app_nil_r|]. rewrite skipn_app, skipn_all, Nat.sub_diag. reflexivity. }
    rewrite Eh'. etransitivity; [apply Permutation_app_tail; exact Ha|]. rewrite <- app_assoc. apply Permutation_app_head. exact Hp.
  - rewrite flat_map_app, deliver_ops. cbn [flat_map op_of t_st app]. rewrite app_nil_r || idtac. etransitivity; [apply Permutation_app_tail; exact Hq|]. rewrite <- app_assoc.
    apply Permutation_app_head. now apply Permutation_app_tail.
  - intros l1 e1 x1 r1 l2 E. rewrite map_app in H. destruct (Hr (nodup_app_l _ _ H)) as [Hr1 _]. apply split_io in E as (l2' & E). eauto.
  - rewrite map_app in H. destruct (Hr (nodup_app_l _ _ H)) as [_ Hr2]. apply Forall_app. split.
    + apply deliver_ok. apply Forall_forall. intros t Ht. rewrite Forall_forall in Hr2. auto.
    + constructor; [|constructor]. unfold task_ok. cbn [t_st]. rewrite result_app.
      rewrite (fresh g (did l) (i_s y)); auto; [|now apply nodup_mid].
      clear - Ef. induction us as [|u us IH]; cbn [fold_left]; auto. inversion Ef as [|? ? E1 E2]; subst. rewrite E1. auto.
Qed.

Lemma nth_split' : forall {A} (l : list A) n t, nth_error l n = Some t -> l = firstn n l ++ t :: skipn (Datatypes.S n) l.
Proof.
  intros A l n t E. apply nth_error_split in E as (l1 & l2 & -> & <-). rewrite firstn_app, firstn_all, Nat.sub_diag, firstn_O, app_nil_r.
  f_equal. rewrite skipn_app, skipn_all2 by lia. replace (Datatypes.S (length l1) - length l1)%nat with 1%nat by lia. reflexivity.
Qed.

Lemma step_inv : forall o h y l, inv h y l -> let '(y', l') := istep y o in inv (h ++ [o]) y' (l ++ l').
Proof.
  intros o h y l HI. destruct o as [c|c e|n|o]; cbn [M_initev.istep].
  - destruct (i_issue stp issue beg (i_s y) c) as [[s' us] t] eqn:Ei. apply (issue_inv h y l c None (i_ts y) s' us t HI Ei).
    + right. now rewrite asked_app.
    + rewrite asked_app, skipn_app, skipn_all, Nat.sub_diag. reflexivity.
    + reflexivity.
    + apply incl_refl.
  - rewrite app_nil_r. destruct HI as (Hg & Ha & Hq & Hr). unfold inv. cbn [i_s i_ts]. repeat split; auto.
    + rewrite asked_app, map_app, app_assoc. cbn. now apply Permutation_app_tail.
    + rewrite flat_map_app. cbn. now rewrite app_nil_r.
    + apply Hr; auto.
    + apply Forall_app. split; [now apply Hr|]. constructor; [exact I|constructor].
  - destruct (nth_error (i_ts y) n) as [[e st]|] eqn:En; cbn [t_st t_ev].
    2:{ rewrite app_nil_r. destruct HI as (Hg & Ha & Hq & Hr). unfold inv. rewrite asked_app. cbn. rewrite app_nil_r. auto. }
    pose proof (nth_split' _ _ _ En) as Et. set (r1 := firstn n (i_ts y)) in *. set (r2 := skipn (Datatypes.S n) (i_ts y)) in *.
    assert (Hinc : incl (r1 ++ r2) (i_ts y)) by (rewrite Et; intros a Ha; apply in_app_or in Ha as []; apply in_or_app; cbn; auto).
    destruct st as [c|x|x r].
    + destruct (i_issue stp issue beg (i_s y) c) as [[s' us] t] eqn:Ei. apply (issue_inv h y l c e (r1 ++ r2) s' us t HI Ei); auto.
      * left. now rewrite asked_app, app_nil_r.
      * rewrite asked_app. cbn [asked flat_map]. rewrite app_nil_r, skipn_all, app_nil_r. rewrite Et, !map_app. cbn [map]. unfold asked_of at 2. cbn [t_st t_ev].
        rewrite <- app_assoc. apply Permutation_app_head. rewrite Permutation_app_comm. cbn. now rewrite app_nil_r || reflexivity.
      * rewrite Et, !flat_map_app. cbn. reflexivity.
    + rewrite app_nil_r. destruct HI as (Hg & Ha & Hq & Hr). unfold inv. rewrite asked_app. cbn [asked flat_map]. rewrite app_nil_r. auto.
    + destruct HI as (Hg & Ha & Hq & Hr). unfold inv. cbn [i_s i_ts]. rewrite did_app, ended_app, queued_did, did_app. cbn [did ended flat_map app]. rewrite !app_nil_r, <- queued_did. repeat split; auto.
      * rewrite asked_app. cbn [asked flat_map]. rewrite app_nil_r. etransitivity; [exact Ha|]. rewrite Et, !map_app. cbn [map]. unfold asked_of at 2. cbn [t_st t_ev fst snd].
        rewrite <- app_assoc. apply Permutation_app_head. cbn [app]. symmetry. apply Permutation_middle.
      * etransitivity; [exact Hq|]. rewrite map_app, Et, !flat_map_app. cbn [flat_map map op_of t_st fst snd app]. rewrite <- app_assoc. apply Permutation_app_head. cbn [app]. symmetry. apply Permutation_middle.
      * intros l1 e1 x1 r1' l2 E. destruct (Hr H) as [Hr1 Hr2].
        destruct (list_eq_nil_or_last l2) as [->|(l2' & z & ->)].
        -- apply app_inj_tail in E as [-> Ez]. inversion Ez; subst. rewrite Forall_forall in Hr2. specialize (Hr2 {| t_ev := e1; t_st := TRet x1 r1' |}).
           unfold task_ok in Hr2. cbn [t_st] in Hr2. apply Hr2. rewrite Et. apply in_or_app. right. now left.
        -- rewrite app_comm_cons, app_assoc in E. apply app_inj_tail in E as [E _]. eauto.
      * destruct (Hr H) as [_ Hr2]. apply Forall_forall. intros t Ht. rewrite Forall_forall in Hr2. auto.
  - destruct (env o) eqn:Eo.
    2:{ rewrite app_nil_r. destruct HI as (Hg & Ha & Hq & Hr). unfold inv. rewrite asked_app. cbn. rewrite app_nil_r. auto. }
    destruct (stp (i_s y) o) as [s' us] eqn:Es. destruct HI as ((g & Eg & Hg) & Ha & Hq & Hr).
    pose proof (Henv (i_s y) o Eo) as Eb. rewrite Es in Eb. cbn [snd] in Eb.
    unfold inv. cbn [i_s i_ts]. rewrite queued_did, did_app, did_io, begs_app, Eb, app_nil_r, <- queued_did, ended_app, ended_io, app_nil_r. repeat split.
    + exists (g ++ [o]). rewrite erun_app, Eg. cbn [erun]. rewrite Es, app_nil_r. split; [reflexivity|]. apply Forall_app; split; auto. constructor; [now right|constructor].
    + rewrite asked_app. cbn [asked flat_map]. now rewrite app_nil_r, deliver_asked.
    + now rewrite deliver_ops.
    + intros l1 e1 x1 r1 l2 E. apply split_io in E as (l2' & E). destruct (Hr H) as [Hr1 _]. eauto.
    + apply deliver_ok. now apply Hr.
Qed.

Lemma run_inv : forall h2 h y l, inv h y l -> let '(y', l') := irun y h2 in inv (h ++ h2) y' (l ++ l').
Proof.
  induction h2 as [|o h2 IH]; intros h y l HI; cbn [M_initev.irun]; [now rewrite !app_nil_r|].
  pose proof (step_inv o h y l HI) as H1. destruct (istep y o) as [y1 l1]. specialize (IH _ _ _ H1). destruct (irun y1 h2) as [y2 l2].
  rewrite <- !app_assoc in IH. exact IH.
Qed.

Lemma calls_inv : forall h, let '(y, l) := irun (i_init s0) h in inv h y l.
Proof.
  intros h. apply (run_inv h [] (i_init s0) []). unfold inv, i_init. cbn. repeat split; auto.
  - now exists [].
  - intros l1 e x r l2 E. destruct l1; discriminate.
Qed.

(** the promise, and what the master sees *)
Lemma calls_kept : forall h, let '(y, l) := irun (i_init s0) h in
  (exists g, erun s0 g = (i_s y, did l) /\ Forall eop g) /\ (NoDup (map key (queued beg l)) -> kept beg fin key cmd h y l).
Proof.
  intros h. pose proof (calls_inv h) as H. destruct (irun (i_init s0) h) as [y l]. destruct H as (Hg & Ha & Hq & Hr). split; auto.
  intros Hn. destruct (Hr Hn) as [Hr1 Hr2]. repeat split; auto. intros t Ht. rewrite Forall_forall in Hr2. exact (Hr2 t Ht).
Qed.
End Calls.
