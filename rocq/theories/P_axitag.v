(** The tag context manager (M_axieng.v) implements one command queue and one response queue per tag. *)
From Coq Require Import ZArith Lia List Bool Permutation.
From Coq Require Import ZifyBool ZifyNat.
From Verif Require Import Py M_liteeng M_axieng P_liteeng.
Import ListNotations.
Open Scope Z_scope.

Section SetNth.
Context {A : Type}.
Lemma set_nth_length (i : nat) (x : A) l : length (set_nth i x l) = length l.
Proof. revert i. induction l as [|y l IH]; intros [|i]; cbn; auto. Qed.
Lemma nth_set_nth (i j : nat) (x d : A) l : (i < length l)%nat -> nth j (set_nth i x l) d = if Nat.eqb j i then x else nth j l d.
Proof.
  revert i j. induction l as [|y l IH]; intros [|i] [|j] H; cbn in *; auto; try lia. apply IH. lia.
Qed.
Lemma nth_set_nth_ne (i j : nat) (x d : A) l : j <> i -> nth j (set_nth i x l) d = nth j l d.
Proof. revert i j. induction l as [|y l IH]; intros [|i] [|j] H; cbn in *; auto; try lia. Qed.
Lemma flat_map_set_nth {B} (f : A -> list B) i x d l : (i < length l)%nat ->
  Permutation (f (nth i l d) ++ flat_map f (set_nth i x l)) (f x ++ flat_map f l).
Proof.
  revert i. induction l as [|y l IH]; intros [|i] H; cbn [length] in H; try lia; cbn [nth set_nth flat_map].
  - rewrite !app_assoc. apply Permutation_app_tail. apply Permutation_app_comm.
  - rewrite !app_assoc, (Permutation_app_comm _ (f y)), (Permutation_app_comm (f x) (f y)), <- !app_assoc.
    apply Permutation_app_head. apply IH. lia.
Qed.
End SetNth.

Section P.
Context {C R : Type}.
Notation ctx := (ctx C R). Notation mgr := (mgr C R).
Implicit Types (m : mgr) (x : ctx).

Definition X m (i : nat) : ctx := nth i (m_ctxs m) ctx_new.
Definition idx m : list nat := map snd (m_map m).

Definition empty x : Prop := x_cur x = None /\ x_cmdq x = [] /\ x_respq x = [].

Record mwf m : Prop := {
  wf_keys : NoDup (map fst (m_map m));
  wf_idx : NoDup (idx m ++ m_idle m);
  wf_all : forall i, (i < length (m_ctxs m))%nat <-> In i (idx m ++ m_idle m);
  wf_map : forall t i, In (t, i) (m_map m) -> x_tag (X m i) = Some t /\ x_task (X m i) <> TNone /\
             match x_cur (X m i) with Some (_, bid, _) => bid = Some t | None => True end;
  wf_idle : forall i, In i (m_idle m) -> x_tag (X m i) = None /\ empty (X m i) }.

Lemma lookup_in t l i : lookup t l = Some i -> In (t, i) l.
Proof.
  induction l as [|[t' j] l IH]; cbn [lookup]; [discriminate|]. destruct (Z.eqb_spec t' t).
  - intros H. injection H as ->. subst. now left.
  - intros H. right. auto.
Qed.
Lemma lookup_none t l : lookup t l = None <-> ~ In t (map fst l).
Proof.
  induction l as [|[t' j] l IH]; cbn [lookup map fst In]; [tauto|]. destruct (Z.eqb_spec t' t).
  - split; [discriminate|]. intros H. exfalso. auto.
  - rewrite IH. tauto.
Qed.
Lemma lookup_nodup t l i : NoDup (map fst l) -> In (t, i) l -> lookup t l = Some i.
Proof.
  induction l as [|[t' j] l IH]; cbn [lookup map fst In]; [tauto|]. intros Hn [H|H].
  - injection H as -> ->. now rewrite Z.eqb_refl.
  - inversion Hn as [|? ? H1 H2]; subst. destruct (Z.eqb_spec t' t) as [->|]; auto.
    exfalso. apply H1. change t with (fst (t, i)). now apply in_map.
Qed.
Lemma lookup_remove t u l : lookup u (remove_tag t l) = if u =? t then None else lookup u l.
Proof.
  induction l as [|[t' j] l IH]; cbn [remove_tag filter lookup fst].
  - now destruct (u =? t).
  - fold (remove_tag t l). destruct (Z.eqb_spec t' t) as [->|Hne]; cbn [negb].
    + rewrite IH. destruct (Z.eqb_spec u t) as [->|]; [reflexivity|].
      destruct (Z.eqb_spec t u); [lia|reflexivity].
    + cbn [lookup]. rewrite IH. destruct (Z.eqb_spec t' u) as [->|]; [|reflexivity].
      destruct (Z.eqb_spec u t); [lia|reflexivity].
Qed.
Lemma in_remove t p l : In p (remove_tag t l) <-> In p l /\ fst p <> t.
Proof. unfold remove_tag. rewrite filter_In. destruct (Z.eqb_spec (fst p) t); cbn; intuition congruence. Qed.

Definition slot m t : ctx := match lookup t (m_map m) with Some i => X m i | None => ctx_new end.
Definition same x y : Prop := x_cur x = x_cur y /\ x_cmdq x = x_cmdq y /\ x_respq x = x_respq y.

Lemma map_inj m t u i : mwf m -> In (t, i) (m_map m) -> In (u, i) (m_map m) -> t = u.
Proof. intros W H1 H2. destruct (wf_map m W _ _ H1) as [E1 _]. destruct (wf_map m W _ _ H2) as [E2 _]. congruence. Qed.

Lemma in_idx m t i : In (t, i) (m_map m) -> In i (idx m).
Proof. intros H. unfold idx. change i with (snd (t, i)). now apply in_map. Qed.
Lemma idx_in m i : In i (idx m) -> exists t, In (t, i) (m_map m).
Proof. unfold idx. intros H. apply in_map_iff in H. destruct H as ([t j] & <- & H). eauto. Qed.

Lemma mwf_new : mwf mgr_new.
Proof. constructor; cbn; try tauto; try constructor; lia. Qed.

(** getting the context of a tag changes no queue *)
Lemma get_ctx_spec m t : mwf m -> let '(m', i) := get_ctx m t in
  mwf m' /\ In (t, i) (m_map m') /\ lookup t (m_map m') = Some i /\
  (forall u, same (slot m' u) (slot m u)) /\
  (forall x, In x (m_ctxs m') -> x_task x = TCrash -> exists y, In y (m_ctxs m) /\ x_task y = TCrash) /\
  forall B (f : ctx -> list B), (forall x y, same x y -> f x = f y) -> f ctx_new = [] ->
    Permutation (flat_map f (m_ctxs m')) (flat_map f (m_ctxs m)).
Proof.
  intros W. unfold get_ctx. destruct (lookup t (m_map m)) as [i|] eqn:El.
  { split; auto. split; [now apply lookup_in|]. split; auto. split; [intros u; repeat split|]. split; eauto. }
  assert (Hk : ~ In t (map fst (m_map m))) by now apply lookup_none.
  (* the chosen context: free and empty *)
  set (pick := match m_idle m with i :: idle => (m_ctxs m, idle, i) | [] => (m_ctxs m ++ [ctx_new], [], length (m_ctxs m)) end).
  destruct pick as [[cs idle] i] eqn:Ep.
  assert (Hp : (i < length cs)%nat /\ ~ In i (idx m) /\ NoDup (idx m ++ idle) /\ ~ In i idle /\
     (forall j, (j < length cs)%nat <-> j = i \/ In j (idx m ++ idle)) /\ empty (nth i cs ctx_new) /\
     x_task (nth i cs ctx_new) = x_task (X m i) /\
     (forall j, j <> i -> nth j cs ctx_new = X m j) /\ (forall j, In j idle -> In j (m_idle m)) /\
     (forall x, In x cs -> x = ctx_new \/ In x (m_ctxs m)) /\
     (forall B (f : ctx -> list B), f ctx_new = [] -> flat_map f cs = flat_map f (m_ctxs m))).
  { unfold pick in Ep. destruct (m_idle m) as [|i0 idle0] eqn:Ei; injection Ep as <- <- <-.
    - rewrite app_length. cbn [length]. split; [lia|].
      assert (Hni : ~ In (length (m_ctxs m)) (idx m)).
      { intros H. assert (In (length (m_ctxs m)) (idx m ++ m_idle m)) as H1 by (rewrite in_app_iff; auto).
        apply (wf_all m W) in H1. lia. }
      split; auto. pose proof (wf_idx m W) as Hn. rewrite Ei in Hn. split; auto. split; [tauto|]. split.
      { intros j. pose proof (wf_all m W j) as Ha. rewrite Ei in Ha. rewrite <- Ha. lia. }
      split; [rewrite app_nth2 by lia; rewrite Nat.sub_diag; repeat split|].
      split; [unfold X; rewrite app_nth2 by lia; rewrite Nat.sub_diag; now rewrite (nth_overflow (m_ctxs m)) by lia|].
      split.
      { intros j Hj. unfold X. destruct (Nat.lt_ge_cases j (length (m_ctxs m))); [now rewrite app_nth1 by lia|].
        rewrite app_nth2 by lia. rewrite (nth_overflow (m_ctxs m)) by lia. rewrite nth_overflow; auto. cbn. lia. }
      split; [tauto|]. split; [intros x Hx; rewrite in_app_iff in Hx; cbn in Hx; intuition auto|].
      intros B f Hf. rewrite flat_map_app. cbn [flat_map]. rewrite Hf, !app_nil_r. reflexivity.
    - pose proof (wf_idx m W) as Hn. rewrite Ei in Hn. pose proof (NoDup_remove_1 _ _ _ Hn) as N1.
      pose proof (NoDup_remove_2 _ _ _ Hn) as N2. rewrite in_app_iff in N2.
      split. { apply (wf_all m W). rewrite Ei, in_app_iff. cbn. auto. }
      split; [tauto|]. split; auto. split; [tauto|]. split.
      { intros j. rewrite (wf_all m W j), Ei, !in_app_iff. cbn [In]. intuition. }
      split; [apply (wf_idle m W); rewrite Ei; cbn; auto|]. split; [reflexivity|]. split; [reflexivity|].
      split; [cbn; auto|]. split; [auto|]. reflexivity. }
  destruct Hp as (P1 & P2 & P3 & P4 & P5 & P6 & P6b & P7 & P8 & P9 & P10). clear pick Ep.
  set (x' := ctx_tag (ctx_start (nth i cs ctx_new)) (Some t)).
  set (m' := {| m_ctxs := set_nth i x' cs; m_idle := idle; m_map := (t, i) :: m_map m |}).
  assert (HX : forall j, X m' j = if Nat.eqb j i then x' else X m j).
  { intros j. unfold X. cbn [m' m_ctxs]. rewrite nth_set_nth by auto. destruct (Nat.eqb_spec j i); [reflexivity|now apply P7]. }
  assert (HXi : X m' i = x') by (rewrite HX; now rewrite Nat.eqb_refl).
  assert (HXn : forall j, j <> i -> X m' j = X m j) by (intros j Hj; rewrite HX; destruct (Nat.eqb_spec j i); [lia|auto]).
  assert (Hx' : same x' (nth i cs ctx_new) /\ x_tag x' = Some t /\ x_task x' <> TNone).
  { unfold x', ctx_tag, ctx_start. cbn. repeat split. destruct (x_task (nth i cs ctx_new)); discriminate. }
  destruct Hx' as (S1 & S2 & S3). destruct P6 as (Q1 & Q2 & Q3).
  split; [|split; [|split; [|split; [|split]]]].
  - constructor; cbn [m' m_map m_idle m_ctxs idx map fst snd].
    + constructor; auto. apply (wf_keys m W).
    + cbn. constructor; [rewrite in_app_iff; tauto|]. exact P3.
    + intros j. rewrite set_nth_length, P5. cbn [app In map snd]. fold (idx m). split; intros [H|H]; auto.
    + intros u j [H|H].
      * injection H as <- <-. rewrite HXi. split; auto. split; auto. destruct S1 as (S1 & _). rewrite S1, Q1. exact I.
      * assert (j <> i) by (intros ->; apply P2; eapply in_idx; eauto). rewrite HXn by auto. apply (wf_map m W). auto.
    + intros j Hj. assert (j <> i) by (intros ->; tauto). rewrite HXn by auto. apply (wf_idle m W). auto.
  - now left.
  - cbn. now rewrite Z.eqb_refl.
  - intros u. unfold slot. cbn [m' m_map lookup]. destruct (Z.eqb_spec t u) as [<-|Hne].
    + rewrite El. fold m'. rewrite HXi. destruct S1 as (A1 & A2 & A3). unfold same. rewrite A1, A2, A3, Q1, Q2, Q3. auto.
    + destruct (lookup u (m_map m)) as [j|] eqn:Ej; [|repeat split]. apply lookup_in in Ej.
      fold m'. rewrite HXn; [repeat split|]. intros ->. apply P2. eapply in_idx; eauto.
  - intros x Hx Hcr. apply In_nth with (d := ctx_new) in Hx. destruct Hx as (j & Hj & <-).
    cbn [m' m_ctxs] in Hj. rewrite set_nth_length in Hj. fold (X m' j) in Hcr. rewrite HX in Hcr.
    assert (exists j', x_task (X m j') = TCrash) as (j' & Hc').
    { destruct (Nat.eqb_spec j i) as [->|Hji]; [|eauto]. exists i. rewrite <- P6b. unfold x', ctx_tag, ctx_start in Hcr.
      cbn in Hcr. destruct (x_task (nth i cs ctx_new)); auto; discriminate. }
    exists (X m j'). split; auto. destruct (Nat.lt_ge_cases j' (length (m_ctxs m))); [now apply nth_In|].
    unfold X in Hc'. rewrite nth_overflow in Hc' by lia. discriminate.
  - intros B f Hf Hnew. cbn [m' m_ctxs]. pose proof (flat_map_set_nth f i x' ctx_new cs P1) as HP.
    rewrite (Hf x' _ S1) in HP. apply Permutation_app_inv_l in HP. now rewrite HP, P10.
Qed.

(** changing the queues of the context of tag t *)
Lemma mgr_set_spec m t i x' : mwf m -> In (t, i) (m_map m) ->
  x_tag x' = Some t -> x_task x' <> TNone -> match x_cur x' with Some (_, bid, _) => bid = Some t | None => True end ->
  mwf (mgr_set m i x') /\ In (t, i) (m_map (mgr_set m i x')) /\ X (mgr_set m i x') i = x' /\
  (forall u, slot (mgr_set m i x') u = if u =? t then x' else slot m u) /\
  (i < length (m_ctxs m))%nat.
Proof.
  intros W Hin H1 H2 H3.
  assert (Hi : (i < length (m_ctxs m))%nat).
  { apply (wf_all m W). rewrite in_app_iff. left. eapply in_idx; eauto. }
  assert (HX : forall j, X (mgr_set m i x') j = if Nat.eqb j i then x' else X m j).
  { intros j. unfold X. cbn [mgr_set m_ctxs]. now rewrite nth_set_nth by auto. }
  split; [|split; [|split; [|split]]]; auto.
  - constructor; cbn [mgr_set m_map m_idle m_ctxs idx].
    + apply (wf_keys m W).
    + apply (wf_idx m W).
    + intros j. rewrite set_nth_length. apply (wf_all m W).
    + intros u j H. rewrite HX. destruct (Nat.eqb_spec j i) as [->|]; [|now apply (wf_map m W)].
      pose proof (map_inj m _ _ _ W H Hin). subst. auto.
    + intros j Hj. rewrite HX. destruct (Nat.eqb_spec j i) as [->|]; [|now apply (wf_idle m W)].
      exfalso. pose proof (wf_idx m W) as Hn. apply NoDup_app_inv' in Hn. destruct Hn as (_ & _ & Hn).
      apply (Hn i); auto. eapply in_idx; eauto.
  - rewrite HX, Nat.eqb_refl. reflexivity.
  - intros u. unfold slot. cbn [mgr_set m_map]. destruct (Z.eqb_spec u t) as [->|Hne].
    + rewrite (lookup_nodup t _ i (wf_keys m W) Hin). fold (mgr_set m i x'). rewrite HX, Nat.eqb_refl. reflexivity.
    + destruct (lookup u (m_map m)) as [j|] eqn:Ej; auto. apply lookup_in in Ej. fold (mgr_set m i x'). rewrite HX.
      destruct (Nat.eqb_spec j i) as [->|]; auto. exfalso. apply Hne. eapply map_inj; eauto.
Qed.

(** an empty context may become idle *)
Lemma set_idle_spec m t i : mwf m -> In (t, i) (m_map m) -> empty (X m i) ->
  mwf (set_idle m i) /\ (forall u, same (slot (set_idle m i) u) (slot m u)) /\
  (forall x, In x (m_ctxs (set_idle m i)) -> x_task x = TCrash -> exists y, In y (m_ctxs m) /\ x_task y = TCrash) /\
  forall B (f : ctx -> list B), (forall x y, same x y -> f x = f y) ->
    Permutation (flat_map f (m_ctxs (set_idle m i))) (flat_map f (m_ctxs m)).
Proof.
  intros W Hin He. destruct (wf_map m W _ _ Hin) as (T1 & T2 & T3).
  pose proof (lookup_nodup t _ i (wf_keys m W) Hin) as El.
  assert (Hi : (i < length (m_ctxs m))%nat) by (apply (wf_all m W); rewrite in_app_iff; left; eapply in_idx; eauto).
  unfold set_idle. fold (X m i). rewrite T1, El. unfold mgr_set. cbn [m_ctxs m_idle m_map].
  set (x' := ctx_tag (X m i) None). set (m' := {| m_ctxs := _ |}).
  assert (HX : forall j, X m' j = if Nat.eqb j i then x' else X m j).
  { intros j. unfold X. cbn [m' m_ctxs]. now rewrite nth_set_nth by auto. }
  assert (Hs : same x' (X m i)) by repeat split.
  assert (Hidx : forall j, In j (idx m') <-> In j (idx m) /\ j <> i).
  { intros j. split.
    - intros H. apply idx_in in H. destruct H as (u & H). cbn [m' m_map] in H. apply in_remove in H. destruct H as [H Hne].
      cbn [fst] in Hne. split; [eapply in_idx; eauto|]. intros ->. apply Hne. eapply map_inj; eauto.
    - intros [H Hne]. apply idx_in in H. destruct H as (u & H). apply (in_idx m' u). cbn [m' m_map]. apply in_remove.
      split; auto. cbn [fst]. intros ->. apply Hne. rewrite (lookup_nodup t _ j (wf_keys m W) H) in El. congruence. }
  assert (Hnd : forall l : list (Z * nat), NoDup (map fst l) -> NoDup (map snd l) ->
    NoDup (map fst (remove_tag t l)) /\ NoDup (map snd (remove_tag t l))).
  { clear. induction l as [|[u j] l IH]; cbn [map fst snd]; intros H1 H2; [split; constructor|].
    inversion H1; subst. inversion H2; subst. destruct IH as (I1 & I2); auto.
    cbn [remove_tag filter fst]. fold (remove_tag t l). destruct (negb (u =? t)); auto. cbn [map fst snd].
    split; constructor; auto; intros H; apply in_map_iff in H; destruct H as (p & E & H); apply in_remove in H; destruct H as [H _].
    - apply H3. rewrite <- E. now apply in_map.
    - apply H5. rewrite <- E. now apply in_map. }
  pose proof (wf_idx m W) as Hn. apply NoDup_app_inv' in Hn. destruct Hn as (N1 & N2 & N3).
  destruct (Hnd (m_map m) (wf_keys m W) N1) as (K1 & K2).
  assert (Hii : In i (idx m)) by (eapply in_idx; eauto).
  split; [|split; [|split]].
  - constructor.
    + exact K1.
    + cbn [m' m_idle]. apply NoDup_app'.
      * exact K2.
      * constructor; auto. intros H. apply (N3 i); auto.
      * intros j Hj [<-|Hj2]; apply Hidx in Hj; [tauto|]. apply (N3 j); tauto.
    + intros j. cbn [m' m_ctxs m_idle]. rewrite set_nth_length, in_app_iff. fold m'. rewrite Hidx. cbn [In].
      rewrite (wf_all m W j), in_app_iff. split.
      * intros [H|H]; auto. destruct (Nat.eq_dec j i); auto.
      * intros [H|[<-|H]]; tauto.
    + intros u j H. cbn [m' m_map] in H. apply in_remove in H. destruct H as [H Hne]. cbn [fst] in Hne.
      rewrite HX. destruct (Nat.eqb_spec j i) as [->|]; [|now apply (wf_map m W)].
      exfalso. apply Hne. eapply map_inj; eauto.
    + intros j Hj. cbn [m' m_idle In] in Hj. rewrite HX. destruct (Nat.eqb_spec j i) as [->|Hne].
      * split; [reflexivity|]. exact He.
      * destruct Hj as [<-|Hj]; [lia|]. now apply (wf_idle m W).
  - intros u. unfold slot. cbn [m' m_map]. rewrite lookup_remove. destruct (Z.eqb_spec u t) as [->|Hne].
    + rewrite El. destruct He as (E1 & E2 & E3). unfold same. rewrite E1, E2, E3. auto.
    + destruct (lookup u (m_map m)) as [j|] eqn:Ej; [|repeat split]. apply lookup_in in Ej. fold m'. rewrite HX.
      destruct (Nat.eqb_spec j i) as [->|]; [exact Hs|repeat split].
  - intros x Hx Hcr. apply In_nth with (d := ctx_new) in Hx. destruct Hx as (j & Hj & <-). fold (X m' j) in Hcr.
    cbn [m' m_ctxs] in Hj. rewrite set_nth_length in Hj. exists (X m j). split; [now apply nth_In|].
    change (x_task (X m' j) = TCrash) in Hcr. rewrite HX in Hcr. destruct (Nat.eqb_spec j i) as [->|]; auto.
  - intros B f Hf. cbn [m' m_ctxs]. pose proof (flat_map_set_nth f i x' ctx_new (m_ctxs m) Hi) as HP.
    rewrite (Hf x' _ Hs) in HP. now apply Permutation_app_inv_l in HP.
Qed.

Lemma mgr_set_free m i x' : mwf m -> In i (m_idle m) -> x_tag x' = None -> empty x' ->
  mwf (mgr_set m i x') /\ (forall u, slot (mgr_set m i x') u = slot m u).
Proof.
  intros W Hin H1 H2.
  assert (Hi : (i < length (m_ctxs m))%nat) by (apply (wf_all m W); rewrite in_app_iff; auto).
  assert (HX : forall j, X (mgr_set m i x') j = if Nat.eqb j i then x' else X m j).
  { intros j. unfold X. cbn [mgr_set m_ctxs]. now rewrite nth_set_nth by auto. }
  assert (Hni : forall t, ~ In (t, i) (m_map m)).
  { intros t H. pose proof (wf_idx m W) as Hn. apply NoDup_app_inv' in Hn. destruct Hn as (_ & _ & Hn).
    apply (Hn i); auto. eapply in_idx; eauto. }
  split.
  - constructor; cbn [mgr_set m_map m_idle m_ctxs idx].
    + apply (wf_keys m W).
    + apply (wf_idx m W).
    + intros j. rewrite set_nth_length. apply (wf_all m W).
    + intros u j H. rewrite HX. destruct (Nat.eqb_spec j i) as [->|]; [|now apply (wf_map m W)].
      exfalso. eapply Hni; eauto.
    + intros j Hj. rewrite HX. destruct (Nat.eqb_spec j i) as [->|]; [|now apply (wf_idle m W)]. auto.
  - intros u. unfold slot. cbn [mgr_set m_map]. destruct (lookup u (m_map m)) as [j|] eqn:Ej; auto.
    fold (mgr_set m i x'). rewrite HX. destruct (Nat.eqb_spec j i) as [->|]; auto. apply lookup_in in Ej. exfalso. eapply Hni; eauto.
Qed.

Lemma set_nth_set_nth {A} (i : nat) (a b : A) l : set_nth i a (set_nth i b l) = set_nth i a l.
Proof. revert i. induction l as [|y l IH]; intros [|i]; cbn; auto. now rewrite IH. Qed.

Definition content x : list C := opt_list (fun p => fst (fst (fst p))) (x_cur x) ++ map fst (x_cmdq x).

Lemma ctx_flush_spec m i : mwf m -> (i < length (m_ctxs m))%nat -> let '(m', l) := ctx_flush m i in
  mwf m' /\ l = content (X m i) /\ length (m_ctxs m') = length (m_ctxs m) /\
  (x_tag (X m' i) = None /\ x_task (X m' i) = TNone) /\ (forall j, j <> i -> X m' j = X m j).
Proof.
  intros W Hi. unfold ctx_flush.
  set (x0 := {| x_tag := None; x_cmdq := []; x_cur := None; x_respq := []; x_task := TNone |} : ctx).
  assert (H0 : m_ctxs (set_idle m i) = set_nth i (ctx_tag (X m i) None) (m_ctxs m)).
  { unfold set_idle. fold (X m i). destruct (x_tag (X m i)) as [t|]; [destruct (lookup t (m_map m))|]; reflexivity. }
  assert (H1 : nth i (m_ctxs (set_idle m i)) ctx_new = ctx_tag (X m i) None).
  { rewrite H0, nth_set_nth by auto. now rewrite Nat.eqb_refl. }
  rewrite H1. cbn [ctx_tag x_tag x_cur x_cmdq]. fold x0. fold (content (X m i)).
  assert (Hw : mwf (mgr_set (set_idle m i) i x0)).
  { pose proof (proj1 (wf_all m W i) Hi) as Hin. apply in_app_iff in Hin. destruct Hin as [Hin|Hin].
    - apply idx_in in Hin. destruct Hin as (t & Hin). destruct (wf_map m W _ _ Hin) as (T1 & T2 & T3).
      set (xe := {| x_tag := Some t; x_cmdq := []; x_cur := None; x_respq := []; x_task := TRun |} : ctx).
      destruct (mgr_set_spec m t i xe W Hin) as (W1 & In1 & X1 & _); cbn; auto; try discriminate.
      destruct (set_idle_spec _ t i W1 In1) as (W2 & _); [rewrite X1; repeat split|].
      assert (Hi2 : In i (m_idle (set_idle (mgr_set m i xe) i))).
      { unfold set_idle. fold (X (mgr_set m i xe) i). rewrite X1. cbn [x_tag xe mgr_set m_map].
        rewrite (lookup_nodup t _ i (wf_keys m W) Hin). cbn. auto. }
      destruct (mgr_set_free _ i x0 W2 Hi2) as (W3 & _); [reflexivity|repeat split|].
      replace (mgr_set (set_idle m i) i x0) with (mgr_set (set_idle (mgr_set m i xe) i) i x0); auto.
      unfold set_idle. fold (X m i). fold (X (mgr_set m i xe) i). rewrite X1, T1. cbn [x_tag xe mgr_set m_map].
      rewrite (lookup_nodup t _ i (wf_keys m W) Hin). unfold mgr_set. cbn [m_ctxs m_idle m_map].
      now rewrite !set_nth_set_nth.
    - destruct (wf_idle m W i Hin) as (T1 & T2). unfold set_idle. fold (X m i). rewrite T1.
      destruct (mgr_set_free m i (ctx_tag (X m i) None) W Hin) as (W1 & _); auto.
      apply (mgr_set_free _ i x0 W1); auto; try reflexivity. repeat split. }
  assert (H2 : m_ctxs (mgr_set (set_idle m i) i x0) = set_nth i x0 (m_ctxs m)).
  { cbn [mgr_set m_ctxs]. now rewrite H0, set_nth_set_nth. }
  split; auto. split; auto. rewrite H2, !set_nth_length. split; auto. unfold X. rewrite H2. split.
  - rewrite nth_set_nth by auto. rewrite Nat.eqb_refl. split; reflexivity.
  - intros j Hj. rewrite nth_set_nth_ne by auto. reflexivity.
Qed.

Lemma map_nth_seq {A} (d : A) l : map (fun j => nth j l d) (seq 0 (length l)) = l.
Proof. induction l as [|y l IH]; cbn; auto. f_equal. now rewrite <- seq_shift, map_map. Qed.

Lemma flush_from_spec n : forall i m, mwf m -> (i + n <= length (m_ctxs m))%nat -> let '(m', l) := flush_from m i n in
  mwf m' /\ l = flat_map (fun j => content (X m j)) (seq i n) /\ length (m_ctxs m') = length (m_ctxs m) /\
  (forall j, (i <= j < i + n)%nat -> x_tag (X m' j) = None /\ x_task (X m' j) = TNone) /\
  (forall j, (j < i)%nat -> X m' j = X m j).
Proof.
  induction n as [|n IH]; intros i m W Hl; cbn [flush_from].
  { split; auto; split; auto; split; auto; split; auto; lia. }
  pose proof (ctx_flush_spec m i W ltac:(lia)) as H. destruct (ctx_flush m i) as [m1 l1]. destruct H as (W1 & -> & L1 & T1 & X1).
  specialize (IH (S i) m1 W1 ltac:(lia)). destruct (flush_from m1 (S i) n) as [m2 l2].
  destruct IH as (W2 & -> & L2 & T2 & X2). split; auto. split.
  { cbn [seq flat_map]. f_equal. rewrite !flat_map_concat_map. f_equal. apply map_ext_in. intros j Hj. apply in_seq in Hj. rewrite X1 by lia. reflexivity. }
  split; [lia|]. split.
  - intros j Hj. destruct (Nat.eq_dec j i) as [->|]; [rewrite X2 by lia; exact T1|]. apply T2. lia.
  - intros j Hj. rewrite X2 by lia. apply X1. lia.
Qed.

Lemma mgr_flush_spec m : mwf m -> let '(m', l) := mgr_flush m in
  mwf m' /\ l = flat_map content (m_ctxs m) /\ m_map m' = [] /\
  (forall x, In x (m_ctxs m') -> x_task x = TNone) /\ flat_map content (m_ctxs m') = [].
Proof.
  intros W. unfold mgr_flush. pose proof (flush_from_spec (length (m_ctxs m)) 0 m W ltac:(lia)) as H.
  destruct (flush_from m 0 (length (m_ctxs m))) as [m' l]. destruct H as (W' & -> & L & T & _).
  assert (Hm : m_map m' = []).
  { destruct (m_map m') as [|[t i] l] eqn:E; auto. assert (Hin : In (t, i) (m_map m')) by (rewrite E; now left).
    destruct (wf_map m' W' _ _ Hin) as (T1 & _). destruct (T i) as (T2 & _); [|congruence].
    split; [lia|]. cbn. rewrite <- L. apply (wf_all m' W'). rewrite in_app_iff. left. eapply in_idx; eauto. }
  assert (Hall : forall x, In x (m_ctxs m') -> exists j, (j < length (m_ctxs m))%nat /\ x = X m' j).
  { intros x Hx. apply In_nth with (d := ctx_new) in Hx. destruct Hx as (j & Hj & <-). exists j. split; [lia|reflexivity]. }
  split; auto. split; [|split; [auto|split]].
  - rewrite <- (map_nth_seq ctx_new (m_ctxs m)) at 2. rewrite (flat_map_concat_map content), map_map, <- flat_map_concat_map. reflexivity.
  - intros x Hx. destruct (Hall x Hx) as (j & Hj & ->). apply T. lia.
  - assert (Hc : forall x, In x (m_ctxs m') -> content x = []).
    { intros x Hx. destruct (Hall x Hx) as (j & Hj & ->).
      assert (Hin : In j (idx m' ++ m_idle m')) by (apply (wf_all m' W'); lia). unfold idx in Hin. rewrite Hm in Hin.
      destruct (wf_idle m' W' j Hin) as (_ & E1 & E2 & E3). unfold content. rewrite E1, E2. reflexivity. }
    clear - Hc. induction (m_ctxs m') as [|x l IH]; cbn; auto. rewrite Hc by now left. cbn. apply IH. intros. apply Hc. now right.
Qed.

(** ** the operations of the manager, tag by tag *)
Definition no_crash m : Prop := forall x, In x (m_ctxs m) -> x_task x <> TCrash.

Lemma in_set_nth {A} i (x y : A) l : In y (set_nth i x l) -> y = x \/ In y l.
Proof. revert i. induction l as [|z l IH]; intros [|i]; cbn; intuition auto. apply IH in H0. intuition. Qed.

Definition add_cmd x c : ctx := {| x_tag := x_tag x; x_cmdq := x_cmdq x ++ [c]; x_cur := x_cur x; x_respq := x_respq x; x_task := x_task x |}.
Definition add_resp x r : ctx := {| x_tag := x_tag x; x_cmdq := x_cmdq x; x_cur := x_cur x; x_respq := x_respq x ++ [r]; x_task := x_task x |}.

Lemma slot_ctx m t i : mwf m -> In (t, i) (m_map m) -> slot m t = X m i.
Proof. intros W H. unfold slot. now rewrite (lookup_nodup t _ i (wf_keys m W) H). Qed.

Lemma content_same x y : same x y -> content x = content y.
Proof. intros (H1 & H2 & _). unfold content. now rewrite H1, H2. Qed.

Lemma start_cmd_spec m t c : mwf m ->
  mwf (start_cmd m t c) /\
  (forall u, same (slot (start_cmd m t c) u) (if u =? t then add_cmd (slot m t) c else slot m u)) /\
  (no_crash m -> no_crash (start_cmd m t c)) /\
  Permutation (flat_map content (m_ctxs (start_cmd m t c))) (fst c :: flat_map content (m_ctxs m)).
Proof.
  intros W. unfold start_cmd. pose proof (get_ctx_spec m t W) as H. destruct (get_ctx m t) as [m1 i].
  destruct H as (W1 & In1 & L1 & S1 & C1 & P1). fold (X m1 i). destruct (wf_map m1 W1 _ _ In1) as (T1 & T2 & T3).
  set (x' := {| x_tag := _ |}).
  destruct (mgr_set_spec m1 t i x' W1 In1) as (W2 & _ & _ & S2 & Hi); auto.
  split; auto. split; [|split].
  - intros u. rewrite S2. destruct (Z.eqb_spec u t) as [->|]; auto.
    specialize (S1 t). rewrite (slot_ctx m1 t i W1 In1) in S1. destruct S1 as (A1 & A2 & A3).
    unfold same, add_cmd, x'. cbn. now rewrite A1, A2, A3.
  - intros Hc x Hx He. cbn [mgr_set m_ctxs] in Hx. apply in_set_nth in Hx. destruct Hx as [->|Hx].
    + cbn in He. destruct (C1 (X m1 i)) as (y & Hy & Hy2); auto; [now apply nth_In|]. eapply Hc; eauto.
    + destruct (C1 x) as (y & Hy & Hy2); auto. eapply Hc; eauto.
  - cbn [mgr_set m_ctxs]. pose proof (flat_map_set_nth content i x' ctx_new (m_ctxs m1) Hi) as HP.
    fold (X m1 i) in HP. specialize (P1 C content content_same eq_refl). rewrite P1 in HP.
    assert (Hx : content x' = content (X m1 i) ++ [fst c]).
    { unfold content, x'. cbn. rewrite map_app. cbn. now rewrite app_assoc. }
    rewrite Hx, <- app_assoc in HP. apply Permutation_app_inv_l in HP. exact HP.
Qed.

Lemma put_resp_spec m t r : mwf m ->
  mwf (put_resp m t r) /\
  (forall u, same (slot (put_resp m t r) u) (if u =? t then add_resp (slot m t) r else slot m u)) /\
  (no_crash m -> no_crash (put_resp m t r)) /\
  Permutation (flat_map content (m_ctxs (put_resp m t r))) (flat_map content (m_ctxs m)).
Proof.
  intros W. unfold put_resp. pose proof (get_ctx_spec m t W) as H. destruct (get_ctx m t) as [m1 i].
  destruct H as (W1 & In1 & L1 & S1 & C1 & P1). fold (X m1 i). destruct (wf_map m1 W1 _ _ In1) as (T1 & T2 & T3).
  set (x' := {| x_tag := _ |}).
  destruct (mgr_set_spec m1 t i x' W1 In1) as (W2 & _ & _ & S2 & Hi); auto.
  split; auto. split; [|split].
  - intros u. rewrite S2. destruct (Z.eqb_spec u t) as [->|]; auto.
    specialize (S1 t). rewrite (slot_ctx m1 t i W1 In1) in S1. destruct S1 as (A1 & A2 & A3).
    unfold same, add_resp, x'. cbn. now rewrite A1, A2, A3.
  - intros Hc x Hx He. cbn [mgr_set m_ctxs] in Hx. apply in_set_nth in Hx. destruct Hx as [->|Hx].
    + cbn in He. destruct (C1 (X m1 i)) as (y & Hy & Hy2); auto; [now apply nth_In|]. eapply Hc; eauto.
    + destruct (C1 x) as (y & Hy & Hy2); auto. eapply Hc; eauto.
  - cbn [mgr_set m_ctxs]. pose proof (flat_map_set_nth content i x' ctx_new (m_ctxs m1) Hi) as HP.
    fold (X m1 i) in HP. specialize (P1 C content content_same eq_refl). rewrite P1 in HP.
    assert (Hx : content x' = content (X m1 i)) by reflexivity.
    rewrite Hx in HP. apply Permutation_app_inv_l in HP. exact HP.
Qed.

(** a context whose task runs belongs to a tag, if it has something to do *)
Lemma busy_mapped m i x : mwf m -> nth_error (m_ctxs m) i = Some x -> ~ empty x ->
  exists t, In (t, i) (m_map m) /\ x = X m i /\ slot m t = x /\ x_tag x = Some t.
Proof.
  intros W Hn He. assert (Hx : X m i = x) by (unfold X; now apply nth_error_nth).
  assert (Hi : (i < length (m_ctxs m))%nat) by (apply nth_error_Some; congruence).
  pose proof (proj1 (wf_all m W i) Hi) as Hin. apply in_app_iff in Hin. destruct Hin as [Hin|Hin].
  - apply idx_in in Hin. destruct Hin as (t & Hin). exists t. split; auto. split; auto.
    rewrite (slot_ctx m t i W Hin), Hx. split; auto. rewrite <- Hx. apply (wf_map m W); auto.
  - exfalso. apply He. rewrite <- Hx. apply (wf_idle m W i Hin).
Qed.

(** the task of context i goes on; at the end of a command it may become idle *)
Definition upd m i x' (b : bool) : mgr :=
  let m1 := mgr_set m i x' in
  if b then match x_cmdq x', x_respq x' with [], [] => set_idle m1 i | _, _ => m1 end else m1.

Lemma upd_spec m t i x' b : mwf m -> In (t, i) (m_map m) ->
  x_tag x' = Some t -> x_task x' <> TNone -> match x_cur x' with Some (_, bid, _) => bid = Some t | None => b = true end ->
  (b = true -> x_cur x' = None) ->
  mwf (upd m i x' b) /\
  (forall u, same (slot (upd m i x' b) u) (if u =? t then x' else slot m u)) /\
  (x_task x' <> TCrash -> no_crash m -> no_crash (upd m i x' b)) /\
  Permutation (content (X m i) ++ flat_map content (m_ctxs (upd m i x' b))) (content x' ++ flat_map content (m_ctxs m)).
Proof.
  intros W Hin H1 H2 H3 H4. unfold upd. cbv zeta.
  destruct (mgr_set_spec m t i x' W Hin) as (W1 & In1 & X1 & S1 & Hi); auto.
  { destruct (x_cur x') as [[[c bid] got]|]; auto. }
  assert (B : mwf (mgr_set m i x') /\
    (forall u, same (slot (mgr_set m i x') u) (if u =? t then x' else slot m u)) /\
    (x_task x' <> TCrash -> no_crash m -> no_crash (mgr_set m i x')) /\
    Permutation (content (X m i) ++ flat_map content (m_ctxs (mgr_set m i x'))) (content x' ++ flat_map content (m_ctxs m))).
  { split; auto. split; [|split].
    - intros u. rewrite S1. repeat split.
    - intros Hx Hc y Hy. cbn [mgr_set m_ctxs] in Hy. apply in_set_nth in Hy. destruct Hy as [->|Hy]; auto.
    - cbn [mgr_set m_ctxs]. apply (flat_map_set_nth content i x' ctx_new (m_ctxs m) Hi). }
  destruct b; auto. destruct (x_cmdq x') as [|c q] eqn:Eq; auto. destruct (x_respq x') as [|r rq] eqn:Er; auto.
  destruct B as (_ & B2 & B3 & B4). destruct (set_idle_spec _ t i W1 In1) as (W2 & S2 & C2 & P2).
  { rewrite X1. repeat split; auto. }
  split; auto. split; [|split].
  - intros u. destruct (S2 u) as (A1 & A2 & A3). destruct (B2 u) as (D1 & D2 & D3). unfold same. rewrite A1, A2, A3. auto.
  - intros Hx Hc y Hy Hcr. destruct (C2 y Hy Hcr) as (z & Hz & Hz2). exact (B3 Hx Hc z Hz Hz2).
  - specialize (P2 C content content_same). rewrite P2. exact B4.
Qed.
End P.
