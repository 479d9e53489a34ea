(** Context managers that differ only in the numbering of their contexts and in idle contexts kept from earlier (M_axieng.v) behave alike. *)
From Coq Require Import ZArith Lia List Bool Permutation.
From Coq Require Import ZifyBool ZifyNat.
From Verif Require Import Py M_liteeng M_axieng P_liteeng P_axitag.
Import ListNotations.
Open Scope Z_scope.

Section M.
Context {C R : Type}.
Notation ctx := (ctx C R). Notation mgr := (mgr C R).
Implicit Types (m : mgr) (x : ctx).

(** the context of a tag *)
Definition view m (t : Z) : option ctx := option_map (X m) (lookup t (m_map m)).
Definition quiet m : Prop := forall i, In i (m_idle m) -> x_task (X m i) <> TCrash.
Definition ctx_fresh (t : Z) : ctx := {| x_tag := Some t; x_cmdq := []; x_cur := None; x_respq := []; x_task := TRun |}.
Definition upv (v : Z -> option ctx) (t : Z) (o : option ctx) (u : Z) : option ctx := if u =? t then o else v u.
Definition of_tag (v : Z -> option ctx) (t : Z) : ctx := match v t with Some x => x | None => ctx_fresh t end.

(** a tag keeps its context until it has none, and then the context is idle *)
Definition keeps m m' : Prop := forall t i, lookup t (m_map m) = Some i -> lookup t (m_map m') = Some i \/ (lookup t (m_map m') = None /\ In i (m_idle m')).
Lemma keeps_refl m : keeps m m. Proof. intros t i H. now left. Qed.

Lemma map_lt m t i : mwf m -> In (t, i) (m_map m) -> (i < length (m_ctxs m))%nat.
Proof. intros W H. apply (wf_all m W). rewrite in_app_iff. left. eapply in_idx; eauto. Qed.
Lemma map_not_idle m t i : mwf m -> In (t, i) (m_map m) -> ~ In i (m_idle m).
Proof. intros W H H1. pose proof (wf_idx m W) as Hn. apply NoDup_app_inv' in Hn. destruct Hn as (_ & _ & Hn). apply (Hn i); auto. eapply in_idx; eauto. Qed.

Lemma get_ctx_view m t : mwf m -> quiet m -> let '(m', i) := get_ctx m t in
  mwf m' /\ quiet m' /\ keeps m m' /\ In (t, i) (m_map m') /\ X m' i = of_tag (view m) t /\ (forall u, view m' u = upv (view m) t (Some (of_tag (view m) t)) u).
Proof.
  intros W Q. pose proof (get_ctx_spec m t W) as G. unfold get_ctx in *. destruct (lookup t (m_map m)) as [i|] eqn:El.
  { destruct G as (_ & G & _). split; auto. split; auto. split; [apply keeps_refl|]. split; auto.
    assert (E : of_tag (view m) t = X m i) by (unfold of_tag, view; now rewrite El). split; [now rewrite E|].
    intros u. unfold upv. destruct (Z.eqb_spec u t) as [->|]; auto. rewrite E. unfold view. now rewrite El. }
  assert (Ef : of_tag (view m) t = ctx_fresh t) by (unfold of_tag, view; now rewrite El). rewrite Ef. clear Ef.
  destruct (m_idle m) as [|i idle] eqn:Ei.
  - destruct G as (W' & G & _). set (n := length (m_ctxs m)) in *. set (m' := {| m_ctxs := _ |}) in *.
    assert (HX : forall j, X m' j = if Nat.eqb j n then ctx_fresh t else X m j).
    { intros j. unfold X. cbn [m' m_ctxs]. rewrite nth_set_nth by (rewrite app_length; cbn; lia). destruct (Nat.eqb_spec j n) as [->|Hn].
      - rewrite app_nth2 by lia. subst n. rewrite Nat.sub_diag. reflexivity.
      - destruct (Nat.lt_ge_cases j n); [now rewrite app_nth1 by lia|]. rewrite (nth_overflow (m_ctxs m)) by lia. rewrite nth_overflow; auto. rewrite app_length. cbn. lia. }
    split; auto. split; [intros j []|]. split.
    { intros u j Hu. left. cbn [m' m_map lookup]. destruct (Z.eqb_spec t u) as [->|]; [congruence|auto]. }
    split; auto. split; [rewrite HX, Nat.eqb_refl; reflexivity|].
    intros u. unfold upv, view. cbn [m' m_map lookup]. fold m'. rewrite Z.eqb_sym. destruct (Z.eqb_spec u t) as [->|]; [cbn [option_map]; now rewrite HX, Nat.eqb_refl|].
    destruct (lookup u (m_map m)) as [j|] eqn:Ej; [|reflexivity]. cbn [option_map]. rewrite HX. apply lookup_in in Ej. pose proof (map_lt m u j W Ej). destruct (Nat.eqb_spec j n); [lia|reflexivity].
  - destruct G as (W' & G & _). set (m' := {| m_ctxs := _ |}) in *.
    assert (Hi : In i (m_idle m)) by (rewrite Ei; now left).
    assert (Hl : (i < length (m_ctxs m))%nat) by (apply (wf_all m W); rewrite in_app_iff; auto).
    destruct (wf_idle m W i Hi) as (_ & (I1 & I2 & I3)). pose proof (Q i Hi) as I4.
    assert (HX : forall j, X m' j = if Nat.eqb j i then ctx_fresh t else X m j).
    { intros j. unfold X in *. cbn [m' m_ctxs]. rewrite nth_set_nth by auto. destruct (Nat.eqb_spec j i) as [->|Hn]; [|reflexivity].
      unfold ctx_tag, ctx_start, ctx_fresh. cbn [x_tag x_cmdq x_cur x_respq x_task]. rewrite I1, I2, I3. f_equal. destruct (x_task (nth i (m_ctxs m) ctx_new)); congruence. }
    split; auto. split.
    { intros j Hj. rewrite HX. destruct (Nat.eqb_spec j i); [discriminate|]. apply Q. rewrite Ei. now right. }
    split. { intros u j Hu. left. cbn [m' m_map lookup]. destruct (Z.eqb_spec t u) as [->|]; [congruence|auto]. }
    split; auto. split; [rewrite HX, Nat.eqb_refl; reflexivity|].
    intros u. unfold upv, view. cbn [m' m_map lookup]. fold m'. rewrite Z.eqb_sym. destruct (Z.eqb_spec u t) as [->|]; [cbn [option_map]; now rewrite HX, Nat.eqb_refl|].
    destruct (lookup u (m_map m)) as [j|] eqn:Ej; [|reflexivity]. cbn [option_map]. rewrite HX. apply lookup_in in Ej. destruct (Nat.eqb_spec j i) as [->|]; [|reflexivity].
    exfalso. exact (map_not_idle m u i W Ej Hi).
Qed.

Lemma mgr_set_view m t i x' : mwf m -> quiet m -> In (t, i) (m_map m) ->
  x_tag x' = Some t -> x_task x' <> TNone -> match x_cur x' with Some (_, bid, _) => bid = Some t | None => True end ->
  mwf (mgr_set m i x') /\ quiet (mgr_set m i x') /\ keeps m (mgr_set m i x') /\ (forall u, view (mgr_set m i x') u = upv (view m) t (Some x') u).
Proof.
  intros W Q Hin H1 H2 H3. destruct (mgr_set_spec m t i x' W Hin H1 H2 H3) as (W' & _ & _ & _ & Hi).
  assert (HX : forall j, X (mgr_set m i x') j = if Nat.eqb j i then x' else X m j) by (intros j; unfold X; cbn [mgr_set m_ctxs]; now rewrite nth_set_nth by auto).
  split; auto. split.
  { intros j Hj. rewrite HX. destruct (Nat.eqb_spec j i) as [->|]; [exfalso; exact (map_not_idle m t i W Hin Hj)|now apply Q]. }
  split; [intros u j Hu; now left|].
  intros u. unfold upv, view. cbn [mgr_set m_map]. fold (mgr_set m i x'). destruct (Z.eqb_spec u t) as [->|Hne].
  - rewrite (lookup_nodup t _ i (wf_keys m W) Hin). cbn [option_map]. now rewrite HX, Nat.eqb_refl.
  - destruct (lookup u (m_map m)) as [j|] eqn:Ej; [|reflexivity]. cbn [option_map]. rewrite HX. destruct (Nat.eqb_spec j i) as [->|]; [|reflexivity].
    apply lookup_in in Ej. exfalso. apply Hne. exact (map_inj m _ _ _ W Ej Hin).
Qed.

Lemma set_idle_view m t i : mwf m -> quiet m -> In (t, i) (m_map m) -> empty (X m i) -> x_task (X m i) <> TCrash ->
  mwf (set_idle m i) /\ quiet (set_idle m i) /\ keeps m (set_idle m i) /\ (forall u, view (set_idle m i) u = upv (view m) t None u).
Proof.
  intros W Q Hin He Hc. destruct (set_idle_spec m t i W Hin He) as (W' & _). destruct (wf_map m W _ _ Hin) as (T1 & T2 & T3).
  pose proof (lookup_nodup t _ i (wf_keys m W) Hin) as El. pose proof (map_lt m t i W Hin) as Hi.
  unfold set_idle in *. fold (X m i) in *. rewrite T1, El in *. unfold mgr_set in *. cbn [m_ctxs m_idle m_map] in *.
  set (m' := {| m_ctxs := _ |}) in *.
  assert (HX : forall j, X m' j = if Nat.eqb j i then ctx_tag (X m i) None else X m j) by (intros j; unfold X; cbn [m' m_ctxs]; now rewrite nth_set_nth by auto).
  split; auto. split.
  { intros j Hj. rewrite HX. destruct (Nat.eqb_spec j i) as [->|Hn]; [exact Hc|]. destruct Hj as [Hj|Hj]; [congruence|now apply Q]. }
  split.
  { intros u j Hu. cbn [m' m_map m_idle]. rewrite lookup_remove. destruct (Z.eqb_spec u t) as [->|]; [right|now left]. split; auto. left. congruence. }
  intros u. unfold upv, view. cbn [m' m_map]. fold m'. rewrite lookup_remove. destruct (Z.eqb_spec u t) as [->|Hne]; [reflexivity|].
  destruct (lookup u (m_map m)) as [j|] eqn:Ej; [|reflexivity]. cbn [option_map]. rewrite HX. destruct (Nat.eqb_spec j i) as [->|]; [|reflexivity].
  apply lookup_in in Ej. exfalso. apply Hne. exact (map_inj m _ _ _ W Ej Hin).
Qed.

Lemma upv_upv v t a b u : upv (upv v t a) t b u = upv v t b u.
Proof. unfold upv. destruct (u =? t); auto. Qed.
Lemma upv_ext v w t a u : (forall u, v u = w u) -> upv v t a u = upv w t a u.
Proof. intros H. unfold upv. destruct (u =? t); auto. Qed.
Lemma keeps_set m1 m2 : keeps m1 m2 -> forall m3, m_map m3 = m_map m2 -> m_idle m3 = m_idle m2 -> keeps m1 m3.
Proof. intros H m3 E1 E2 t i Hi. rewrite E1, E2. now apply H. Qed.

Lemma of_tag_wf m t : mwf m -> x_tag (of_tag (view m) t) = Some t /\ x_task (of_tag (view m) t) <> TNone /\
  match x_cur (of_tag (view m) t) with Some (_, bid, _) => bid = Some t | None => True end.
Proof.
  intros W. unfold of_tag, view. destruct (lookup t (m_map m)) as [i|] eqn:E; cbn; [apply lookup_in in E; exact (wf_map m W t i E)|]. repeat split. discriminate.
Qed.

Lemma start_cmd_view m t c : mwf m -> quiet m ->
  mwf (start_cmd m t c) /\ quiet (start_cmd m t c) /\ keeps m (start_cmd m t c) /\ (forall u, view (start_cmd m t c) u = upv (view m) t (Some (add_cmd (of_tag (view m) t) c)) u).
Proof.
  intros W Q. unfold start_cmd. pose proof (get_ctx_view m t W Q) as H. destruct (get_ctx m t) as [m1 i]. destruct H as (W1 & Q1 & K1 & In1 & X1 & V1).
  fold (X m1 i). rewrite X1. destruct (of_tag_wf m t W) as (T1 & T2 & T3).
  destruct (mgr_set_view m1 t i (add_cmd (of_tag (view m) t) c) W1 Q1 In1) as (W2 & Q2 & _ & V2); auto.
  split; [exact W2|]. split; [exact Q2|]. split; [eapply keeps_set; eauto; reflexivity|]. intros u. etransitivity; [apply V2|]. erewrite upv_ext by exact V1. apply upv_upv.
Qed.
Lemma put_resp_view m t r : mwf m -> quiet m ->
  mwf (put_resp m t r) /\ quiet (put_resp m t r) /\ keeps m (put_resp m t r) /\ (forall u, view (put_resp m t r) u = upv (view m) t (Some (add_resp (of_tag (view m) t) r)) u).
Proof.
  intros W Q. unfold put_resp. pose proof (get_ctx_view m t W Q) as H. destruct (get_ctx m t) as [m1 i]. destruct H as (W1 & Q1 & K1 & In1 & X1 & V1).
  fold (X m1 i). rewrite X1. destruct (of_tag_wf m t W) as (T1 & T2 & T3).
  destruct (mgr_set_view m1 t i (add_resp (of_tag (view m) t) r) W1 Q1 In1) as (W2 & Q2 & _ & V2); auto.
  split; [exact W2|]. split; [exact Q2|]. split; [eapply keeps_set; eauto; reflexivity|]. intros u. etransitivity; [apply V2|]. erewrite upv_ext by exact V1. apply upv_upv.
Qed.

(** the same contexts for the same tags *)
Definition msim m1 m2 : Prop := mwf m1 /\ mwf m2 /\ quiet m1 /\ quiet m2 /\ forall t, view m1 t = view m2 t.
Lemma msim_refl m : mwf m -> quiet m -> msim m m. Proof. intros H1 H2. split; [|split; [|split; [|split]]]; auto. Qed.
Lemma upv_sim v w t o u : (forall t, v t = w t) -> upv v t o u = upv w t o u. Proof. apply upv_ext. Qed.
Lemma of_tag_sim v w t : (forall t, v t = w t) -> of_tag v t = of_tag w t. Proof. intros H. unfold of_tag. now rewrite H. Qed.
Lemma start_cmd_sim m1 m2 t c : msim m1 m2 -> msim (start_cmd m1 t c) (start_cmd m2 t c).
Proof.
  intros (W1 & W2 & Q1 & Q2 & V). destruct (start_cmd_view m1 t c W1 Q1) as (A1 & A2 & _ & A4), (start_cmd_view m2 t c W2 Q2) as (B1 & B2 & _ & B4).
  split; [|split; [|split; [|split]]]; auto. intros u. rewrite A4, B4, (of_tag_sim _ _ t V). now apply upv_ext.
Qed.
Lemma put_resp_sim m1 m2 t c : msim m1 m2 -> msim (put_resp m1 t c) (put_resp m2 t c).
Proof.
  intros (W1 & W2 & Q1 & Q2 & V). destruct (put_resp_view m1 t c W1 Q1) as (A1 & A2 & _ & A4), (put_resp_view m2 t c W2 Q2) as (B1 & B2 & _ & B4).
  split; [|split; [|split; [|split]]]; auto. intros u. rewrite A4, B4, (of_tag_sim _ _ t V). now apply upv_ext.
Qed.

(** the task of the context of a tag goes on *)
Lemma upd_view m t i x' b : mwf m -> quiet m -> In (t, i) (m_map m) ->
  x_tag x' = Some t -> x_task x' <> TNone -> (b = true -> x_cur x' = None /\ x_task x' <> TCrash) ->
  match x_cur x' with Some (_, bid, _) => bid = Some t | None => True end ->
  mwf (upd m i x' b) /\ quiet (upd m i x' b) /\ keeps m (upd m i x' b) /\
  (forall u, view (upd m i x' b) u = upv (view m) t (if b then match x_cmdq x', x_respq x' with [], [] => None | _, _ => Some x' end else Some x') u).
Proof.
  intros W Q Hin H1 H2 H3 H4. unfold upd. cbv zeta. destruct (mgr_set_view m t i x' W Q Hin H1 H2 H4) as (W1 & Q1 & K1 & V1).
  destruct b; auto. destruct (x_cmdq x') eqn:E1; auto. destruct (x_respq x') eqn:E2; auto. destruct (H3 eq_refl) as [H5 H6].
  assert (Hx : X (mgr_set m i x') i = x') by (unfold X; cbn [mgr_set m_ctxs]; rewrite nth_set_nth by (eapply map_lt; eauto); now rewrite Nat.eqb_refl).
  destruct (set_idle_view (mgr_set m i x') t i W1 Q1) as (W2 & Q2 & K2 & V2); auto; rewrite ?Hx; auto; [split; auto|].
  split; auto. split; auto. split; [exact K2|]. intros u. rewrite V2. erewrite upv_ext by exact V1. apply upv_upv.
Qed.

(** the context of m2 with the tag of context i of m1 *)
Definition tr_idx m1 m2 (i : nat) : list nat :=
  match nth_error (m_ctxs m1) i with
  | Some x => match x_tag x with Some t => opt_list (fun j => j) (lookup t (m_map m2)) | None => [] end
  | None => []
  end.
Definition mapped m (i : nat) : bool := existsb (fun p => Nat.eqb (snd p) i) (m_map m).
Lemma mapped_in m i : mapped m i = true <-> exists t, In (t, i) (m_map m).
Proof.
  unfold mapped. rewrite existsb_exists. split.
  - intros ([t j] & H & E). apply Nat.eqb_eq in E. cbn in E. subst. eauto.
  - intros (t & H). exists (t, i). split; auto. apply Nat.eqb_refl.
Qed.
Lemma unmapped_idle m i x : mwf m -> mapped m i = false -> nth_error (m_ctxs m) i = Some x -> In i (m_idle m) /\ x = X m i /\ x_tag x = None /\ empty x.
Proof.
  intros W Hm Hn. assert (Hx : X m i = x) by (unfold X; now apply nth_error_nth). assert (Hi : (i < length (m_ctxs m))%nat) by (apply nth_error_Some; congruence).
  pose proof (proj1 (wf_all m W i) Hi) as Hin. apply in_app_iff in Hin. destruct Hin as [Hin|Hin].
  - apply idx_in in Hin. apply mapped_in in Hin. congruence.
  - split; auto. split; auto. rewrite <- Hx. now apply (wf_idle m W).
Qed.
Lemma tr_unmapped m1 m2 i : mwf m1 -> mapped m1 i = false -> tr_idx m1 m2 i = [].
Proof.
  intros W H. unfold tr_idx. destruct (nth_error (m_ctxs m1) i) as [x|] eqn:E; [|reflexivity]. destruct (unmapped_idle m1 i x W H E) as (_ & _ & -> & _). reflexivity.
Qed.
Lemma view_some m t x : view m t = Some x -> exists i, In (t, i) (m_map m) /\ X m i = x.
Proof. unfold view. destruct (lookup t (m_map m)) as [i|] eqn:E; [|discriminate]. cbn. intros H. injection H as <-. exists i. split; auto. now apply lookup_in. Qed.
Lemma in_view m t i : mwf m -> In (t, i) (m_map m) -> view m t = Some (X m i).
Proof. intros W H. unfold view. now rewrite (lookup_nodup t _ i (wf_keys m W) H). Qed.
Lemma in_nth m t i : mwf m -> In (t, i) (m_map m) -> nth_error (m_ctxs m) i = Some (X m i).
Proof. intros W H. apply nth_error_nth'. eapply map_lt; eauto. Qed.
Lemma tr_mapped m1 m2 t i : msim m1 m2 -> In (t, i) (m_map m1) -> exists j, In (t, j) (m_map m2) /\ X m2 j = X m1 i /\ tr_idx m1 m2 i = [j].
Proof.
  intros (W1 & W2 & _ & _ & V) Hin. pose proof (in_view m1 t i W1 Hin) as E. rewrite V in E. destruct (view_some _ _ _ E) as (j & Hj & Ej). exists j. split; auto. split; auto.
  unfold tr_idx. rewrite (in_nth m1 t i W1 Hin). destruct (wf_map m1 W1 _ _ Hin) as (-> & _). rewrite (lookup_nodup t _ j (wf_keys m2 W2) Hj). reflexivity.
Qed.
End M.
