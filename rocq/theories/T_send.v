(** Blocking send() with concurrent callers and a queue limit (C68). *)
From Coq Require Import ZArith Lia List Bool Permutation.
From Coq Require Import ZifyBool ZifyNat.
From Verif Require Import Py M_stream S_stream P_stream P_streamlive M_axisframe M_axis S_axis S_axisrun P_axisframe P_axis P_axischan P_axislive M_send S_send P_send T_axis.
Import ListNotations.
Open Scope Z_scope.

(** ** StreamSource *)
(** all items are sent with send(); the limit stays what it was at first *)
Definition by_send {A} (o : bop A (sop A)) : Prop := match o with BOp (SSend _) => False | _ => True end.
Definition same_limit {A} (o : bop A (sop A)) : Prop := match o with BOp (SLimit _) => False | _ => True end.
Definition limited {A} (n : Z) : src A := src_step true src_init (SLimit n).
Definition srun {A} (hr : bool) (n : Z) (l : list (bop A (sop A))) : bsnd (src A) A := fold_left (ssend_step hr) l (bsnd_init (limited n)).
Definition sops {A} (hr : bool) (n : Z) (l : list (bop A (sop A))) : list (sop A) :=
  b_emits src_full SSend (src_step hr) (src_wakes hr) (bsnd_init (limited n)) l.

Lemma src_trace_state {A} hr ops : forall s : src A, snd (src_trace hr s ops) = fold_left (src_step hr) ops s.
Proof. induction ops as [|o ops IH]; intros s; cbn [src_trace fold_left]; [reflexivity|]. specialize (IH (src_step hr s o)). destruct (src_trace hr (src_step hr s o) ops) as [[a b] c]. exact IH. Qed.
Lemma src_trace_app {A} hr o1 : forall (s : src A) o2, fst (fst (src_trace hr s (o1 ++ o2))) = fst (fst (src_trace hr s o1)) ++ fst (fst (src_trace hr (fold_left (src_step hr) o1 s) o2)).
Proof.
  induction o1 as [|o o1 IH]; intros s o2; cbn [app src_trace fold_left]; [reflexivity|]. specialize (IH (src_step hr s o) o2).
  destruct (src_trace hr (src_step hr s o) (o1 ++ o2)) as [[a b] c]. destruct (src_trace hr (src_step hr s o) o1) as [[a' b'] c']. cbn [fst] in *. rewrite IH. now rewrite app_assoc.
Qed.

Lemma ssent {A} hr l : forall x : bsnd (src A) A, Forall by_send l ->
  b_put (fold_left (ssend_step hr) l x) = b_put x ++ fst (fst (src_trace hr (b_s x) (b_emits src_full SSend (src_step hr) (src_wakes hr) x l))).
Proof.
  induction l as [|o l IH]; intros x Hl; cbn [fold_left b_emits]; [cbn; now rewrite app_nil_r|]. inversion Hl as [|? ? Ho Hl']; subst.
  rewrite IH, src_trace_app by exact Hl'. rewrite app_assoc. f_equal.
  2: { f_equal. f_equal. unfold ssend_step. now rewrite b_emit_s. }
  unfold ssend_step. destruct o as [p|i|o]; cbn [bstep b_emit]; unfold b_try.
  - destruct (src_full (b_s x)) eqn:E; cbn; [now rewrite app_nil_r|]. now rewrite E.
  - destruct (nth_error (b_run x) i); [|cbn; now rewrite app_nil_r]. destruct (src_full (b_s x)) eqn:E; cbn; [now rewrite app_nil_r|]. now rewrite E.
  - destruct (src_wakes hr (b_s x) o); cbn; destruct o; try contradiction; now rewrite app_nil_r.
Qed.

(** The calls of send() put their items exactly once: what the source was given is what the finished
    calls put, every other call is woken or waits.  Everything about sources (C37, C38, C42) then holds of
    [sops]. *)
Theorem C68_stream_exactly_once : forall A hr n (l : list (bop A (sop A))), Forall by_send l ->
  let x := srun hr n l in let '(sent, accepted, s) := src_trace hr (limited n) (sops hr n l) in
  s = b_s x /\ sent = b_put x /\ Permutation (calls l) (b_put x ++ b_run x ++ b_wait x).
Proof.
  intros A hr n l Hl. cbv zeta. pose proof (src_trace_state hr (sops hr n l) (limited n)) as E1.
  pose proof (ssent hr l (bsnd_init (limited n)) Hl) as E2. unfold sops in *. cbn [bsnd_init b_s b_put app] in E2.
  destruct (src_trace _ _ _) as [[sent acc] s]. cbn [fst snd] in *. split; [|split].
  - rewrite E1. unfold srun, ssend_step. now rewrite b_emits_s.
  - now rewrite <- E2.
  - symmetry. exact (b_held_run src_full SSend (src_step hr) (src_wakes hr) l (bsnd_init (limited n))).
Qed.
Print Assumptions C68_stream_exactly_once.

Lemma src_q_edge {A} hr (s : src A) r : s_limit (src_edge hr s r) = s_limit s /\ s_pause (src_edge hr s r) = s_pause s /\ (s_q (src_edge hr s r) = s_q s \/ exists x, s_q s = x :: s_q (src_edge hr s r)).
Proof.
  unfold src_edge. destruct (s_task s); auto. destruct (_ || _); auto. destruct (s_q s) as [|x q] eqn:E; cbn; auto.
  destruct (s_pause s) eqn:Ep; cbn; auto. repeat split; auto. right. eauto.
Qed.
Lemma sfull_stay {A} hr (s : src A) o : (forall m, o <> SLimit m) -> src_wakes hr s o = false -> src_full s = true -> src_full (src_step hr s o) = true.
Proof.
  intros Hn Hw Hf. destruct o as [x|b|n| |[|]|r]; cbn [src_step src_wakes] in *; try exact Hf; try discriminate.
  - now rewrite Hf.
  - exfalso. now apply (Hn n).
  - destruct (src_q_edge hr s r) as (E1 & _ & [E2|[x E2]]).
    + unfold src_full. now rewrite E1, E2.
    + rewrite E2 in Hw. apply Nat.ltb_ge in Hw. cbn in Hw. lia.
Qed.

Lemma srun_Wt {A} hr n (l : list (bop A (sop A))) : Forall same_limit l -> Wt src_full (srun hr n l).
Proof.
  intros Hl. unfold srun, ssend_step. apply (Wt_run src_full SSend (src_step hr) (src_wakes hr) (fun o => forall m, o <> SLimit m)).
  - intros s o. apply sfull_stay.
  - eapply Forall_impl; [|exact Hl]. intros [p|i|[]]; cbn; auto; try discriminate; try contradiction.
  - unfold Wt. cbn. congruence.
Qed.
Lemma srun_limit {A} hr n (l : list (bop A (sop A))) : Forall same_limit l -> s_limit (b_s (srun hr n l)) = n.
Proof.
  intros Hl. unfold srun. assert (E : s_limit (b_s (bsnd_init (limited n : src A) : bsnd (src A) A)) = n) by reflexivity. revert E. generalize (bsnd_init (limited n : src A) : bsnd (src A) A).
  induction Hl as [|o l Ho Hl IH]; intros x E; cbn [fold_left]; [exact E|]. apply IH. unfold ssend_step.
  assert (Es : forall p, s_limit (src_step hr (b_s x) (SSend p)) = s_limit (b_s x)) by (intros p; cbn; destruct (src_full _); reflexivity).
  destruct o as [p|i|o]; cbn [bstep]; unfold b_try.
  - destruct (src_full _); cbn [b_s]; rewrite ?Es; exact E.
  - destruct (nth_error _ _); [|exact E]. destruct (src_full _); cbn [b_s]; rewrite ?Es; exact E.
  - rewrite <- E. destruct (src_wakes _ _ _); cbn [b_s]; (destruct o as [q|b|m| |[|]|r]; [apply Es|reflexivity|contradiction|reflexivity|reflexivity|reflexivity|apply src_q_edge]).
Qed.

(** The queue never holds more than the limit. *)
Theorem C68_stream_limit : forall A hr n (l : list (bop A (sop A))), Forall same_limit l -> 0 < n ->
  zlen (s_q (b_s (srun hr n l))) <= n.
Proof.
  intros A hr n l Hl Hn.
  assert (E0 : s_limit (b_s (bsnd_init (limited n : src A) : bsnd (src A) A)) = n /\ zlen (s_q (b_s (bsnd_init (limited n : src A) : bsnd (src A) A))) <= n) by (cbn; lia).
  unfold srun. enough (H : forall x : bsnd (src A) A, s_limit (b_s x) = n /\ zlen (s_q (b_s x)) <= n ->
    s_limit (b_s (fold_left (ssend_step hr) l x)) = n /\ zlen (s_q (b_s (fold_left (ssend_step hr) l x))) <= n) by (apply (H _ E0)).
  clear E0. induction Hl as [|o l Ho Hl IH]; intros x E; cbn [fold_left]; [exact E|]. apply IH. unfold ssend_step. destruct E as [E1 E2].
  assert (Es : forall p, s_limit (src_step hr (b_s x) (SSend p)) = n /\ zlen (s_q (src_step hr (b_s x) (SSend p))) <= n).
  { intros p. cbn [src_step]. destruct (src_full (b_s x)) eqn:Ef; [auto|]. cbn. split; [exact E1|]. unfold src_full, st_full in Ef. rewrite E1 in Ef. rewrite zlen_app. change (zlen [p]) with 1. lia. }
  destruct o as [p|i|o]; cbn [bstep]; unfold b_try.
  - destruct (src_full _); cbn [b_s]; auto.
  - destruct (nth_error _ _); [|auto]. destruct (src_full _); cbn [b_s]; auto.
  - destruct (src_wakes _ _ _); cbn [b_s]; (destruct o as [q|b|m| |[|]|r]; [apply Es|cbn; auto|contradiction|cbn; split; [exact E1|lia]|cbn; auto|cbn; auto|]);
    cbn [src_step]; destruct (src_q_edge hr (b_s x) r) as (-> & _ & [->|[y Ey]]); auto; rewrite Ey, zlen_cons in E2; split; auto; lia.
Qed.
Print Assumptions C68_stream_limit.

(** No wake-up is lost: a call waits only while the queue is full (so that there is an item to be taken off it),
    and whatever takes one off wakes every call that waits. *)
Theorem C68_stream_no_lost_wakeup : forall A hr n (l : list (bop A (sop A))) o, Forall same_limit (l ++ [o]) ->
  let x := srun hr n l in let x' := srun hr n (l ++ [o]) in
  (b_wait x <> [] -> 0 < n <= zlen (s_q (b_s x))) /\
  (zlen (s_q (b_s x')) < zlen (s_q (b_s x)) -> b_wait x' = []).
Proof.
  intros A hr n l o Hlo. apply Forall_app in Hlo as [Hl Ho]. cbv zeta. pose proof (srun_Wt hr n l Hl) as Hw. pose proof (srun_limit hr n l Hl) as E.
  split.
  - intros Hn. specialize (Hw Hn). unfold src_full, st_full in Hw. rewrite E in Hw. lia.
  - unfold srun. rewrite fold_left_app. cbn [fold_left]. fold (srun hr n l). clear Hw E. generalize (srun hr n l). intros x. unfold ssend_step.
    assert (Es : forall p, zlen (s_q (b_s x)) <= zlen (s_q (src_step hr (b_s x) (SSend p)))).
    { intros p. cbn. destruct (src_full _); cbn; [lia|]. rewrite zlen_app. change (zlen [p]) with 1. lia. }
    inversion Ho as [|? ? Ho1 _]; subst. destruct o as [p|i|o]; cbn [bstep]; unfold b_try.
    + specialize (Es p). destruct (src_full _); cbn [b_s b_wait]; lia.
    + destruct (nth_error _ _) as [p|]; [|lia]. specialize (Es p). destruct (src_full _); cbn [b_s b_wait]; lia.
    + destruct (src_wakes hr (b_s x) o) eqn:Ew; cbn [b_s b_wait]; [reflexivity|]. intros Hlt. exfalso.
      destruct o as [q|b|m| |[|]|r]; cbn [same_limit src_wakes] in *; try contradiction; try discriminate; try (cbn in Hlt; lia).
      * specialize (Es q). lia.
      * cbn [src_step] in Hlt. apply Nat.ltb_ge in Ew. unfold zlen in Hlt. lia.
Qed.
Print Assumptions C68_stream_no_lost_wakeup.

(** Any history (calls, pauses, resets, clears) with any number of calls waiting.  If then the source runs unpaused, the
    other side is ready at a clock edge again and again and woken calls run again and again, all calls
    complete and the queue is drained; without clears and resets every item was accepted in the order of the puts. *)
Definition s_undisturbed {A} (o : bop A (sop A)) : Prop := match o with BOp SClear | BOp (SReset true) => False | _ => True end.

Lemma srun_sleep {A} hr n (l : list (bop A (sop A))) : src_sleep_ok (b_s (srun hr n l)).
Proof.
  unfold srun, ssend_step. rewrite b_emits_s. assert (E : src_sleep_ok (b_s (bsnd_init (limited n : src A) : bsnd (src A) A))) by (intros H; discriminate).
  revert E. generalize (b_s (bsnd_init (limited n : src A) : bsnd (src A) A)). generalize (b_emits src_full SSend (src_step hr) (src_wakes hr) (bsnd_init (limited n)) l).
  intros ops. induction ops as [|o ops IH]; intros s E; [exact E|]. cbn [fold_left]. apply IH. now apply src_sleep_step.
Qed.

Definition smu {A} (s : src A) : nat := match s_task s with TSleep => 0 | _ => S (2 * length (s_q s) + if s_valid s then 1 else 0) end.
Definition sbusy {A} (s : src A) : bool := match s_task s with TSleep => false | _ => true end.
Definition sgo {A} (s : src A) : Prop := src_sleep_ok s /\ s_task s <> TDead /\ s_pause s = false.

Lemma s_complete A hr (x0 : bsnd (src A) A) sched : sgo (b_s x0) -> Wt src_full x0 ->
  bfair (fun o => exists r, o = SEdge r) (fun o => o = SEdge true) sched ->
  exists N, forall n, (N <= n)%nat -> let x := bat src_full SSend (src_step hr) (src_wakes hr) sched x0 n in
    b_run x = [] /\ b_wait x = [] /\ s_q (b_s x) = [] /\ s_valid (b_s x) = false.
Proof.
  intros H0 H1 Hf.
  destruct (senders_complete (P := A) src_full SSend (src_step hr) (src_wakes hr) sgo (fun _ : A => True) (fun o => exists r, o = SEdge r) (fun o => o = SEdge true) sbusy smu) with (sched := sched) (x0 := x0) as [N HN].
  - intros s p (E1 & E2 & E3) _ Ef. split; [now apply src_sleep_step|]. cbn. rewrite Ef. cbn. split; [destruct (s_task s); congruence|exact E3].
  - intros s o (E1 & E2 & E3) [r ->]. split; [now apply src_sleep_step|]. cbn [src_step]. destruct (src_q_edge hr s r) as (_ & -> & _). split; [|exact E3].
    unfold src_edge. destruct (s_task s) eqn:Et; try congruence. destruct (_ || _); [|congruence]. destruct (s_q s); [discriminate|]. destruct (negb _); discriminate.
  - intros s o _ [r ->] Hn. cbn [src_step]. destruct (src_q_edge hr s r) as (E1 & _ & [E2|[y E2]]); unfold src_full, st_full in *; rewrite E1; [now rewrite E2|].
    rewrite E2, zlen_cons in Hn. lia.
  - intros s o [r ->]. apply sfull_stay. discriminate.
  - intros s o (E1 & E2 & E3) [r ->]. cbn [src_step]. unfold src_edge, smu. destruct (s_task s) eqn:Et; rewrite ?Et; try congruence; try lia.
    destruct (_ || _) eqn:Eg; rewrite ?Et; [|lia]. destruct (s_q s); cbn; [lia|]. rewrite E3. cbn. destruct (s_valid s); lia.
  - intros s o (E1 & E2 & E3) _ -> Hb. cbn [src_step]. unfold src_edge, smu, sbusy in *. destruct (s_task s) eqn:Et; rewrite ?Et; try congruence.
    assert (Eg : (negb hr || true) && s_valid s || negb (s_valid s) = true) by (rewrite orb_true_r; destruct (s_valid s); reflexivity). rewrite Eg.
    destruct (s_q s); cbn; [lia|]. rewrite E3. cbn. destruct (s_valid s); lia.
  - intros s (E1 & E2 & E3) Hn. unfold sbusy. destruct (s_task s) eqn:Et; auto. destruct (E1 Et) as [E4 _]. unfold src_full, st_full in Hn. rewrite E4 in Hn. change (zlen (@nil A)) with 0 in Hn. lia.
  - intros s o _ [r ->] Hb. unfold sbusy in *. cbn [src_step]. unfold src_edge. destruct (s_task s) eqn:Et; try discriminate. now rewrite Et.
  - exact Hf.
  - split; [exact H0|]. split; [exact H1|]. apply Forall_forall. auto.
  - exists N. intros n Hn. cbv zeta. destruct (HN n Hn) as (E1 & E2 & E3 & (E4 & _)). split; [exact E1|]. split; [exact E2|]. apply E4.
    unfold sbusy in E3. destruct (s_task _); try discriminate; reflexivity.
Qed.

Theorem C68_stream_completes : forall A hr n (l : list (bop A (sop A))) sched, Forall by_send l -> Forall same_limit l ->
  s_task (b_s (srun hr n l)) <> TDead -> s_pause (b_s (srun hr n l)) = false ->
  bfair (fun o => exists r, o = SEdge r) (fun o => o = SEdge true) sched ->
  exists N, forall m, (N <= m)%nat -> let l' := l ++ map sched (seq 0 m) in let x := srun hr n l' in
    b_run x = [] /\ b_wait x = [] /\ s_q (b_s x) = [] /\ Permutation (calls l) (b_put x) /\
    (Forall s_undisturbed l -> let '(_, accepted, _) := src_trace hr (limited n) (sops hr n l') in accepted = b_put x).
Proof.
  intros A hr n l sched Hb Hl Ht Hp Hf.
  destruct (s_complete A hr (srun hr n l) sched) as [N HN]; [split; [apply srun_sleep|auto]|now apply srun_Wt|exact Hf|].
  exists N. intros m Hm. specialize (HN m Hm). cbv zeta in HN |- *.
  assert (Ex : srun hr n (l ++ map sched (seq 0 m)) = bat src_full SSend (src_step hr) (src_wakes hr) sched (srun hr n l) m).
  { unfold srun, bat. now rewrite fold_left_app. }
  rewrite <- Ex in HN. destruct HN as (E1 & E2 & E3 & E4). split; [exact E1|]. split; [exact E2|]. split; [exact E3|].
  assert (Hs : Forall by_send (map sched (seq 0 m)) /\ calls (map sched (seq 0 m)) = [] /\ Forall s_undisturbed (map sched (seq 0 m))).
  { destruct Hf as (Hf & _). clear - Hf. induction (seq 0 m) as [|k ks (IH1 & IH2 & IH3)]; [repeat split; constructor|]. specialize (Hf k). unfold calls in *. cbn [map flat_map].
    destruct (sched k) as [p|i|o]; [contradiction| |destruct Hf as [r ->]]; (repeat split; [constructor; [exact I|exact IH1]|exact IH2|constructor; [exact I|exact IH3]]). }
  destruct Hs as (Hs1 & Hs2 & Hs3).
  assert (Hb' : Forall by_send (l ++ map sched (seq 0 m))) by (apply Forall_app; auto).
  pose proof (C68_stream_exactly_once A hr n (l ++ map sched (seq 0 m)) Hb') as C. cbv zeta in C.
  destruct (src_trace hr (limited n) (sops hr n (l ++ map sched (seq 0 m)))) as [[sent acc] s] eqn:Etr. destruct C as (C1 & C2 & C3).
  rewrite E1, E2, !app_nil_r in C3. split; [unfold calls in *; now rewrite flat_map_app, Hs2, app_nil_r in C3|].
  intros Hu. pose proof (src_conserve hr (sops hr n (l ++ map sched (seq 0 m))) (limited n)) as K. rewrite Etr in K.
  destruct K as [_ K].
  - unfold sops. assert (Hu' : Forall s_undisturbed (l ++ map sched (seq 0 m))) by (apply Forall_app; auto). revert Hu'. generalize (bsnd_init (limited n : src A) : bsnd (src A) A). generalize (l ++ map sched (seq 0 m)). clear.
    intros l. induction l as [|o l IH]; intros x H; cbn [b_emits]; [constructor|]. inversion H as [|? ? Ho Hl]; subst. apply Forall_app. split; [|now apply IH].
    destruct o as [p|i|o]; cbn [b_emit].
    + destruct (src_full _); constructor; auto.
    + destruct (nth_error _ _); [|constructor]. destruct (src_full _); constructor; auto.
    + constructor; [|constructor]. destruct o as [| | | |[|]|]; try contradiction; reflexivity.
  - split; cbn; [discriminate|auto].
  - subst s. unfold on_wire in K. rewrite E3, E4 in K. cbn [limited src_step s_valid src_init s_q app] in K. rewrite !app_nil_r in K. rewrite <- C2, <- K. reflexivity.
Qed.
Print Assumptions C68_stream_completes.

Example C68_stream_nontrivial :
  let l := [BCall 1; BCall 2; BCall 3; BCall 4; BOp (SEdge false); BRun 1; BRun 0; BOp (SEdge true)] in
  let x := srun true 2 l in
  b_put x = [1; 2; 4] /\ b_run x = [3] /\ b_wait x = [] /\ s_q (b_s x) = [4] /\ s_data (b_s x) = Some 2.
Proof. vm_compute. repeat split. Qed.

(** ** AxiStreamSource *)
Definition aby_send (o : bop tframe aop) : Prop := match o with BOp (ASend _ _) => False | _ => True end.
Definition asame_limits (o : bop tframe aop) : Prop := match o with BOp (ALimits _ _) => False | _ => True end.
Definition aframes_ok (o : bop tframe aop) : Prop := match o with BCall p => frame_ok (snd p) | BOp (ASend _ f) => frame_ok f | _ => True end.
Definition aput (p : tframe) : aop := ASend (fst p) (snd p).
Definition asrun (c : scfg) (lb lf : Z) (l : list (bop tframe aop)) : bsnd asrc tframe := fold_left (asend_step c) l (bsnd_init (asrc_init lb lf)).
Definition asops (c : scfg) (lb lf : Z) (l : list (bop tframe aop)) : list aop :=
  b_emits asrc_full aput (asrc_step c) (asrc_wakes c) (bsnd_init (asrc_init lb lf)) l.

Lemma asrc_trace_state c ops : forall s, snd (asrc_trace c s ops) = fold_left (asrc_step c) ops s.
Proof. induction ops as [|o ops IH]; intros s; cbn [asrc_trace fold_left]; [reflexivity|]. specialize (IH (asrc_step c s o)). destruct (asrc_trace c (asrc_step c s o) ops) as [[a b] e]. exact IH. Qed.
Lemma asrc_trace_app c o1 : forall s o2, fst (fst (asrc_trace c s (o1 ++ o2))) = fst (fst (asrc_trace c s o1)) ++ fst (fst (asrc_trace c (fold_left (asrc_step c) o1 s) o2)).
Proof.
  induction o1 as [|o o1 IH]; intros s o2; cbn [app asrc_trace fold_left]; [reflexivity|]. specialize (IH (asrc_step c s o) o2).
  destruct (asrc_trace c (asrc_step c s o) (o1 ++ o2)) as [[a b] e]. destruct (asrc_trace c (asrc_step c s o) o1) as [[a' b'] e']. cbn [fst] in *. rewrite IH. now rewrite app_assoc.
Qed.

Lemma asent c l : forall x : bsnd asrc tframe, Forall aby_send l ->
  b_put (fold_left (asend_step c) l x) = b_put x ++ fst (fst (asrc_trace c (b_s x) (b_emits asrc_full aput (asrc_step c) (asrc_wakes c) x l))).
Proof.
  induction l as [|o l IH]; intros x Hl; cbn [fold_left b_emits]; [cbn; now rewrite app_nil_r|]. inversion Hl as [|? ? Ho Hl']; subst.
  rewrite IH, asrc_trace_app by exact Hl'. rewrite app_assoc. f_equal.
  2: { f_equal. f_equal. exact (f_equal (fun s => asrc_trace c s (b_emits asrc_full aput (asrc_step c) (asrc_wakes c) (asend_step c x o) l)) (b_emit_s asrc_full aput (asrc_step c) (asrc_wakes c) x o)). }
  unfold asend_step. destruct o as [p|i|o]; cbn [bstep b_emit]; unfold b_try.
  - destruct (asrc_full (b_s x)) eqn:E; cbn; [now rewrite app_nil_r|]. rewrite E. now destruct p.
  - destruct (nth_error (b_run x) i) as [p|]; [|cbn; now rewrite app_nil_r]. destruct (asrc_full (b_s x)) eqn:E; cbn; [now rewrite app_nil_r|]. rewrite E. now destruct p.
  - destruct (asrc_wakes c (b_s x) o); cbn; destruct o; try contradiction; now rewrite app_nil_r.
Qed.

Theorem C68_axis_exactly_once : forall c lb lf (l : list (bop tframe aop)), Forall aby_send l ->
  let x := asrun c lb lf l in let '(sent, accepted, s) := asrc_trace c (asrc_init lb lf) (asops c lb lf l) in
  s = b_s x /\ sent = b_put x /\ Permutation (calls l) (b_put x ++ b_run x ++ b_wait x).
Proof.
  intros c lb lf l Hl. cbv zeta. pose proof (asrc_trace_state c (asops c lb lf l) (asrc_init lb lf)) as E1.
  pose proof (asent c l (bsnd_init (asrc_init lb lf)) Hl) as E2. unfold asops in *. cbn [bsnd_init b_s b_put app] in E2.
  destruct (asrc_trace _ _ _) as [[sent acc] s]. cbn [fst snd] in *. split; [|split].
  - rewrite E1. symmetry. exact (b_emits_s asrc_full aput (asrc_step c) (asrc_wakes c) l (bsnd_init (asrc_init lb lf))).
  - now rewrite <- E2.
  - symmetry. exact (b_held_run asrc_full aput (asrc_step c) (asrc_wakes c) l (bsnd_init (asrc_init lb lf))).
Qed.
Print Assumptions C68_axis_exactly_once.

(** an edge leaves the queue as it is or takes one frame off *)
Lemma a_edge c s r : a_limb (asrc_edge c s r) = a_limb s /\ a_limf (asrc_edge c s r) = a_limf s /\
  ((a_q (asrc_edge c s r) = a_q s /\ a_occb (asrc_edge c s r) = a_occb s /\ a_occf (asrc_edge c s r) = a_occf s) \/
   exists t f, a_q s = (t, f) :: a_q (asrc_edge c s r) /\ a_occb (asrc_edge c s r) = a_occb s - zlen (f_data f) /\ a_occf (asrc_edge c s r) = a_occf s - 1).
Proof.
  unfold asrc_edge. destruct (a_task s); auto 10. destruct (_ || _); auto 10. unfold asrc_fetch.
  assert (Hd : forall s1, let s' := match a_cur s1 with
              | Some (t, f, fo) => if (0 <? zlen (f_data f)) && negb (a_pause s1) then asrc_drive c s1 t f fo else asrc_hold s1
              | None => asrc_hold s1 end in
            a_limb s' = a_limb s1 /\ a_limf s' = a_limf s1 /\ a_q s' = a_q s1 /\ a_occb s' = a_occb s1 /\ a_occf s' = a_occf s1).
  { intros s1. cbv zeta. destruct (a_cur s1) as [[[t f] fo]|]; [|cbn; auto 6]. destruct (_ && _); [|cbn; auto 6]. unfold asrc_drive. destruct (drive_beat c f fo) as [[b fo'] fin]. cbn. auto 6. }
  destruct (ftrue (a_cur s)).
  - destruct (Hd s) as (-> & -> & -> & -> & ->). auto 6.
  - destruct (a_q s) as [|[t f] q] eqn:Eq.
    + destruct (Hd s) as (-> & -> & -> & -> & ->). rewrite Eq. auto 6.
    + destruct (normalize f) as [g|e]; cbn [bind].
      * match goal with |- context [a_cur ?s1] => destruct (Hd s1) as (-> & -> & -> & -> & ->) end. cbn. split; auto. split; auto. right. exists t, f. auto.
      * cbn. rewrite Eq. split; auto. split; auto. right. exists t, f. auto.
Qed.

Lemma afull_stay c s o : (forall a b, o <> ALimits a b) -> asrc_wakes c s o = false -> asrc_full s = true -> asrc_full (asrc_step c s o) = true.
Proof.
  intros Hn Hw Hf. destruct o as [t f|b|lb lf| |[|]|r]; cbn [asrc_step asrc_wakes] in *; try exact Hf; try discriminate.
  - now rewrite Hf.
  - exfalso. now apply (Hn lb lf).
  - destruct (a_edge c s r) as (E1 & E2 & [(E3 & E4 & E5)|(t & f & E3 & _)]).
    + unfold asrc_full. now rewrite E1, E2, E4, E5.
    + rewrite E3 in Hw. apply Nat.ltb_ge in Hw. cbn in Hw. lia.
Qed.
Lemma asrun_Wt c lb lf l : Forall asame_limits l -> Wt asrc_full (asrun c lb lf l).
Proof.
  intros Hl. unfold asrun, asend_step. apply (Wt_run asrc_full aput (asrc_step c) (asrc_wakes c) (fun o => forall a b, o <> ALimits a b)).
  - intros s o. apply afull_stay.
  - eapply Forall_impl; [|exact Hl]. intros [p|i|[]]; cbn; auto; try discriminate; try contradiction.
  - unfold Wt. cbn. congruence.
Qed.
Lemma asrun_ind (Q : asrc -> Prop) c lb lf l (good : bop tframe aop -> Prop) : Forall good l -> Q (asrc_init lb lf) ->
  (forall s t f, Q s -> (exists i, good (BRun i) \/ good (BCall (t, f)) \/ good (BOp (ASend t f))) -> Q (asrc_step c s (ASend t f))) ->
  (forall s o, Q s -> good (BOp o) -> Q (asrc_step c s o)) -> Q (b_s (asrun c lb lf l)).
Proof.
  intros Hl H0 H1 H2. unfold asrun. change (asrc_init lb lf) with (b_s (bsnd_init (asrc_init lb lf) : bsnd asrc tframe)) in H0. revert H0. generalize (bsnd_init (asrc_init lb lf) : bsnd asrc tframe).
  induction Hl as [|o l Ho Hl IH]; intros x E; cbn [fold_left]; [exact E|]. apply IH. unfold asend_step. destruct o as [[t f]|i|o]; cbn [bstep]; unfold b_try.
  - destruct (asrc_full _); cbn [b_s fst snd]; [exact E|]. apply H1; [exact E|]. exists 0%nat. auto.
  - destruct (nth_error _ _) as [[t f]|]; [|exact E]. destruct (asrc_full _); cbn [b_s fst snd]; [exact E|]. apply H1; [exact E|]. eauto.
  - destruct (asrc_wakes _ _ _); cbn [b_s]; apply H2; assumption.
Qed.

(** The limits: at most one frame more than the limit of frames, and the byte limit is exceeded by no more
    than the last frame of the queue. *)
Definition abytes (q : list tframe) : Z := bytes_of (map snd q).
Theorem C68_axis_limit : forall c lb lf l, Forall asame_limits l ->
  let q := a_q (b_s (asrun c lb lf l)) in
  (0 < lf -> zlen q <= lf + 1) /\ (0 < lb -> forall q0 p, q = q0 ++ [p] -> abytes q0 <= lb).
Proof.
  intros c lb lf l Hl. cbv zeta.
  set (Q := fun s => a_limb s = lb /\ a_limf s = lf /\ src_counts s /\ (0 < lf -> zlen (a_q s) <= lf + 1) /\ (0 < lb -> forall q0 p, a_q s = q0 ++ [p] -> abytes q0 <= lb)).
  assert (Hnn : forall q, 0 <= abytes q).
  { unfold abytes. induction q as [|x q IHq]; cbn; [lia|]. pose proof (zlen_nonneg (f_data (snd x))). unfold bytes_of in IHq. lia. }
  assert (H1 : forall s t f, Q s -> Q (asrc_step c s (ASend t f))).
  { intros s t f (E1 & E2 & E3 & E4 & E5). unfold Q. pose proof (src_counts_step c s (ASend t f) E3) as E3'. cbn [asrc_step] in *.
    destruct (asrc_full s) eqn:Ef; [split; [exact E1|]; split; [exact E2|]; auto|].
    split; [exact E1|]. split; [exact E2|]. split; [exact E3'|]. cbn [a_q].
    unfold asrc_full, occ_full in Ef. rewrite E1, E2 in Ef. destruct E3 as [Ec1 Ec2]. rewrite Ec1, Ec2 in Ef. split.
    - intros Hp. rewrite zlen_app. change (zlen [(t, f)]) with 1. destruct ((0 <? lb) && _); [discriminate|]. destruct ((0 <? lf) && _) eqn:F; [discriminate|]. lia.
    - intros Hp q0 p E. apply app_inj_tail in E as [<- _]. unfold src_bytes in Ef. unfold abytes. destruct ((0 <? lb) && _) eqn:F; [discriminate|]. lia. }
  assert (HQ : Q (b_s (asrun c lb lf l))).
  { apply (asrun_ind Q c lb lf l asame_limits Hl).
    - split; [reflexivity|]. split; [reflexivity|]. split; [split; reflexivity|]. split; [intros; cbn; lia|]. intros _ q0 p E. cbn in E. destruct q0; discriminate.
    - intros s t f E _. now apply H1.
    - intros s o E Ho. destruct o as [t f|b|a a'| |[|]|r]; [now apply H1|exact E|contradiction| | |exact E|].
      + destruct E as (E1 & E2 & E3 & E4 & E5). split; [exact E1|]. split; [exact E2|]. split; [split; reflexivity|]. cbn. split; [lia|]. intros _ q0 p Ez. destruct q0; discriminate.
      + exact E.
      + destruct E as (E1 & E2 & E3 & E4 & E5). pose proof (src_counts_step c s (AEdge r) E3) as E3'. cbn [asrc_step] in *.
        destruct (a_edge c s r) as (F1 & F2 & F3). unfold Q. rewrite F1, F2. split; [exact E1|]. split; [exact E2|]. split; [exact E3'|].
        destruct F3 as [(-> & _)|(t & f & F3 & _)]; [auto|]. split.
        * intros Hp. specialize (E4 Hp). rewrite F3, zlen_cons in E4. lia.
        * intros Hp q0 p Ez. rewrite Ez in F3. specialize (E5 Hp ((t, f) :: q0) p F3). unfold abytes in E5. cbn in E5. pose proof (zlen_nonneg (f_data f)). unfold abytes, bytes_of. lia. }
  apply HQ.
Qed.
Print Assumptions C68_axis_limit.

(** so the limit of frames is not one: with a limit of 1 two frames are taken *)
Theorem C68_axis_limit_refuted : exists l, Forall asame_limits l /\ 1 < zlen (a_q (b_s (asrun abus (-1) 1 l))).
Proof. exists [BCall (1, aframe [1]); BCall (2, aframe [2])]. split; [repeat constructor|]. vm_compute. reflexivity. Qed.
Print Assumptions C68_axis_limit_refuted.

Theorem C68_axis_no_lost_wakeup : forall c lb lf (l : list (bop tframe aop)) o, Forall asame_limits (l ++ [o]) ->
  let x := asrun c lb lf l in let x' := asrun c lb lf (l ++ [o]) in
  (b_wait x <> [] -> a_q (b_s x) <> [] /\ (0 < lb < abytes (a_q (b_s x)) \/ 0 < lf < zlen (a_q (b_s x)))) /\
  (zlen (a_q (b_s x')) < zlen (a_q (b_s x)) -> b_wait x' = []).
Proof.
  intros c lb lf l o Hlo. apply Forall_app in Hlo as [Hl Ho]. cbv zeta. split.
  - intros Hn. pose proof (asrun_Wt c lb lf l Hl Hn) as Hw.
    set (Q := fun s => a_limb s = lb /\ a_limf s = lf /\ src_counts s).
    assert (HQ : Q (b_s (asrun c lb lf l))).
    { assert (H1 : forall s t f, Q s -> Q (asrc_step c s (ASend t f))).
      { intros s t f (E1 & E2 & E3). pose proof (src_counts_step c s (ASend t f) E3) as E3'. split; [|split; [|exact E3']]; cbn [asrc_step]; destruct (asrc_full s); assumption. }
      apply (asrun_ind Q c lb lf l asame_limits Hl); [split; [reflexivity|]; split; [reflexivity|]; split; reflexivity|intros; now apply H1|].
      intros s o' (E1 & E2 & E3) Ho'. pose proof (src_counts_step c s o' E3) as E3'.
      destruct o' as [t f|b|a a'| |[|]|r]; [apply H1; split; auto|split; auto|contradiction|split; auto|split; auto|split; auto|].
      cbn [asrc_step] in *. destruct (a_edge c s r) as (F1 & F2 & _). split; [now rewrite F1|]. split; [now rewrite F2|exact E3']. }
    destruct HQ as (E1 & E2 & E3 & E4). unfold asrc_full, occ_full in Hw. rewrite E1, E2, E3, E4 in Hw. unfold src_bytes in Hw. fold (abytes (a_q (b_s (asrun c lb lf l)))) in Hw.
    assert (Hor : 0 < lb < abytes (a_q (b_s (asrun c lb lf l))) \/ 0 < lf < zlen (a_q (b_s (asrun c lb lf l)))).
    { destruct ((0 <? lb) && _) eqn:Eb; [left; lia|]. right. destruct ((0 <? lf) && _) eqn:Ef; [lia|discriminate]. }
    split; [|exact Hor]. intros Ez. rewrite Ez in Hor. cbn in Hor. change (zlen (@nil tframe)) with 0 in Hor. lia.
  - unfold asrun. rewrite fold_left_app. cbn [fold_left]. fold (asrun c lb lf l). generalize (asrun c lb lf l). intros x. unfold asend_step.
    assert (Es : forall t f, zlen (a_q (b_s x)) <= zlen (a_q (asrc_step c (b_s x) (ASend t f)))).
    { intros t f. cbn. destruct (asrc_full _); cbn; [lia|]. rewrite zlen_app. change (zlen [(t, f)]) with 1. lia. }
    inversion Ho as [|? ? Ho1 _]; subst. destruct o as [p|i|o]; cbn [bstep]; unfold b_try.
    + specialize (Es (fst p) (snd p)). destruct (asrc_full _); cbn [b_s b_wait]; lia.
    + destruct (nth_error _ _) as [p|]; [|lia]. specialize (Es (fst p) (snd p)). destruct (asrc_full _); cbn [b_s b_wait]; lia.
    + destruct (asrc_wakes c (b_s x) o) eqn:Ew; cbn [b_s b_wait]; [reflexivity|]. intros Hlt. exfalso.
      destruct o as [t f|b|a a'| |[|]|r]; cbn [asame_limits asrc_wakes] in *; try contradiction; try discriminate; try (cbn in Hlt; lia).
      * specialize (Es t f). lia.
      * cbn [asrc_step] in Hlt. apply Nat.ltb_ge in Ew. unfold zlen in Hlt. lia.
Qed.
Print Assumptions C68_axis_no_lost_wakeup.

(** ** completion *)
Section Axis.
Variable c : scfg.
Hypothesis Hc : cfg_ok c.

Definition asleep_ok (s : asrc) : Prop := a_task s = TSleep -> a_q s = [] /\ a_active s = false.
Definition ainv (s : asrc) : Prop := asrc_inv s /\ asleep_ok s /\ src_counts s.
Lemma ainv_step s o : op_norm o -> ainv s -> ainv (asrc_step c s o).
Proof.
  intros Hn (H1 & H2 & H3). split; [|split; [|now apply src_counts_step]].
  - destruct o as [t f|b|lb lf| |[|]|r]; try (now apply asrc_step_inv).
    + destruct H1 as (Hv & Hcur & Hq & Ha). split; [exact Hv|]. split; [exact Hcur|]. split; [constructor|exact Ha].
    + destruct H1 as (Hv & Hcur & Hq & Ha). split; [discriminate|]. split; [exact I|]. split; [exact Hq|]. cbn. auto.
  - unfold asleep_ok in *. destruct o as [t f|b|lb lf| |[|]|r]; cbn [asrc_step]; auto.
    + destruct (asrc_full s); auto. cbn. destruct (a_task s); discriminate.
    + cbn. intros E. destruct (H2 E). auto.
    + cbn. discriminate.
    + cbn. destruct (a_task s); auto; discriminate.
    + destruct (a_task s) eqn:Et; [unfold asrc_edge; rewrite Et; congruence| |unfold asrc_edge; rewrite Et; auto].
      apply (alive_edge c s r H1). split; [congruence|]. intros; congruence.
Qed.
Definition agood (s : asrc) : Prop := ainv s /\ a_task s <> TDead /\ a_pause s = false.
Lemma agood_alive s : agood s -> alive s.
Proof. intros ((_ & H & _) & Hd & _). split; [exact Hd|exact H]. Qed.
Definition amu (s : asrc) : nat := match a_task s with TSleep => 0 | _ => S (mu c s) end.
Definition abusy (s : asrc) : bool := match a_task s with TSleep => false | _ => true end.

Lemma a_complete (x0 : bsnd asrc tframe) sched : agood (b_s x0) -> Wt asrc_full x0 -> Forall norm_ok (b_run x0 ++ b_wait x0) ->
  bfair (fun o => exists r, o = AEdge r) (fun o => o = AEdge true) sched ->
  exists N, forall n, (N <= n)%nat -> let x := bat asrc_full aput (asrc_step c) (asrc_wakes c) sched x0 n in
    b_run x = [] /\ b_wait x = [] /\ a_q (b_s x) = [] /\ asrc_is_idle (b_s x) = true /\ asrc_inv (b_s x).
Proof.
  intros H0 H1 Hok Hf.
  destruct (senders_complete (P := tframe) asrc_full aput (asrc_step c) (asrc_wakes c) agood norm_ok (fun o => exists r, o = AEdge r) (fun o => o = AEdge true) abusy amu) with (sched := sched) (x0 := x0) as [N HN].
  - intros s p (E1 & E2 & E3) Hp Ef. split; [apply ainv_step; [exact Hp|exact E1]|]. unfold aput. cbn [asrc_step]. rewrite Ef. cbn. split; [destruct (a_task s); congruence|exact E3].
  - intros s o Hg [r ->]. pose proof (agood_alive s Hg) as Ha. destruct Hg as (E1 & E2 & E3). split; [now apply ainv_step|]. cbn [asrc_step].
    split; [apply (alive_edge c s r (proj1 E1) Ha)|]. rewrite (pause_edge c s r) by apply E1. exact E3.
  - intros s o _ [r ->] Hn. cbn [asrc_step]. destruct (a_edge c s r) as (E1 & E2 & [(_ & E4 & E5)|(t & f & _ & E4 & E5)]); unfold asrc_full, occ_full in *; rewrite E1, E2, E4, E5; [exact Hn|].
    pose proof (zlen_nonneg (f_data f)). destruct ((0 <? a_limb s) && (a_limb s <? a_occb s)) eqn:F1; [discriminate|].
    destruct ((0 <? a_limf s) && (a_limf s <? a_occf s)) eqn:F2; [discriminate|].
    assert (F3 : (0 <? a_limb s) && (a_limb s <? a_occb s - zlen (f_data f)) = false) by lia. rewrite F3.
    assert (F4 : (0 <? a_limf s) && (a_limf s <? a_occf s - 1) = false) by lia. now rewrite F4.
  - intros s o [r ->]. apply afull_stay. discriminate.
  - intros s o Hg [r ->]. pose proof (agood_alive s Hg) as Ha. destruct Hg as ((E1 & _) & E2 & E3). cbn [asrc_step].
    destruct (a_task s) eqn:Et; [congruence| |unfold asrc_edge; rewrite Et; lia].
    destruct (negb (x_ready c) || r) eqn:Er.
    + destruct (edge_progress c Hc s r E1 Ha E3 (or_intror Er)) as [P|P]; unfold amu; rewrite Et, ?P; [lia|]. destruct (a_task (asrc_edge c s r)); lia.
    + destruct (a_valid s) eqn:Ev.
      * unfold asrc_edge. rewrite Et, Er, Ev. cbn. lia.
      * destruct (edge_progress c Hc s r E1 Ha E3 (or_introl Ev)) as [P|P]; unfold amu; rewrite Et, ?P; [lia|]. destruct (a_task (asrc_edge c s r)); lia.
  - intros s o Hg _ -> Hb. pose proof (agood_alive s Hg) as Ha. destruct Hg as ((E1 & _) & E2 & E3). cbn [asrc_step].
    unfold abusy in Hb. destruct (a_task s) eqn:Et; [congruence| |discriminate].
    destruct (edge_progress c Hc s true E1 Ha E3 (or_intror (orb_true_r _))) as [P|P]; unfold amu; rewrite Et, ?P; [lia|]. destruct (a_task (asrc_edge c s true)); lia.
  - intros s ((_ & E1 & E2 & E2') & E3 & E4) Hn. unfold abusy. destruct (a_task s) eqn:Et; auto. destruct (E1 Et) as [E5 _]. unfold asrc_full, occ_full in Hn. rewrite E2, E2', E5 in Hn.
    change (zlen (@nil tframe)) with 0 in Hn. change (src_bytes []) with 0 in Hn. destruct ((0 <? a_limb s) && _) eqn:F1; [lia|]. destruct ((0 <? a_limf s) && _) eqn:F2; [lia|discriminate].
  - intros s o _ [r ->] Hb. unfold abusy in *. cbn [asrc_step]. unfold asrc_edge. destruct (a_task s) eqn:Et; try discriminate. now rewrite Et.
  - exact Hf.
  - split; [exact H0|]. split; [exact H1|exact Hok].
  - exists N. intros n Hn. cbv zeta. destruct (HN n Hn) as (E1 & E2 & E3 & ((E4 & E5 & _) & _)). split; [exact E1|]. split; [exact E2|].
    unfold abusy in E3. destruct (a_task _) eqn:Et; try discriminate. destruct (E5 Et) as [E6 E7]. split; [exact E6|]. split; [|exact E4]. unfold asrc_is_idle. now rewrite E6, E7.
Qed.
End Axis.

Definition a_undisturbed (o : bop tframe aop) : Prop := match o with BOp AClear | BOp (AReset true) => False | _ => True end.

Lemma aheld_norm c l : forall x : bsnd asrc tframe, Forall aframes_ok l -> Forall norm_ok (b_put x ++ b_run x ++ b_wait x) ->
  let x' := fold_left (asend_step c) l x in Forall norm_ok (b_put x' ++ b_run x' ++ b_wait x').
Proof.
  intros x Hl Hx. cbv zeta. pose proof (b_held_run asrc_full aput (asrc_step c) (asrc_wakes c) l x) as Hp. unfold held in Hp.
  eapply (Permutation_Forall (Permutation_sym Hp)). apply Forall_app. split; [exact Hx|]. clear - Hl. unfold calls. induction Hl as [|o l Ho _ IH]; cbn [flat_map]; [constructor|].
  apply Forall_app. split; [|exact IH]. destruct o as [p|i|o]; constructor; [|constructor]. destruct (normalize_spec (snd p) Ho) as (g & E & _). now exists g.
Qed.
Lemma aemits_norm c l : forall x : bsnd asrc tframe, Forall aframes_ok l -> Forall norm_ok (b_run x ++ b_wait x) ->
  Forall op_norm (b_emits asrc_full aput (asrc_step c) (asrc_wakes c) x l).
Proof.
  induction l as [|o l IH]; intros x Hl Hx; cbn [b_emits]; [constructor|]. inversion Hl as [|? ? Ho Hl']; subst. apply Forall_app. split.
  - destruct o as [p|i|o]; cbn [b_emit].
    + destruct (asrc_full _); constructor; [|constructor]. destruct (normalize_spec (snd p) Ho) as (g & E & _). now exists g.
    + destruct (nth_error _ _) as [p|] eqn:E; [|constructor]. destruct (asrc_full _); constructor; [|constructor].
      rewrite Forall_forall in Hx. apply (Hx p). apply in_or_app. left. eapply nth_error_In. exact E.
    + constructor; [|constructor]. destruct o; try exact I. destruct (normalize_spec f Ho) as (g & E & _). now exists g.
  - apply IH; [exact Hl'|]. pose proof (b_held asrc_full aput (asrc_step c) (asrc_wakes c) {| b_s := b_s x; b_ev := b_ev x; b_run := b_run x; b_wait := b_wait x; b_put := [] |} o) as Hp.
    unfold held in Hp. cbn [b_put b_run b_wait app] in Hp.
    assert (Hf : Forall norm_ok ((b_run x ++ b_wait x) ++ calls [o])).
    { apply Forall_app. split; [exact Hx|]. unfold calls. cbn. rewrite app_nil_r. destruct o as [p|i|o]; constructor; [|constructor]. destruct (normalize_spec (snd p) Ho) as (g & E & _). now exists g. }
    pose proof (Permutation_Forall (Permutation_sym Hp) Hf) as Hg. apply Forall_app in Hg as [_ Hg].
    destruct o as [p|i|o]; cbn [bstep] in *; unfold b_try in *; cbn [b_s b_run b_wait] in *.
    + destruct (asrc_full _); exact Hg.
    + destruct (nth_error _ _); [|exact Hg]. destruct (asrc_full _); exact Hg.
    + destruct (asrc_wakes _ _ _); exact Hg.
Qed.

(** As C68_stream_completes; the beats accepted are those of the frames in the order of the puts. *)
Theorem C68_axis_completes : forall c lb lf (l : list (bop tframe aop)) sched, cfg_ok c -> Forall aby_send l -> Forall asame_limits l -> Forall aframes_ok l ->
  a_task (b_s (asrun c lb lf l)) <> TDead -> a_pause (b_s (asrun c lb lf l)) = false ->
  bfair (fun o => exists r, o = AEdge r) (fun o => o = AEdge true) sched ->
  exists N, forall m, (N <= m)%nat -> let l' := l ++ map sched (seq 0 m) in let x := asrun c lb lf l' in
    b_run x = [] /\ b_wait x = [] /\ asrc_is_idle (b_s x) = true /\ Permutation (calls l) (b_put x) /\
    (Forall a_undisturbed l -> let '(_, accepted, _) := asrc_trace c (asrc_init lb lf) (asops c lb lf l') in
       exists gs, Forall2 (fun f g => normalize f = Ok g) (map snd (b_put x)) gs /\ accepted = flat_map (frame_beats c) gs).
Proof.
  intros c lb lf l sched Hc Hb Hl Hk Ht Hp Hf.
  pose proof (aheld_norm c l (bsnd_init (asrc_init lb lf)) Hk ltac:(constructor)) as Hn. cbv zeta in Hn. fold (asrun c lb lf l) in Hn.
  assert (Hi : ainv (b_s (asrun c lb lf l))).
  { pose proof (b_emits_s asrc_full aput (asrc_step c) (asrc_wakes c) l (bsnd_init (asrc_init lb lf))) as Es. change (fold_left _ l _) with (asrun c lb lf l) in Es at 1. rewrite Es. clear Es.
    pose proof (aemits_norm c l (bsnd_init (asrc_init lb lf)) Hk ltac:(constructor)) as Ho. cbn [bsnd_init b_s].
    assert (H0 : ainv (asrc_init lb lf)).
    { split; [|split; [intros E; discriminate|split; reflexivity]]. split; [discriminate|]. split; [exact I|]. split; [constructor|]. cbn. auto. }
    assert (Hg : forall ops s, Forall op_norm ops -> ainv s -> ainv (fold_left (asrc_step c) ops s)).
    { clear - Hc. intros ops. induction ops as [|o ops IH]; intros s Ho Hs; [exact Hs|]. inversion Ho; subst. cbn [fold_left]. apply IH; [assumption|]. now apply ainv_step. }
    now apply Hg. }
  destruct (a_complete c Hc (asrun c lb lf l) sched) as [N HN]; [split; auto|now apply asrun_Wt|now apply Forall_app in Hn as [_ Hn]|exact Hf|].
  exists N. intros m Hm. specialize (HN m Hm). cbv zeta in HN |- *.
  assert (Ex : asrun c lb lf (l ++ map sched (seq 0 m)) = bat asrc_full aput (asrc_step c) (asrc_wakes c) sched (asrun c lb lf l) m).
  { unfold asrun, bat. now rewrite fold_left_app. }
  rewrite <- Ex in HN. destruct HN as (E1 & E2 & E3 & E4 & E5). split; [exact E1|]. split; [exact E2|]. split; [exact E4|].
  assert (Hs : Forall aby_send (map sched (seq 0 m)) /\ calls (map sched (seq 0 m)) = [] /\ Forall a_undisturbed (map sched (seq 0 m)) /\ Forall aframes_ok (map sched (seq 0 m))).
  { destruct Hf as (Hf & _). clear - Hf. induction (seq 0 m) as [|k ks (IH1 & IH2 & IH3 & IH4)]; [repeat split; constructor|]. specialize (Hf k). unfold calls in *. cbn [map flat_map].
    destruct (sched k) as [p|i|o]; [contradiction| |destruct Hf as [r ->]]; (repeat split; [constructor; [exact I|exact IH1]|exact IH2|constructor; [exact I|exact IH3]|constructor; [exact I|exact IH4]]). }
  destruct Hs as (Hs1 & Hs2 & Hs3 & Hs4).
  assert (Hb' : Forall aby_send (l ++ map sched (seq 0 m))) by (apply Forall_app; auto).
  assert (Hk' : Forall aframes_ok (l ++ map sched (seq 0 m))) by (apply Forall_app; auto).
  pose proof (C68_axis_exactly_once c lb lf (l ++ map sched (seq 0 m)) Hb') as C. cbv zeta in C.
  destruct (asrc_trace c (asrc_init lb lf) (asops c lb lf (l ++ map sched (seq 0 m)))) as [[sent acc] s] eqn:Etr. destruct C as (C1 & C2 & C3).
  rewrite E1, E2, !app_nil_r in C3. split; [unfold calls in *; now rewrite flat_map_app, Hs2, app_nil_r in C3|].
  intros Hu. rewrite <- C2.
  assert (Hu' : Forall a_undisturbed (l ++ map sched (seq 0 m))) by (apply Forall_app; auto).
  pose proof (aemits_norm c _ (bsnd_init (asrc_init lb lf)) Hk' ltac:(constructor)) as Ho. fold (asops c lb lf (l ++ map sched (seq 0 m))) in Ho.
  assert (Hq : Forall (fun o => aquiet o = true) (asops c lb lf (l ++ map sched (seq 0 m)))).
  { unfold asops. revert Hu'. generalize (bsnd_init (asrc_init lb lf) : bsnd asrc tframe). generalize (l ++ map sched (seq 0 m)). clear.
    intros l. induction l as [|o l IH]; intros x H; cbn [b_emits]; [constructor|]. inversion H as [|? ? Ho Hl]; subst. apply Forall_app. split; [|now apply IH].
    destruct o as [p|i|o]; cbn [b_emit].
    + destruct (asrc_full _); constructor; auto.
    + destruct (nth_error _ _); [|constructor]. destruct (asrc_full _); constructor; auto.
    + constructor; [|constructor]. destruct o as [| | | |[|]|]; try contradiction; reflexivity. }
  pose proof (asrc_conserve c Hc (asops c lb lf (l ++ map sched (seq 0 m))) (asrc_init lb lf)) as K. rewrite Etr in K.
  destruct K as [_ K].
  - rewrite Forall_forall in *. auto.
  - split; [discriminate|]. split; [exact I|]. split; [constructor|]. cbn. auto.
  - assert (Hsent : Forall norm_ok sent).
    { rewrite C2. assert (Hx : Forall norm_ok (calls l)) by (clear - Hk; unfold calls; induction Hk as [|o l Ho _ IH]; cbn [flat_map]; [constructor|]; apply Forall_app; split; [|exact IH]; destruct o as [p|i|o]; constructor; [|constructor]; destruct (normalize_spec (snd p) Ho) as (g & E & _); now exists g).
      eapply Permutation_Forall; [exact C3|]. unfold calls in *. now rewrite flat_map_app, Hs2, app_nil_r. }
    subst s. destruct E5 as (F1 & F2 & F3 & F4). unfold asrc_is_idle in E4. rewrite E3 in E4. apply negb_true_iff in E4. destruct (F4 E4) as [F5 F6].
    unfold wire, pend in K. rewrite F5, E3 in K. rewrite (rem_false c _ F2 F6) in K. cbn in K. rewrite !app_nil_r in K. rewrite <- K. clear - Hsent.
    induction Hsent as [|[t f] fs [g Hg] _ (gs & IH1 & IH2)]; [exists []; split; constructor|]. exists (g :: gs). cbn [map snd] in *. split; [constructor; auto|].
    cbn [flat_map]. rewrite IH2. f_equal. unfold nb. cbn [snd]. now rewrite Hg.
Qed.
Print Assumptions C68_axis_completes.

Example C68_axis_nontrivial :
  let l := [BCall (1, aframe [1; 2; 3]); BCall (2, aframe [4]); BCall (3, aframe [5; 6]); BOp (AEdge false); BOp (AEdge true); BOp (AEdge true); BRun 0] in
  let x := asrun abus (-1) 1 l in
  b_wait (asrun abus (-1) 1 (firstn 3 l)) = [(3, aframe [5; 6])] /\ map fst (b_put x) = [1; 2; 3] /\ b_wait x = [] /\ map fst (a_q (b_s x)) = [3] /\ a_done (b_s x) = [1; 2].
Proof. vm_compute. repeat split. Qed.

(** What is not so: the items of concurrent calls are not always put in the order of the calls (a new call
    may overtake one that was woken), and a call keeps waiting when the limit is raised. *)
Theorem C68_order_refuted : exists l : list (bop Z (sop Z)), Forall same_limit l /\ b_wait (srun true 1 l) = [] /\ b_run (srun true 1 l) = [] /\
  calls l = [1; 2; 3] /\ b_put (srun true 1 l) = [1; 3; 2].
Proof. exists [BCall 1; BCall 2; BOp (SEdge true); BCall 3; BOp (SEdge true); BRun 0]. split; [repeat constructor|]. vm_compute. repeat split. Qed.
Print Assumptions C68_order_refuted.

Theorem C68_raised_limit_refuted : exists l : list (bop Z (sop Z)), b_wait (srun true 1 l) = [2] /\ src_full (b_s (srun true 1 l)) = false /\
  forall n, b_wait (srun true 1 (l ++ repeat (BRun 0) n)) = [2].
Proof.
  exists [BCall 1; BCall 2; BOp (SLimit 5)]. split; [reflexivity|]. split; [reflexivity|]. intros n. unfold srun. rewrite fold_left_app.
  set (x := fold_left _ _ (bsnd_init _)). assert (E : b_run x = [] /\ b_wait x = [2]) by (split; reflexivity). clearbody x.
  induction n as [|n IH]; [apply E|]. cbn [repeat fold_left]. destruct E as [E1 E2].
  assert (Ex : ssend_step true x (BRun 0) = x) by (unfold ssend_step; cbn [bstep]; now rewrite E1). now rewrite Ex.
Qed.
Print Assumptions C68_raised_limit_refuted.

(** there are fair schedules *)
Definition a_sched {P Op} (e : Op) (n : nat) : bop P Op :=
  if Nat.even n then BOp e else BRun (Nat.div2 n - Nat.sqrt (Nat.div2 n) * Nat.sqrt (Nat.div2 n)).
Example C68_fair_nontrivial : forall (P Op : Type) (e : Op), bfair (P := P) (fun o => o = e) (fun o => o = e) (a_sched e).
Proof.
  intros P Op e. split; [|split].
  - intros n. unfold a_sched. destruct (Nat.even n); [reflexivity|exact I].
  - intros n. exists (2 * n)%nat. split; [lia|]. exists e. split; [|reflexivity]. unfold a_sched. now rewrite Nat.even_mul.
  - intros n i. set (j := (n + i)%nat). exists (S (2 * (j * j + i)))%nat. split; [unfold j; nia|]. unfold a_sched.
    rewrite Nat.even_succ, Nat.odd_mul. cbn [Nat.odd Nat.even negb andb]. rewrite Nat.div2_succ_double.
    assert (E : Nat.sqrt (j * j + i) = j) by (apply Nat.sqrt_unique; unfold j; nia). rewrite E. f_equal. lia.
Qed.
