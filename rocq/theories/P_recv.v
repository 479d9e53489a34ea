(** Proofs for C73. *)
From Coq Require Import ZArith Lia List Bool Permutation.
From Coq Require Import ZifyBool ZifyNat.
From Verif Require Import Py M_stream S_stream M_axisframe M_axis S_axis S_axisrun M_recv S_recv.
Import ListNotations.
Open Scope Z_scope.

Lemma fifo_app {A K R} (q q1 q2 : list A) (e1 e2 : list (vev A K R)) : fifo q e1 q1 -> fifo q1 e2 q2 -> fifo q (e1 ++ e2) q2.
Proof. intros H H2. induction H; cbn [app]; try constructor; auto. Qed.
Lemma fifo_takes {A K R} id (k : K) (tk q : list A) : fifo (R := R) (tk ++ q) (map (VTake id k) tk) q.
Proof. induction tk; cbn; constructor; auto. Qed.
Lemma fifo_arrs {A K R} (new : list A) : forall q, fifo (K := K) (R := R) q (map VArr new) (q ++ new).
Proof. induction new as [|a new IH]; intros q; cbn; [rewrite app_nil_r; constructor|]. constructor. specialize (IH (q ++ [a])). now rewrite <- app_assoc in IH. Qed.

Lemma split_at {X} i : forall (l : list X) x, nth_error l i = Some x -> l = firstn i l ++ x :: skipn (S i) l.
Proof. induction i as [|i IH]; intros [|y l] x H; try discriminate; cbn; [now injection H as ->|]. f_equal. now apply IH. Qed.
Lemma perm_at {X} i (l : list X) x : nth_error l i = Some x -> Permutation l (x :: firstn i l ++ skipn (S i) l).
Proof. intros H. rewrite (split_at i l x H) at 1. symmetry. apply Permutation_middle. Qed.

Section G.
Context {St A K R Op : Type} (q : St -> list A) (step : St -> Op -> St) (clears : Op -> bool).
Variables (enter resume now : K -> St -> list A * St * option R) (takes : Op -> bool).
Notation vstep := (vstep q step clears enter resume now).
Notation vrun := (vrun q step clears enter resume now).
Hypothesis Hstep : forall s o, takes o = false ->
  (clears o = true /\ q (step s o) = []) \/ (clears o = false /\ exists new, q (step s o) = q s ++ new).
Hypothesis Henter : forall k s, let '(tk, s', r) := enter k s in q s = tk ++ q s' /\ (r = None -> q s' = []).
Hypothesis Hresume : forall k s, let '(tk, s', r) := resume k s in q s = tk ++ q s' /\ (r = None -> q s' = []) /\ (q s <> [] -> tk <> []).
Hypothesis Hnow : forall k s, let '(tk, s', r) := now k s in q s = tk ++ q s' /\ (r = None -> q s' = []).

Lemma wake_perm : forall n cs (run wait : list (Z * K)), Permutation (run ++ wait) (fst (v_wake n cs run wait) ++ snd (v_wake n cs run wait)).
Proof.
  induction n as [|n IH]; intros cs run [|w wait]; cbn [v_wake fst snd]; auto. destruct (nth_error (w :: wait) (hd O cs)) as [k|] eqn:E.
  - rewrite <- IH. rewrite <- app_assoc. apply Permutation_app_head. cbn [app]. now apply perm_at.
  - rewrite <- IH. now rewrite <- app_assoc.
Qed.
Lemma wake_len : forall n cs (run wait : list (Z * K)), snd (v_wake n cs run wait) <> [] -> length (fst (v_wake n cs run wait)) = (length run + n)%nat.
Proof.
  induction n as [|n IH]; intros cs run [|w wait]; cbn [v_wake fst snd]; try congruence; [lia|]. destruct (nth_error (w :: wait) (hd O cs)) as [k|]; intros H.
  - rewrite (IH _ _ _ H), app_length. cbn. lia.
  - rewrite (IH _ _ _ H), app_length. cbn. lia.
Qed.
Lemma wake_none cs (run wait : list (Z * K)) : v_wake 0 cs run wait = (run, wait).
Proof. reflexivity. Qed.

(** the events are those of the queue *)
Lemma do_fifo id (k : K) tk s' (r : option R) run wait (q0 : list A) : q0 = tk ++ q s' ->
  fifo q0 (snd (v_do id k (tk, s', r) run wait)) (q (v_s (fst (v_do (A := A) (R := R) id k (tk, s', r) run wait)))).
Proof.
  intros ->. destruct r as [r|]; cbn [v_do fst snd v_s].
  - eapply fifo_app; [apply fifo_takes|]. repeat constructor.
  - apply fifo_takes.
Qed.
Lemma step_fifo x o : quiet takes o -> fifo (q (v_s x)) (snd (vstep x o)) (q (v_s (fst (vstep x o)))).
Proof.
  destruct o as [id k|id k|i|o cs]; cbn [quiet M_recv.vstep]; intros Hq.
  - pose proof (Henter k (v_s x)) as H. destruct (enter k (v_s x)) as [[tk s'] r]. apply do_fifo. tauto.
  - pose proof (Hnow k (v_s x)) as H. destruct (now k (v_s x)) as [[tk s'] r]. destruct H as [H Hn]. cbn [fst snd v_s]. rewrite H. eapply fifo_app; [apply fifo_takes|].
    destruct r; [repeat constructor|]. rewrite Hn by auto. repeat constructor.
  - destruct (nth_error (v_run x) i) as [[id k]|]; [|constructor].
    pose proof (Hresume k (v_s x)) as H. destruct (resume k (v_s x)) as [[tk s'] r]. apply do_fifo. tauto.
  - destruct (v_wake _ cs (v_run x) (v_wait x)) as [run wait]. cbn [fst snd v_s]. destruct (Hstep (v_s x) o Hq) as [[-> ->]|[-> (new & ->)]]; [repeat constructor|].
    rewrite skipn_app, skipn_all, Nat.sub_diag. cbn [app skipn]. apply fifo_arrs.
Qed.
Theorem run_fifo h : forall x, Forall (quiet takes) h -> fifo (q (v_s x)) (snd (vrun x h)) (q (v_s (fst (vrun x h)))).
Proof.
  induction h as [|o h IH]; intros x HF; cbn [M_recv.vrun]; [constructor|]. inversion HF; subst. pose proof (step_fifo x o H1) as S1.
  destruct (vstep x o) as [x1 e1]. cbn [fst snd] in S1. specialize (IH x1 H2). destruct (vrun x1 h) as [x2 e2]. cbn [fst snd] in *. eapply fifo_app; eauto.
Qed.

(** calls *)
Lemma ended_takes id (k : K) (tk : list A) : ended (A := A) (K := K) (R := R) (map (VTake id k) tk) = [].
Proof. induction tk; cbn; auto. Qed.
Lemma ended_arrs (l : list A) : ended (A := A) (K := K) (R := R) (map VArr l) = [].
Proof. induction l; cbn; auto. Qed.
Lemma ended_app (a b : list (vev A K R)) : ended (a ++ b) = ended a ++ ended b.
Proof. apply flat_map_app. Qed.
Lemma do_calls id (k : K) x run wait : Permutation ((id, k) :: run ++ wait)
  (ended (snd (v_do (A := A) (R := R) (St := St) id k x run wait)) ++ v_run (fst (v_do id k x run wait)) ++ v_wait (fst (v_do id k x run wait))).
Proof.
  destruct x as [[tk s'] [r|]]; cbn [v_do fst snd v_run v_wait].
  - rewrite ended_app, ended_takes. cbn. auto.
  - rewrite ended_takes. cbn [app]. rewrite app_assoc. apply Permutation_cons_append.
Qed.
Lemma step_calls x o : Permutation (called [o] ++ v_run x ++ v_wait x)
  (ended (snd (vstep x o)) ++ v_run (fst (vstep x o)) ++ v_wait (fst (vstep x o))).
Proof.
  destruct o as [id k|id k|i|o cs]; cbn [M_recv.vstep called flat_map app].
  - apply do_calls.
  - destruct (now k (v_s x)) as [[tk s'] r]. cbn [fst snd v_run v_wait]. rewrite ended_app, ended_takes. destruct r; cbn; auto.
  - destruct (nth_error (v_run x) i) as [[id k]|] eqn:E; [|auto]. rewrite <- do_calls. rewrite (app_assoc [(id, k)] _ (v_wait x)) || idtac.
    change ((id, k) :: (firstn i (v_run x) ++ skipn (S i) (v_run x)) ++ v_wait x) with (((id, k) :: firstn i (v_run x) ++ skipn (S i) (v_run x)) ++ v_wait x).
    apply Permutation_app_tail. now apply perm_at.
  - pose proof (wake_perm (length (skipn (length (q (v_s x))) (q (step (v_s x) o)))) cs (v_run x) (v_wait x)) as H.
    destruct (v_wake _ cs (v_run x) (v_wait x)) as [run wait]. cbn [fst snd v_run v_wait] in *. destruct (clears o); [|rewrite ended_arrs]; cbn; auto.
Qed.
Theorem run_calls h : forall x, Permutation (called h ++ v_run x ++ v_wait x)
  (ended (snd (vrun x h)) ++ v_run (fst (vrun x h)) ++ v_wait (fst (vrun x h))).
Proof.
  induction h as [|o h IH]; intros x; cbn [M_recv.vrun]; [cbn; auto|]. pose proof (step_calls x o) as S1.
  destruct (vstep x o) as [x1 e1]. cbn [fst snd] in S1. specialize (IH x1). destruct (vrun x1 h) as [x2 e2]. cbn [fst snd] in *.
  rewrite ended_app. change (o :: h) with ([o] ++ h). unfold called in *. rewrite flat_map_app.
  rewrite (Permutation_app_comm (flat_map _ [o]) (flat_map _ h)), <- app_assoc, S1. rewrite app_assoc, (Permutation_app_comm (flat_map _ h) (ended e1)), <- app_assoc, IH. now rewrite <- app_assoc.
Qed.

(** no lost wake-up *)
Definition v_ok (x : vst St K) : Prop := v_wait x <> [] -> (length (q (v_s x)) <= length (v_run x))%nat.
Lemma step_ok x o : quiet takes o -> v_ok x -> v_ok (fst (vstep x o)).
Proof.
  unfold v_ok. intros Hq Hx. destruct o as [id k|id k|i|o cs]; cbn [M_recv.vstep].
  - pose proof (Henter k (v_s x)) as H. destruct (enter k (v_s x)) as [[tk s'] [r|]]; cbn [v_do fst v_s v_run v_wait]; destruct H as [H Hn].
    + intros Hw. specialize (Hx Hw). rewrite H, app_length in Hx. lia.
    + intros _. rewrite Hn by auto. cbn. lia.
  - pose proof (Hnow k (v_s x)) as H. destruct (now k (v_s x)) as [[tk s'] r]; cbn [fst v_s v_run v_wait]; destruct H as [H Hn].
    intros Hw. specialize (Hx Hw). rewrite H, app_length in Hx. lia.
  - destruct (nth_error (v_run x) i) as [[id k]|] eqn:E; [|auto]. pose proof (Permutation_length (perm_at i (v_run x) (id, k) E)) as HL. cbn [length] in HL.
    pose proof (Hresume k (v_s x)) as H. destruct (resume k (v_s x)) as [[tk s'] [r|]]; cbn [v_do fst v_s v_run v_wait]; destruct H as (H & Hn & Ht).
    + intros Hw. specialize (Hx Hw). rewrite H, app_length in Hx. destruct (q (v_s x)) as [|y l] eqn:Eq.
      * destruct tk; cbn in H; [rewrite <- H; cbn; lia|discriminate].
      * destruct tk; [now destruct Ht|]. cbn [length] in Hx. lia.
    + intros _. rewrite Hn by auto. cbn. lia.
  - set (new := skipn (length (q (v_s x))) (q (step (v_s x) o))).
    pose proof (wake_len (length new) cs (v_run x) (v_wait x)) as HL. pose proof (Permutation_length (wake_perm (length new) cs (v_run x) (v_wait x))) as HP. rewrite !app_length in HP.
    destruct (v_wake (length new) cs (v_run x) (v_wait x)) as [run wait]. cbn [fst snd v_s v_run v_wait] in *. intros Hw. specialize (HL Hw).
    assert (Hw0 : v_wait x <> []) by (intros E; rewrite E in HP; destruct wait; [congruence|cbn in HP; lia]). specialize (Hx Hw0).
    destruct (Hstep (v_s x) o Hq) as [[_ ->]|[_ (nw & E)]]; [cbn; lia|]. unfold new in HL. rewrite E in *. rewrite skipn_app, skipn_all, Nat.sub_diag in HL. cbn [app skipn] in HL.
    rewrite app_length. lia.
Qed.
Theorem run_ok h : forall x, Forall (quiet takes) h -> v_ok x -> v_ok (fst (vrun x h)).
Proof.
  induction h as [|o h IH]; intros x HF Hx; cbn [M_recv.vrun]; auto. inversion HF; subst. pose proof (step_ok x o H1 Hx) as S1.
  destruct (vstep x o) as [x1 e1]. specialize (IH x1 H2 S1). destruct (vrun x1 h) as [x2 e2]. auto.
Qed.
(** a woken call that runs leaves the woken ones *)
Lemma run_shrinks x i : (i < length (v_run x))%nat -> length (v_run (fst (vstep x (VRun i)))) = pred (length (v_run x)).
Proof.
  clear Hstep Henter Hresume Hnow takes. intros Hi. cbn [M_recv.vstep]. destruct (nth_error (v_run x) i) as [[id k]|] eqn:E; [|apply nth_error_None in E; lia].
  pose proof (Permutation_length (perm_at i (v_run x) (id, k) E)) as HL. cbn [length] in HL.
  destruct (resume k (v_s x)) as [[tk s'] [r|]]; cbn [v_do fst v_run]; lia.
Qed.
(** letting all woken calls run *)
Lemma run_drains n : forall x, length (v_run x) = n -> v_run (fst (vrun x (repeat (VRun 0) n))) = [].
Proof.
  clear Hstep Henter Hresume Hnow takes. induction n as [|n IH]; intros x Hx; cbn [repeat M_recv.vrun]; [cbn; now destruct (v_run x)|]. pose proof (run_shrinks x 0 ltac:(lia)) as H.
  destruct (vstep x (VRun 0)) as [x1 e1]. cbn [fst] in H. specialize (IH x1 ltac:(lia)). destruct (vrun x1 (repeat (VRun 0) n)) as [x2 e2]. auto.
Qed.

(** calls are served in their order *)
Variable P : K -> bool.
Hypothesis Eone : forall k s a l, P k = true -> q s = a :: l -> exists s' r, enter k s = ([a], s', Some r).
Hypothesis Enone : forall k s, P k = true -> q s = [] -> enter k s = ([], s, None).
Hypothesis Rone : forall k s a l, P k = true -> q s = a :: l -> exists s' r, resume k s = ([a], s', Some r).
Notation orderly := (orderly q step clears enter resume now takes P).
Definition v_ord (x : vst St K) : Prop := v_ok x /\ (length (v_run x) <= length (q (v_s x)))%nat /\ Forall (fun c => P (snd c) = true) (v_run x ++ v_wait x).
Lemma wake_order : forall n (run wait : list (Z * K)), fst (v_wake n [] run wait) ++ snd (v_wake n [] run wait) = run ++ wait.
Proof. induction n as [|n IH]; intros run [|w wait]; cbn [v_wake fst snd hd tl nth_error firstn skipn app]; auto. rewrite IH, <- app_assoc. reflexivity. Qed.
Lemma wake_le : forall n cs (run wait : list (Z * K)), (length (fst (v_wake n cs run wait)) <= length run + n)%nat.
Proof.
  induction n as [|n IH]; intros cs run [|w wait]; cbn [v_wake fst snd]; try lia. destruct (nth_error (w :: wait) (hd O cs)) as [k|].
  all: etransitivity; [apply IH|rewrite app_length; cbn; lia].
Qed.
Theorem run_order h : forall x, orderly x h -> v_ord x -> v_ord (fst (vrun x h)) /\
  v_run x ++ v_wait x ++ called h = ended (snd (vrun x h)) ++ v_run (fst (vrun x h)) ++ v_wait (fst (vrun x h)).
Proof.
  induction h as [|o h IH]; intros x Ho Hx; cbn [M_recv.vrun]; [split; auto; cbn; now rewrite app_nil_r|]. destruct Ho as [Ho Hh].
  assert (S1 : v_ord (fst (vstep x o)) /\ v_run x ++ v_wait x ++ called [o] = ended (snd (vstep x o)) ++ v_run (fst (vstep x o)) ++ v_wait (fst (vstep x o))).
  { destruct Hx as (Hok & Hle & HP). assert (Hok' : v_ok (fst (vstep x o))) by (apply step_ok; auto; destruct o; cbn in *; tauto).
    destruct o as [id k|id k|i|o cs]; cbn [orderly_op] in Ho; cbn [M_recv.vstep called flat_map app] in *.
    - destruct Ho as [Hr Hk]. rewrite Hr in *. destruct (q (v_s x)) as [|a l] eqn:Eq.
      + rewrite (Enone k (v_s x) Hk Eq) in *. cbn [v_do fst snd v_run v_wait v_s app map ended flat_map]. split; [|reflexivity]. split; [exact Hok'|]. cbn [v_run v_wait v_s length app]. split; [lia|].
        cbn [app] in HP. apply Forall_app. split; auto.
      + assert (Hw : v_wait x = []) by (destruct (v_wait x) eqn:Ew; auto; exfalso; unfold v_ok in Hok; rewrite Ew, Hr, Eq in Hok; specialize (Hok ltac:(discriminate)); cbn in Hok; lia).
        destruct (Eone k (v_s x) a l Hk Eq) as (s' & r & E). rewrite E in *. rewrite Hw in *. cbn [v_do fst snd v_run v_wait v_s map app ended flat_map]. split; [|reflexivity].
        split; [exact Hok'|]. cbn. split; [lia|constructor].
    - destruct Ho.
    - subst i. destruct (v_run x) as [|[id k] run] eqn:Er; cbn [nth_error] in *.
      + cbn [fst snd ended flat_map app]. rewrite Er, app_nil_r. split; [|reflexivity]. split; [exact Hok'|]. rewrite Er. split; auto.
      + cbn [firstn skipn app] in *. destruct (q (v_s x)) as [|a l] eqn:Eq; [cbn in Hle; lia|]. inversion HP as [|? ? Hk HP']; subst. cbn [snd] in Hk.
        destruct (Rone k (v_s x) a l Hk Eq) as (s' & r & E). pose proof (Hresume k (v_s x)) as H. rewrite E in *. destruct H as (H & _). rewrite Eq in H. cbn in H. injection H as H.
        cbn [v_do fst snd v_run v_wait v_s map app ended flat_map]. rewrite app_nil_r. split; [|reflexivity]. split; [exact Hok'|]. cbn [v_run v_wait v_s]. split; auto. rewrite <- H. cbn in Hle. lia.
    - destruct Ho as (-> & Hc & Ht). rewrite Hc in *. set (new := skipn (length (q (v_s x))) (q (step (v_s x) o))) in *.
      pose proof (wake_order (length new) (v_run x) (v_wait x)) as W1. pose proof (wake_le (length new) [] (v_run x) (v_wait x)) as W2.
      destruct (v_wake (length new) [] (v_run x) (v_wait x)) as [run wait]. cbn [fst snd v_s v_run v_wait] in *. rewrite ended_arrs, app_nil_r. cbn [app]. split; [|now symmetry].
      split; [exact Hok'|]. cbn [v_s v_run v_wait]. rewrite W1. split; auto. unfold new in W2. destruct (Hstep (v_s x) o Ht) as [[Hc' _]|[_ (nw & E)]]; [congruence|].
      rewrite E in *. rewrite skipn_app, skipn_all, Nat.sub_diag in W2. cbn [app skipn] in W2. rewrite app_length. lia. }
  destruct S1 as [S1 S2]. destruct (vstep x o) as [x1 e1]. cbn [fst snd] in *. destruct (IH x1 Hh S1) as [I1 I2]. destruct (vrun x1 h) as [x2 e2]. cbn [fst snd] in *. split; auto.
  rewrite ended_app. change (o :: h) with ([o] ++ h). unfold called in *. rewrite flat_map_app. rewrite <- app_assoc, <- I2. rewrite (app_assoc (v_run x)), (app_assoc (v_run x ++ v_wait x)), <- (app_assoc (v_run x)), S2, <- !app_assoc. reflexivity.
Qed.
End G.

(** ** results of recv() *)
Section GR.
Context {St A K R Op : Type} (q : St -> list A) (step : St -> Op -> St) (clears : Op -> bool).
Variables (enter resume now : K -> St -> list A * St * option R) (P : K -> bool) (gives : Z * K * A -> Z * K * R).
Notation vstep := (vstep q step clears enter resume now).
Notation vrun := (vrun q step clears enter resume now).
Definition one_result (f : K -> St -> list A * St * option R) : Prop :=
  forall id k s, P k = true -> let '(tk, s', r) := f k s in match r with Some r => exists a, tk = [a] /\ (id, k, r) = gives (id, k, a) | None => tk = [] end.
Hypothesis H1 : one_result enter.
Hypothesis H2 : one_result resume.
Hypothesis H3 : one_result now.

Lemma takes_map id (k : K) (tk : list A) : takes_of (R := R) P (map (VTake id k) tk) = if P k then map (fun a => (id, k, a)) tk else [].
Proof. induction tk as [|a tk IH]; cbn; [now destruct (P k)|]. unfold takes_of in IH. rewrite IH. now destruct (P k). Qed.
Lemma rets_map id (k : K) (tk : list A) : rets_of (R := R) P (map (VTake id k) tk) = [].
Proof. induction tk as [|a tk IH]; cbn; auto. Qed.
Lemma takes_arr (l : list A) : takes_of (K := K) (R := R) P (map VArr l) = [].
Proof. induction l; cbn; auto. Qed.
Lemma rets_arr (l : list A) : rets_of (K := K) (R := R) P (map VArr l) = [].
Proof. induction l; cbn; auto. Qed.
Lemma takes_app (a b : list (vev A K R)) : takes_of P (a ++ b) = takes_of P a ++ takes_of P b.
Proof. apply flat_map_app. Qed.
Lemma rets_app (a b : list (vev A K R)) : rets_of P (a ++ b) = rets_of P a ++ rets_of P b.
Proof. apply flat_map_app. Qed.

Lemma do_results f id k s run wait : one_result f ->
  rets_of P (snd (v_do id k (f k s) run wait)) = map gives (takes_of P (snd (v_do id k (f k s) run wait))).
Proof.
  intros Hf. specialize (Hf id k s). destruct (f k s) as [[tk s'] [r|]]; cbn [v_do snd]; rewrite ?takes_app, ?rets_app, takes_map, rets_map; cbn [takes_of rets_of flat_map app]; rewrite ?app_nil_r.
  - destruct (P k); auto. destruct (Hf eq_refl) as (a & -> & E). cbn. now rewrite E.
  - destruct (P k); auto. now rewrite (Hf eq_refl).
Qed.
Lemma step_results x o : rets_of P (snd (vstep x o)) = map gives (takes_of P (snd (vstep x o))).
Proof.
  destruct o as [id k|id k|i|o cs]; cbn [M_recv.vstep].
  - now apply do_results.
  - pose proof (H3 id k (v_s x)) as H. destruct (now k (v_s x)) as [[tk s'] [r|]]; cbn [snd]; rewrite takes_app, rets_app, takes_map, rets_map; cbn [takes_of rets_of flat_map app]; rewrite ?app_nil_r.
    + destruct (P k); auto. destruct (H eq_refl) as (a & -> & E). cbn. now rewrite E.
    + destruct (P k); auto. now rewrite (H eq_refl).
  - destruct (nth_error (v_run x) i) as [[id k]|]; [|reflexivity]. now apply do_results.
  - destruct (v_wake _ cs (v_run x) (v_wait x)) as [run wait]. cbn [snd]. destruct (clears o); [reflexivity|]. now rewrite rets_arr, takes_arr.
Qed.
Theorem run_results h : forall x, rets_of P (snd (vrun x h)) = map gives (takes_of P (snd (vrun x h))).
Proof.
  induction h as [|o h IH]; intros x; cbn [M_recv.vrun]; [reflexivity|]. pose proof (step_results x o) as S1.
  destruct (vstep x o) as [x1 e1]. cbn [fst snd] in S1. specialize (IH x1). destruct (vrun x1 h) as [x2 e2]. cbn [fst snd] in *. rewrite rets_app, takes_app, map_app. congruence.
Qed.
End GR.

(** ** read() *)
Section GX.
Context {St Op : Type} (q : St -> list frame) (readq : St -> list Z) (recvf : St -> rop -> St * rres) (extend : St -> list Z -> St).
Variables (step : St -> Op -> St) (clears takes : Op -> bool).
Hypothesis Hrecv : forall s cp f l, q s = f :: l -> q (fst (recvf s (RRecv cp))) = l /\ readq (fst (recvf s (RRecv cp))) = readq s /\
  snd (recvf s (RRecv cp)) = RFrame (if cp then compact f else Ok f).
Hypothesis Hread : forall s n, q (fst (recvf s (RRead n))) = [] /\ readq (fst (recvf s (RRead n))) = fst (read_all (readq s) (q s) n) /\
  snd (recvf s (RRead n)) = RBytes (snd (read_all (readq s) (q s) n)).
Hypothesis Hext : forall s l, q (extend s l) = q s /\ readq (extend s l) = readq s ++ l.
Hypothesis Hrq : forall s o, takes o = false -> readq (step s o) = readq s.
Notation enter := (x_enter q readq recvf extend).
Notation resume := (x_resume q readq recvf extend).
Notation now := (x_now q recvf).
Notation vstep := (vstep q step clears enter resume now).
Notation vrun := (vrun q step clears enter resume now).

Lemma read_all_bytes rq (l : list frame) n : snd (read_all rq l n) ++ fst (read_all rq l n) = rq ++ concat (map cdata l).
Proof. unfold read_all. cbn [fst snd]. apply firstn_skipn. Qed.

Lemma take_facts s f l : q s = f :: l -> q (x_take q recvf extend s) = l /\ readq (x_take q recvf extend s) = readq s ++ cdata f.
Proof. intros E. unfold x_take. rewrite E. destruct (Hrecv s true f l E) as (A1 & A2 & _). destruct (Hext (fst (recvf s (RRecv true))) (cdata f)) as (-> & ->). now rewrite A1, A2. Qed.

Notation unread := (unread q readq).
Notation reads := (reads q readq).
Lemma loop_exact n : forall fuel tk s, (length (q s) < fuel)%nat ->
  let '(tk', s', r) := x_loop q readq recvf extend fuel n tk s in
  tk' = tk ++ q s /\ q s' = [] /\ (unread s = [] -> r = None /\ readq s' = []) /\
  (unread s <> [] -> r = Some (RBytes (firstn (upto n (unread s)) (unread s))) /\ readq s' = skipn (upto n (unread s)) (unread s)).
Proof.
  unfold S_recv.unread. induction fuel as [|fuel IH]; intros tk s Hf; [lia|]. cbn [x_loop]. destruct (readq s) as [|y rq] eqn:Er.
  - destruct (q s) as [|f l] eqn:Eq.
    + rewrite app_nil_r. cbn. repeat split; auto; congruence.
    + destruct (take_facts s f l Eq) as (T1 & T2). specialize (IH (tk ++ [f]) (x_take q recvf extend s)). rewrite T1 in IH. specialize (IH ltac:(cbn in Hf; lia)).
      destruct (x_loop q readq recvf extend fuel n (tk ++ [f]) (x_take q recvf extend s)) as [[tk' s'] r]. rewrite T2, Er in IH. rewrite <- app_assoc in IH. cbn [app map concat] in *. exact IH.
  - destruct (Hread s n) as (R1 & R2 & R3). destruct (recvf s (RRead n)) as [s' r]. cbn [fst snd] in *. split; [auto|]. split; [auto|]. split; [discriminate|]. intros _. rewrite R2, R3. unfold read_all. rewrite Er. auto.
Qed.
Lemma do_reads id n s tk s' r run wait :
  tk = q s /\ q s' = [] /\ (unread s = [] -> r = None /\ readq s' = []) /\
  (unread s <> [] -> r = Some (RBytes (firstn (upto n (unread s)) (unread s))) /\ readq s' = skipn (upto n (unread s)) (unread s)) ->
  reads id n s (fst (v_do id (CRead n) (tk, s', r) run wait)) (snd (v_do id (CRead n) (tk, s', r) run wait)).
Proof.
  intros (-> & H1 & H2 & H3). unfold S_recv.reads. split; [now destruct r|]. split; intros Hu.
  - destruct (H2 Hu) as (-> & Hr). cbn [v_do fst snd v_wait v_s]. repeat split; auto. apply in_or_app. right. now left.
  - destruct (H3 Hu) as (-> & Hr). cbn [v_do fst snd v_wait v_s]. auto.
Qed.
Theorem call_reads x id n : reads id n (v_s x) (fst (vstep x (VCall id (CRead n)))) (snd (vstep x (VCall id (CRead n)))).
Proof.
  cbn [M_recv.vstep x_enter]. pose proof (loop_exact n (S (S (length (q (v_s x))))) [] (v_s x) ltac:(lia)) as H.
  destruct (x_loop q readq recvf extend (S (S (length (q (v_s x))))) n [] (v_s x)) as [[tk s'] r]. now apply do_reads.
Qed.
Theorem woken_reads x i id n : nth_error (v_run x) i = Some (id, CRead n) -> q (v_s x) <> [] -> reads id n (v_s x) (fst (vstep x (VRun i))) (snd (vstep x (VRun i))).
Proof.
  intros E Hq. cbn [M_recv.vstep]. rewrite E. cbn [x_resume]. destruct (q (v_s x)) as [|f l] eqn:Eq; [easy|]. destruct (take_facts (v_s x) f l Eq) as (T1 & T2).
  pose proof (loop_exact n (S (S (length (f :: l)))) [f] (x_take q recvf extend (v_s x)) ltac:(rewrite T1; cbn; lia)) as H.
  destruct (x_loop q readq recvf extend (S (S (length (f :: l)))) n [f] (x_take q recvf extend (v_s x))) as [[tk s'] r]. apply do_reads.
  assert (Hu : unread (x_take q recvf extend (v_s x)) = unread (v_s x)) by (unfold S_recv.unread; rewrite T1, T2, Eq; cbn [map concat]; now rewrite <- app_assoc).
  rewrite Hu, T1 in H. rewrite Eq. exact H.
Qed.

Definition moved (tk : list frame) (s s' : St) (r : option rres) : Prop :=
  q s = tk ++ q s' /\ (r = None -> q s' = [] /\ readq s' = []) /\ (forall x, r = Some x -> exists l, x = RBytes l) /\
  readq s ++ concat (map cdata tk) = match r with Some x => res_bytes x | None => [] end ++ readq s'.
Lemma loop_moved n : forall fuel tk s, (length (q s) < fuel)%nat ->
  let '(tk', s', r) := x_loop q readq recvf extend fuel n tk s in exists m, tk' = tk ++ m /\ moved m s s' r.
Proof.
  induction fuel as [|fuel IH]; intros tk s Hf; [lia|]. cbn [x_loop]. destruct (readq s) as [|y rq] eqn:Er.
  - destruct (q s) as [|f l] eqn:Eq.
    + exists []. rewrite app_nil_r. unfold moved. rewrite Eq, Er. repeat split; auto; intros; discriminate.
    + destruct (take_facts s f l Eq) as (T1 & T2). specialize (IH (tk ++ [f]) (x_take q recvf extend s)). rewrite T1 in IH. specialize (IH ltac:(cbn in Hf; lia)).
      destruct (x_loop q readq recvf extend fuel n (tk ++ [f]) (x_take q recvf extend s)) as [[tk' s'] r]. destruct IH as (m & -> & M1 & M2 & M3 & M4).
      exists (f :: m). rewrite <- app_assoc. split; auto. unfold moved. rewrite Eq, Er. rewrite T1 in M1. rewrite M1. repeat split; auto; try tauto.
      rewrite <- M4, T2, Er. cbn [map concat app]. reflexivity.
  - destruct (Hread s n) as (R1 & R2 & R3). destruct (recvf s (RRead n)) as [s' r]. cbn [fst snd] in *. exists (q s). split; auto. unfold moved. rewrite R1, app_nil_r. repeat split; auto; try discriminate.
    + intros x [= <-]. eauto.
    + rewrite R3, R2. cbn [res_bytes]. rewrite read_all_bytes. now rewrite Er.
Qed.
Lemma enter_read n s : let '(tk, s', r) := enter (CRead n) s in moved tk s s' r.
Proof.
  cbn [x_enter]. pose proof (loop_moved n (S (S (length (q s)))) [] s ltac:(lia)) as H.
  destruct (x_loop q readq recvf extend (S (S (length (q s)))) n [] s) as [[tk' s'] r]. destruct H as (m & -> & H). exact H.
Qed.
Lemma resume_read n s : let '(tk, s', r) := resume (CRead n) s in (q s = [] -> tk = [] /\ s' = s /\ r = None) /\ (q s <> [] -> tk <> [] /\ moved tk s s' r).
Proof.
  cbn [x_resume]. destruct (q s) as [|f l] eqn:Eq; [split; auto; congruence|]. destruct (take_facts s f l Eq) as (T1 & T2).
  pose proof (loop_moved n (S (S (length (f :: l)))) [f] (x_take q recvf extend s) ltac:(rewrite T1; cbn; lia)) as H.
  destruct (x_loop q readq recvf extend (S (S (length (f :: l)))) n [f] (x_take q recvf extend s)) as [[tk' s'] r]. destruct H as (m & -> & M1 & M2 & M3 & M4). split; [discriminate|]. intros _.
  split; [discriminate|]. unfold moved. rewrite Eq. rewrite T1 in M1. rewrite M1. repeat split; auto; try tauto. rewrite <- M4, T2. cbn [map concat app]. now rewrite <- app_assoc.
Qed.
Lemma get_facts cp s : let '(tk, s', r) := x_get q recvf cp s in q s = tk ++ q s' /\ readq s' = readq s /\ (r = None -> q s' = []) /\ (q s <> [] -> tk <> []) /\
  match r with Some r => exists f, tk = [f] /\ r = RFrame (if cp then compact f else Ok f) | None => tk = [] end.
Proof.
  unfold x_get. destruct (q s) as [|f l] eqn:Eq; [rewrite Eq; repeat split; auto; congruence|]. destruct (Hrecv s cp f l Eq) as (A1 & A2 & A3).
  destruct (recvf s (RRecv cp)) as [s' r]. cbn [fst snd] in *. rewrite A1. repeat split; auto; try discriminate. exists f. auto.
Qed.

Lemma x_enter_ok k s : let '(tk, s', r) := enter k s in q s = tk ++ q s' /\ (r = None -> q s' = []).
Proof.
  destruct k as [cp|n]; [pose proof (get_facts cp s) as H; cbn [x_enter]; destruct (x_get q recvf cp s) as [[tk s'] r]; tauto|].
  pose proof (enter_read n s) as H. destruct (enter (CRead n) s) as [[tk s'] r]. destruct H as (H1 & H2 & _). split; auto. intros E. now apply H2.
Qed.
Lemma x_resume_ok k s : let '(tk, s', r) := resume k s in q s = tk ++ q s' /\ (r = None -> q s' = []) /\ (q s <> [] -> tk <> []).
Proof.
  destruct k as [cp|n]; [pose proof (get_facts cp s) as H; cbn [x_resume]; destruct (x_get q recvf cp s) as [[tk s'] r]; tauto|].
  pose proof (resume_read n s) as H. destruct (resume (CRead n) s) as [[tk s'] r]. destruct (q s) as [|f l] eqn:Eq.
  - destruct H as [H _]. destruct (H eq_refl) as (-> & -> & ->). rewrite Eq. repeat split; auto.
  - destruct H as [_ H]. destruct (H ltac:(discriminate)) as (Ht & H1 & H2 & _). rewrite Eq in H1. repeat split; auto. intros E. now apply H2.
Qed.
Lemma x_now_ok k s : let '(tk, s', r) := now k s in q s = tk ++ q s' /\ (r = None -> q s' = []).
Proof.
  destruct k as [cp|n]; cbn [x_now]; [pose proof (get_facts cp s) as H; destruct (x_get q recvf cp s) as [[tk s'] r]; tauto|].
  destruct (Hread s n) as (R1 & _ & _). destruct (recvf s (RRead n)) as [s' r]. cbn [fst] in R1. rewrite R1, app_nil_r. auto.
Qed.

Lemma x_results : one_result is_recv recv_gives enter /\ one_result is_recv recv_gives resume /\ one_result is_recv recv_gives now.
Proof.
  assert (H : forall f, (forall cp s, f (CRecv cp) s = x_get q recvf cp s) -> one_result is_recv recv_gives f).
  { intros f Hf id k s Hk. destruct k as [cp|n]; [|discriminate]. rewrite Hf. pose proof (get_facts cp s) as H. destruct (x_get q recvf cp s) as [[tk s'] [r|]]; [|tauto].
    destruct H as (_ & _ & _ & _ & fr & -> & ->). exists fr. split; [reflexivity|]. cbn. now destruct cp. }
  split; [|split]; now apply H.
Qed.

(** bytes *)
Lemma data_app a b : read_data (a ++ b) = read_data a ++ read_data b.
Proof. unfold read_data. now rewrite takes_app, flat_map_app. Qed.
Lemma bytes_app a b : read_bytes (a ++ b) = read_bytes a ++ read_bytes b.
Proof. unfold read_bytes. now rewrite rets_app, flat_map_app. Qed.
Lemma data_takes id k tk : read_data (map (VTake id k) tk) = if is_read k then concat (map cdata tk) else [].
Proof. unfold read_data. rewrite takes_map. destruct (is_read k); auto. induction tk; cbn; auto. now rewrite IHtk. Qed.
Lemma bytes_takes id k tk : read_bytes (map (VTake id k) tk) = [].
Proof. unfold read_bytes. now rewrite rets_map. Qed.

Definition keeps (s s' : St) (evs : list (vev frame rcall rres)) : Prop := readq s ++ read_data evs = read_bytes evs ++ readq s'.
Lemma do_keeps id k s tk s' r run wait :
  (match k with CRecv _ => readq s' = readq s | CRead _ => readq s ++ concat (map cdata tk) = match r with Some x => res_bytes x | None => [] end ++ readq s' end) ->
  keeps s s' (snd (v_do id k (tk, s', r) run wait)).
Proof.
  unfold keeps. intros H. destruct r as [r|]; cbn [v_do snd]; rewrite ?data_app, ?bytes_app, data_takes, bytes_takes; cbn [app].
  - destruct k as [cp|n]; cbn [is_read is_recv negb]; unfold read_data, read_bytes; cbn [takes_of rets_of flat_map is_read is_recv negb app snd]; rewrite ?app_nil_r; auto; congruence.
  - destruct k as [cp|n]; cbn [is_read is_recv negb]; rewrite ?app_nil_r; auto; congruence.
Qed.
Lemma step_keeps x o : quiet takes o -> keeps (v_s x) (v_s (fst (vstep x o))) (snd (vstep x o)).
Proof.
  intros Hq. destruct o as [id k|id k|i|o cs]; cbn [M_recv.vstep].
  - assert (H : let '(tk, s', r) := enter k (v_s x) in match k with CRecv _ => readq s' = readq (v_s x) | CRead _ => readq (v_s x) ++ concat (map cdata tk) = match r with Some x => res_bytes x | None => [] end ++ readq s' end).
    { destruct k as [cp|n]; [pose proof (get_facts cp (v_s x)) as H; cbn [x_enter]; destruct (x_get q recvf cp (v_s x)) as [[tk s'] r]; tauto|].
      pose proof (enter_read n (v_s x)) as H. destruct (enter (CRead n) (v_s x)) as [[tk s'] r]. apply H. }
    destruct (enter k (v_s x)) as [[tk s'] r]. replace (v_s (fst (v_do id k (tk, s', r) (v_run x) (v_wait x)))) with s' by now destruct r. now apply do_keeps.
  - destruct k as [cp|n]; cbn [x_now].
    + pose proof (get_facts cp (v_s x)) as H. destruct (x_get q recvf cp (v_s x)) as [[tk s'] r]. cbn [fst snd v_s]. unfold keeps. rewrite data_app, bytes_app, data_takes, bytes_takes. cbn [is_read is_recv negb app].
      destruct H as (_ & -> & _). destruct r; unfold read_data, read_bytes; cbn; now rewrite app_nil_r.
    + destruct (Hread (v_s x) n) as (R1 & R2 & R3). destruct (recvf (v_s x) (RRead n)) as [s' r]. cbn [fst snd v_s] in *. unfold keeps. rewrite data_app, bytes_app, data_takes, bytes_takes. cbn [is_read is_recv negb app].
      unfold read_data, read_bytes. cbn. rewrite !app_nil_r, R2, R3. cbn [res_bytes]. now rewrite read_all_bytes.
  - destruct (nth_error (v_run x) i) as [[id k]|]; [|unfold keeps; cbn; now rewrite app_nil_r].
    assert (H : let '(tk, s', r) := resume k (v_s x) in match k with CRecv _ => readq s' = readq (v_s x) | CRead _ => readq (v_s x) ++ concat (map cdata tk) = match r with Some x => res_bytes x | None => [] end ++ readq s' end).
    { destruct k as [cp|n]; [pose proof (get_facts cp (v_s x)) as H; cbn [x_resume]; destruct (x_get q recvf cp (v_s x)) as [[tk s'] r]; tauto|].
      pose proof (resume_read n (v_s x)) as H. destruct (resume (CRead n) (v_s x)) as [[tk s'] r]. destruct (q (v_s x)) as [|f l] eqn:Eq.
      - destruct H as [H _]. destruct (H eq_refl) as (-> & -> & ->). cbn. now rewrite app_nil_r.
      - destruct H as [_ H]. destruct (H ltac:(discriminate)) as (_ & H'). apply H'. }
    destruct (resume k (v_s x)) as [[tk s'] r]. set (rn := firstn i (v_run x) ++ skipn (S i) (v_run x)). replace (v_s (fst (v_do id k (tk, s', r) rn (v_wait x)))) with s' by now destruct r. now apply do_keeps.
  - destruct (v_wake _ cs (v_run x) (v_wait x)) as [run wait]. cbn [fst snd v_s]. unfold keeps. rewrite (Hrq _ _ Hq).
    destruct (clears o); unfold read_data, read_bytes; [cbn; now rewrite app_nil_r|]. rewrite takes_arr, rets_arr. cbn. now rewrite app_nil_r.
Qed.
Theorem run_keeps h : forall x, Forall (quiet takes) h -> keeps (v_s x) (v_s (fst (vrun x h))) (snd (vrun x h)).
Proof.
  induction h as [|o h IH]; intros x HF; cbn [M_recv.vrun]; [unfold keeps; cbn; now rewrite app_nil_r|]. inversion HF; subst. pose proof (step_keeps x o H1) as S1.
  destruct (vstep x o) as [x1 e1]. cbn [fst snd] in S1. specialize (IH x1 H2). destruct (vrun x1 h) as [x2 e2]. cbn [fst snd] in *. unfold keeps in *.
  rewrite data_app, bytes_app, app_assoc, S1, <- app_assoc, IH. now rewrite app_assoc.
Qed.
End GX.

(** ** instances *)
Section IS.
Context {A : Type}.
Lemma mon_hstep hr (s : mon A) o : mon_takes o = false ->
  ((match o with MClear => true | _ => false end) = true /\ m_q (mon_step hr s o) = []) \/
  ((match o with MClear => true | _ => false end) = false /\ exists new, m_q (mon_step hr s o) = m_q s ++ new).
Proof.
  destruct o as [v r d| | |[]| |]; try discriminate; intros _; auto; right; split; auto; cbn [mon_step m_q]; try (exists []; now rewrite app_nil_r).
  unfold mon_edge, mon_start; cbn [m_task m_q m_valid m_ready m_data]. destruct (m_task s) as [| | |]; cbn [m_task]; try (exists []; now rewrite app_nil_r).
  - destruct (_ && _); cbn [m_q]; [eauto|exists []; now rewrite app_nil_r].
  - destruct (_ && _); cbn [m_q]; [eauto|exists []; now rewrite app_nil_r].
Qed.
Lemma snk_hstep hr (s : snk A) o : snk_takes o = false ->
  ((match o with KOp KClear => true | _ => false end) = true /\ k_q (kev_step hr s o) = []) \/
  ((match o with KOp KClear => true | _ => false end) = false /\ exists new, k_q (kev_step hr s o) = k_q s ++ new).
Proof.
  destruct o as [o|v d|]; [destruct o as [b|n| | |[]|]; try discriminate; intros _; auto; right; split; auto; exists []; rewrite app_nil_r|intros _; right; split; auto|intros _; right; split; auto; exists []; now rewrite app_nil_r]; cbn [kev_step snk_step k_q]; try reflexivity.
  - now destruct (Bool.eqb (k_pause s) b).
  - unfold snk_edge, snk_run; cbn [k_task k_q]. destruct (k_task s) as [| | | |]; cbn [k_task k_q]; try (exists []; now rewrite app_nil_r).
    all: destruct (_ && v); [eauto|exists []; now rewrite app_nil_r].
Qed.
Lemma mon_get_ok k (s : mon A) : let '(tk, s', r) := mon_get k s in m_q s = tk ++ m_q s' /\ (r = None -> m_q s' = []) /\ (m_q s <> [] -> tk <> []).
Proof. unfold mon_get. destruct (m_q s) as [|a l] eqn:E; [rewrite E; auto|]. cbn [mon_step m_q]. rewrite E. repeat split; auto; discriminate. Qed.
Lemma snk_get_ok k (s : snk A) : let '(tk, s', r) := snk_get k s in k_q s = tk ++ k_q s' /\ (r = None -> k_q s' = []) /\ (k_q s <> [] -> tk <> []).
Proof. unfold snk_get. destruct (k_q s) as [|a l] eqn:E; [rewrite E; auto|]. cbn [snk_step]. rewrite E. cbn. repeat split; auto; discriminate. Qed.
Lemma mon_get_ok2 k (s : mon A) : let '(tk, s', r) := mon_get k s in m_q s = tk ++ m_q s' /\ (r = None -> m_q s' = []).
Proof. pose proof (mon_get_ok k s) as H. destruct (mon_get k s) as [[tk s'] r]. tauto. Qed.
Lemma snk_get_ok2 k (s : snk A) : let '(tk, s', r) := snk_get k s in k_q s = tk ++ k_q s' /\ (r = None -> k_q s' = []).
Proof. pose proof (snk_get_ok k s) as H. destruct (snk_get k s) as [[tk s'] r]. tauto. Qed.
Lemma mon_one : one_result (fun _ : unit => true) (fun x => x) (mon_get (A := A)).
Proof. intros id k s _. unfold mon_get. destruct (m_q s) as [|a l]; auto. exists a. auto. Qed.
Lemma snk_one : one_result (fun _ : unit => true) (fun x => x) (snk_get (A := A)).
Proof. intros id k s _. unfold snk_get. destruct (k_q s) as [|a l]; auto. exists a. auto. Qed.
End IS.

Lemma amon_hstep c (s : amon) o : amon_takes o = false ->
  ((match o with NClear => true | _ => false end) = true /\ n_q (amon_step c s o) = []) \/
  ((match o with NClear => true | _ => false end) = false /\ exists new, n_q (amon_step c s o) = n_q s ++ new).
Proof.
  destruct o as [v r b|r| |[]| |]; try discriminate; intros _; auto; right; split; auto; cbn [amon_step n_q]; try (exists []; now rewrite app_nil_r).
  unfold amon_edge, amon_start; cbn [n_task n_q n_valid n_ready n_beat n_part]. destruct (n_task s) as [| | |]; cbn [n_task n_q]; try (exists []; now rewrite app_nil_r).
  all: destruct (_ && _); cbn [n_q]; [|exists []; now rewrite app_nil_r]; destruct (rx_beat _ _ _) as [part fs]; cbn [n_q]; eauto.
Qed.
Lemma asnk_hstep c (s : asnk) o : asnk_takes o = false ->
  ((match o with ZOp ZClear => true | _ => false end) = true /\ z_q (zev_step c s o) = []) \/
  ((match o with ZOp ZClear => true | _ => false end) = false /\ exists new, z_q (zev_step c s o) = z_q s ++ new).
Proof.
  destruct o as [o|v b|]; [destruct o as [b|lb lf|r| |[]|]; try discriminate; intros _; auto; right; split; auto; exists []; rewrite app_nil_r|intros _; right; split; auto|intros _; right; split; auto; exists []; now rewrite app_nil_r]; cbn [zev_step asnk_step z_q]; try reflexivity.
  - now destruct (Bool.eqb (z_pause s) b).
  - unfold asnk_edge, asnk_run; cbn [z_task z_q z_part z_readq]. destruct (z_task s) as [| | | |]; cbn [z_task z_q]; try (exists []; now rewrite app_nil_r).
    all: destruct (_ && v); [destruct (rx_beat _ _ _) as [part fs]; cbn [z_q]; eauto|exists []; now rewrite app_nil_r].
Qed.
Lemma amon_rq c s o : amon_takes o = false -> n_readq (amon_step c s o) = n_readq s.
Proof.
  destruct o as [v r b|r| |[]| |]; try discriminate; intros _; try reflexivity. cbn [amon_step]. unfold amon_edge. destruct (n_task (amon_start s)); try reflexivity.
  destruct (_ && _); try reflexivity. destruct (rx_beat _ _ _) as [part fs]. reflexivity.
Qed.
Lemma asnk_rq c s o : asnk_takes o = false -> z_readq (zev_step c s o) = z_readq s.
Proof.
  destruct o as [o|v b|]; [destruct o as [b|lb lf|r| |[]|]; try discriminate; intros _; try reflexivity|intros _|intros _; reflexivity].
  - cbn. now destruct (Bool.eqb (z_pause s) b).
  - cbn [zev_step]. unfold asnk_edge. destruct (z_task (asnk_run s)); try reflexivity. destruct (_ && v); [destruct (rx_beat _ _ _) as [part fs]|]; reflexivity.
Qed.
Lemma amon_hrecv s cp f l : n_q s = f :: l -> n_q (fst (amon_recv s (RRecv cp))) = l /\ n_readq (fst (amon_recv s (RRecv cp))) = n_readq s /\
  snd (amon_recv s (RRecv cp)) = RFrame (if cp then compact f else Ok f).
Proof. intros E. cbn [amon_recv]. rewrite E. auto. Qed.
Lemma asnk_hrecv s cp f l : z_q s = f :: l -> z_q (fst (asnk_recv s (RRecv cp))) = l /\ z_readq (fst (asnk_recv s (RRecv cp))) = z_readq s /\
  snd (asnk_recv s (RRecv cp)) = RFrame (if cp then compact f else Ok f).
Proof. intros E. cbn [asnk_recv]. rewrite E. auto. Qed.
Lemma amon_hread s n : n_q (fst (amon_recv s (RRead n))) = [] /\ n_readq (fst (amon_recv s (RRead n))) = fst (read_all (n_readq s) (n_q s) n) /\
  snd (amon_recv s (RRead n)) = RBytes (snd (read_all (n_readq s) (n_q s) n)).
Proof. cbn [amon_recv]. destruct (n_q s); destruct (read_all (n_readq s) _ n) as [a b]; auto. Qed.
Lemma asnk_hread s n : z_q (fst (asnk_recv s (RRead n))) = [] /\ z_readq (fst (asnk_recv s (RRead n))) = fst (read_all (z_readq s) (z_q s) n) /\
  snd (asnk_recv s (RRead n)) = RBytes (snd (read_all (z_readq s) (z_q s) n)).
Proof. cbn [asnk_recv]. destruct (z_q s); destruct (read_all (z_readq s) _ n) as [a b]; auto. Qed.
Lemma amon_hext s l : n_q (amon_extend s l) = n_q s /\ n_readq (amon_extend s l) = n_readq s ++ l.
Proof. auto. Qed.
Lemma asnk_hext s l : z_q (asnk_extend s l) = z_q s /\ z_readq (asnk_extend s l) = z_readq s ++ l.
Proof. auto. Qed.
Lemma amon_now_ok k s : let '(tk, s', r) := x_now n_q amon_recv k s in n_q s = tk ++ n_q s' /\ (r = None -> n_q s' = []).
Proof. exact (x_now_ok n_q n_readq amon_recv amon_hrecv amon_hread k s). Qed.
Lemma amon_results : one_result is_recv recv_gives (x_enter n_q n_readq amon_recv amon_extend) /\ one_result is_recv recv_gives (x_resume n_q n_readq amon_recv amon_extend) /\ one_result is_recv recv_gives (x_now n_q amon_recv).
Proof. exact (x_results n_q n_readq amon_recv amon_extend amon_hrecv). Qed.
Lemma amon_enter_ok (c : scfg) k s : let '(tk, s', r) := x_enter n_q n_readq amon_recv amon_extend k s in n_q s = tk ++ n_q s' /\ (r = None -> n_q s' = []).
Proof. exact (x_enter_ok n_q n_readq amon_recv amon_extend (amon_step c) amon_takes amon_hrecv amon_hread amon_hext (amon_rq c) k s). Qed.
Lemma amon_resume_ok (c : scfg) k s : let '(tk, s', r) := x_resume n_q n_readq amon_recv amon_extend k s in n_q s = tk ++ n_q s' /\ (r = None -> n_q s' = []) /\ (n_q s <> [] -> tk <> []).
Proof. exact (x_resume_ok n_q n_readq amon_recv amon_extend (amon_step c) amon_takes amon_hrecv amon_hread amon_hext (amon_rq c) k s). Qed.
Lemma asnk_now_ok k s : let '(tk, s', r) := x_now z_q asnk_recv k s in z_q s = tk ++ z_q s' /\ (r = None -> z_q s' = []).
Proof. exact (x_now_ok z_q z_readq asnk_recv asnk_hrecv asnk_hread k s). Qed.
Lemma asnk_results : one_result is_recv recv_gives (x_enter z_q z_readq asnk_recv asnk_extend) /\ one_result is_recv recv_gives (x_resume z_q z_readq asnk_recv asnk_extend) /\ one_result is_recv recv_gives (x_now z_q asnk_recv).
Proof. exact (x_results z_q z_readq asnk_recv asnk_extend asnk_hrecv). Qed.
Lemma asnk_enter_ok (c : scfg) k s : let '(tk, s', r) := x_enter z_q z_readq asnk_recv asnk_extend k s in z_q s = tk ++ z_q s' /\ (r = None -> z_q s' = []).
Proof. exact (x_enter_ok z_q z_readq asnk_recv asnk_extend (zev_step c) asnk_takes asnk_hrecv asnk_hread asnk_hext (asnk_rq c) k s). Qed.
Lemma asnk_resume_ok (c : scfg) k s : let '(tk, s', r) := x_resume z_q z_readq asnk_recv asnk_extend k s in z_q s = tk ++ z_q s' /\ (r = None -> z_q s' = []) /\ (z_q s <> [] -> tk <> []).
Proof. exact (x_resume_ok z_q z_readq asnk_recv asnk_extend (zev_step c) asnk_takes asnk_hrecv asnk_hread asnk_hext (asnk_rq c) k s). Qed.
Lemma mon_eone {A} k (s : mon A) a l : true = true -> m_q s = a :: l -> exists s' r, mon_get k s = ([a], s', Some r).
Proof. unfold mon_get. intros _ ->. eauto. Qed.
Lemma mon_enone {A} k (s : mon A) : true = true -> m_q s = [] -> mon_get k s = ([], s, None).
Proof. unfold mon_get. now intros _ ->. Qed.
Lemma snk_eone {A} k (s : snk A) a l : true = true -> k_q s = a :: l -> exists s' r, snk_get k s = ([a], s', Some r).
Proof. unfold snk_get. intros _ ->. eauto. Qed.
Lemma snk_enone {A} k (s : snk A) : true = true -> k_q s = [] -> snk_get k s = ([], s, None).
Proof. unfold snk_get. now intros _ ->. Qed.
Section IG.
Context {St : Type} (q : St -> list frame) (readq : St -> list Z) (recvf : St -> rop -> St * rres) (extend : St -> list Z -> St).
Lemma x_eone k s a l : is_recv k = true -> q s = a :: l -> exists s' r, x_enter q readq recvf extend k s = ([a], s', Some r).
Proof. destruct k as [cp|n]; [|discriminate]. intros _ E. cbn. unfold x_get. rewrite E. destruct (recvf s (RRecv cp)). eauto. Qed.
Lemma x_enone k s : is_recv k = true -> q s = [] -> x_enter q readq recvf extend k s = ([], s, None).
Proof. destruct k as [cp|n]; [|discriminate]. intros _ E. cbn. unfold x_get. now rewrite E. Qed.
Lemma x_rone k s a l : is_recv k = true -> q s = a :: l -> exists s' r, x_resume q readq recvf extend k s = ([a], s', Some r).
Proof. destruct k as [cp|n]; [|discriminate]. intros _ E. cbn. unfold x_get. rewrite E. destruct (recvf s (RRecv cp)). eauto. Qed.
End IG.
