(** Lemmas for the APB master. *)
From Coq Require Import ZArith Lia List Bool.
From Coq Require Import ZifyBool ZifyNat.
From Verif Require Import Py M_axi M_axil M_apb S_apb.
Import ListNotations.
Open Scope Z_scope.

(** ** the protocol *)
Definition sig_inv (s : apb) : Prop :=
  match b_task s with
  | ASetup r => b_psel s = true /\ b_penable s = false
  | AAcc r => b_psel s = true /\ b_penable s = true
  | _ => b_psel s = false /\ b_penable s = false
  end.

Section Sig.
Variables (L : Z) (ep : bool).

Lemma a_beat_sig pause s x k off d r : b_psel s = false -> b_penable s = false ->
  sig_inv (fst (a_beat L pause s x k off d r)) /\ b_penable (fst (a_beat L pause s x k off d r)) = false.
Proof.
  intros H1 H2. unfold a_beat. destruct (a_word L (snd x) k off) as [[w off']|e]; [destruct pause|]; cbn; auto.
Qed.
Lemma a_loop_sig pause q : forall s, b_psel s = false -> b_penable s = false ->
  sig_inv (fst (a_loop L pause q s)) /\ b_penable (fst (a_loop L pause q s)) = false.
Proof.
  induction q as [|x q IH]; intros s H1 H2; cbn [a_loop].
  - cbn. auto.
  - destruct (0 <? ac_cycles L (snd x)); [now apply a_beat_sig|].
    set (s1 := b_complete _ x _). specialize (IH s1). destruct (a_loop L pause q s1) as [s2 o]. apply IH; auto.
Qed.

Lemma a_edge_sig pause pready prdata pslverr s : sig_inv s ->
  let s' := fst (a_edge L ep pause pready prdata pslverr s) in
  sig_inv s' /\ forall p, apb_next (VEdge (b_psel s) (b_penable s) (b_word s) pready) (VEdge (b_psel s') (b_penable s') (b_word s') p).
Proof.
  intros H s'. unfold s', a_edge. unfold sig_inv in H. destruct (b_task s) as [| | |x|r|r|r|] eqn:E; destruct H as [H1 H2]; rewrite H1, H2; cbn [apb_next].
  - cbn [fst]. unfold sig_inv. rewrite E. auto.
  - destruct (a_loop_sig pause (b_q s) s); auto.
  - cbn [fst]. unfold sig_inv. rewrite E. auto.
  - destruct (a_loop_sig pause (x :: b_q s) s); auto.
  - destruct pause; cbn [fst]; unfold sig_inv; [rewrite E|]; cbn; auto.
  - unfold sig_inv; cbn. rewrite ?H1. auto.
  - destruct pready.
    + unfold a_ack. cbv zeta. destruct (ru_k r + 1 <? ac_cycles L (snd (ru_op r))).
      * edestruct a_beat_sig as [HA HB]; [| |split; [exact HA|intros; exact HB]]; reflexivity.
      * match goal with |- context [a_loop L pause ?q ?s1] => destruct (a_loop_sig pause q s1 eq_refl eq_refl) as [HA HB]; destruct (a_loop L pause q s1) end.
        auto.
    + cbn [fst]. unfold sig_inv. rewrite E. auto.
  - cbn [fst]. unfold sig_inv. rewrite E. auto.
Qed.

Lemma b_step_sig s o : sig_inv s -> sig_inv (fst (b_step L ep s o)).
Proof.
  intros H. destruct o as [c|c|n| |n|p pr pd pe|b]; cbn [b_step].
  - exact H.
  - exact H.
  - destruct (nth_error (b_pend s) n); exact H.
  - destruct (b_task s) eqn:E; cbn [fst]; auto. destruct (b_q s); cbn [fst]; auto. unfold sig_inv in *. rewrite E in H. exact H.
  - destruct (nth_error (b_wait s) n) as [[x [d|]]|]; exact H.
  - now apply a_edge_sig.
  - destruct b; cbn; [unfold sig_inv; cbn; auto|]. unfold sig_inv in *. destruct (b_task s) eqn:E; cbn; rewrite ?E; auto.
Qed.

Lemma b_trace_legal h : forall s a, sig_inv s ->
  (forall p, apb_next a (VEdge (b_psel s) (b_penable s) (b_word s) p)) -> apb_legal a (b_trace L ep s h).
Proof.
  induction h as [|o h IH]; intros s a Hi Ha; cbn [b_trace]; [exact I|].
  pose proof (b_step_sig s o Hi) as Hi'.
  destruct o as [c|c|n| |n|p pr pd pe|b].
  5:{ apply IH; auto. cbn [b_step]. destruct (nth_error (b_wait s) n) as [[x [d|]]|]; exact Ha. }
  1,2: apply IH; auto.
  - apply IH; auto. cbn [b_step]. destruct (nth_error (b_pend s) n); exact Ha.
  - apply IH; auto. cbn [b_step]. destruct (b_task s); cbn [fst]; auto. destruct (b_q s); exact Ha.
  - cbn [app apb_legal]. split; [apply Ha|]. apply IH; auto. cbn [b_step].
    now apply (a_edge_sig p pr pd pe s Hi).
  - destruct b.
    + cbn [app apb_legal]. split; [exact I|]. apply IH; [assumption|]. intros p. cbn. split; reflexivity.
    + apply IH; [assumption|]. intros p. cbn [b_step a_reset fst]. destruct (b_task s); apply Ha.
Qed.
End Sig.
