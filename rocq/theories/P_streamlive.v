(** Liveness of a connected source and sink: everything queued is delivered. *)
From Coq Require Import ZArith Lia List Bool.
From Coq Require Import ZifyBool ZifyNat.
From Verif Require Import Py M_stream S_stream P_stream.
Import ListNotations.
Open Scope Z_scope.

Section P.
Context {A : Type}.

(** a sleeping source has nothing to send *)
Definition src_sleep_ok (s : src A) : Prop := s_task s = TSleep -> s_q s = [] /\ s_valid s = false.

Lemma src_sleep_step hr s o : src_sleep_ok s -> src_sleep_ok (src_step hr s o).
Proof.
  unfold src_sleep_ok. intros H. destruct o as [x|b|n| |b|r]; cbn [src_step].
  - destruct (src_full s); auto. cbn. destruct (s_task s); discriminate.
  - exact H.
  - exact H.
  - cbn. intros E. destruct (H E). auto.
  - destruct b; cbn; [discriminate|]. destruct (s_task s); auto; discriminate.
  - unfold src_edge. destruct (s_task s) eqn:Et.
    + congruence.
    + destruct ((negb hr || r) && s_valid s || negb (s_valid s)); [|intros E; congruence].
      destruct (s_q s); [auto|]. destruct (negb (s_pause s)); discriminate.
    + auto.
Qed.

Lemma chan_sleep_step dflt hr c o : src_sleep_ok (c_src c) -> src_sleep_ok (c_src (chan_step dflt hr c o)).
Proof.
  intros H. destruct o as [o|o|]; cbn [chan_step].
  - destruct o; cbn [c_src]; auto; now apply src_sleep_step.
  - exact H.
  - unfold settle. cbn [c_src c_snk].
    match goal with |- context [if ?b then _ else _] => destruct b end;
    apply (src_sleep_step hr _ (SEdge (k_ready (c_snk c)))); exact H.
Qed.

Lemma chan_sleep_trace dflt hr ops : forall c, src_sleep_ok (c_src c) ->
  src_sleep_ok (c_src (snd (chan_trace dflt hr c ops))).
Proof.
  induction ops as [|o ops IH]; intros c H; [exact H|]. cbn [chan_trace].
  specialize (IH (chan_step dflt hr c o) (chan_sleep_step dflt hr c o H)).
  destruct (chan_trace dflt hr (chan_step dflt hr c o) ops) as [[? ?] ?]. exact IH.
Qed.

Lemma chan_inv_trace dflt hr ops : forall c, chan_inv hr c ->
  chan_inv hr (snd (chan_trace (A := A) dflt hr c ops)).
Proof.
  induction ops as [|o ops IH]; intros c H; [exact H|]. cbn [chan_trace].
  specialize (IH (chan_step dflt hr c o) (chan_step_inv dflt hr c o H)).
  destruct (chan_trace dflt hr (chan_step dflt hr c o) ops) as [[? ?] ?]. exact IH.
Qed.

(** both running, neither paused, no limit *)
Definition running (c : chan A) : Prop :=
  s_task (c_src c) <> TDead /\ s_pause (c_src c) = false /\
  k_task (c_snk c) <> KDead /\ k_pause (c_snk c) = false /\ k_limit (c_snk c) <= 0.

(** the sink will not drop ready at the next edge *)
Definition steady (k : snk A) : Prop := match k_task k with KEdge _ ps => ps = false | _ => True end.

Definition clk dflt hr c := chan_step (A := A) dflt hr c CClk.

Lemma clk_src dflt hr c : c_src (clk dflt hr c) = src_edge hr (c_src c) (k_ready (c_snk c)).
Proof. unfold clk. cbn [chan_step]. unfold settle. cbn [c_src c_snk]. match goal with |- context [if ?b then _ else _] => destruct b end; reflexivity. Qed.

Lemma clk_snk dflt hr c :
  exists v d, c_snk (clk dflt hr c) = snk_edge hr (c_snk c) v d \/ c_snk (clk dflt hr c) = snk_wake (snk_edge hr (c_snk c) v d).
Proof.
  unfold clk. cbn [chan_step]. unfold settle. cbn [c_src c_snk].
  match goal with |- context [snk_edge hr ?k ?v ?d] => exists v, d end.
  match goal with |- context [if ?b then _ else _] => destruct b end; auto.
Qed.

Lemma snk_edge_pause hr k v (d : A) : k_pause (snk_edge hr k v d) = k_pause k /\ k_limit (snk_edge hr k v d) = k_limit k.
Proof. destruct k as [q p l w t r]. destruct t; cbn; auto. Qed.

Lemma running_clk dflt hr c : running c -> running (clk dflt hr c).
Proof.
  intros (H1 & H2 & H3 & H4 & H5). unfold running. rewrite clk_src.
  split; [|split].
  - unfold src_edge. destruct (s_task (c_src c)) eqn:E; try congruence.
    destruct ((negb hr || k_ready (c_snk c)) && _ || _); [|congruence].
    destruct (s_q (c_src c)); [discriminate|]. destruct (negb (s_pause (c_src c))); discriminate.
  - unfold src_edge. destruct (s_task (c_src c)) eqn:E; auto.
    destruct ((negb hr || k_ready (c_snk c)) && _ || _); auto.
    destruct (s_q (c_src c)); auto. destruct (negb (s_pause (c_src c))); auto.
  - destruct (clk_snk dflt hr c) as (v & d & [->| ->]); pose proof (snk_edge_pause hr (c_snk c) v d) as [E1 E2].
    + rewrite E1, E2. repeat split; auto. intros E. apply snk_edge_dead in E. tauto.
    + cbn [snk_wake k_task k_pause k_limit]. rewrite E1, E2. repeat split; auto.
      destruct (k_task (snk_edge hr (c_snk c) v d)) eqn:E; try discriminate. apply snk_edge_dead in E. tauto.
Qed.

Lemma st_full_neg limit (q : list A) : limit <= 0 -> st_full limit q = false.
Proof. intros H. unfold st_full. assert (E : (0 <? limit) = false) by lia. now rewrite E. Qed.

(** one edge makes an unpaused sink steady; a steady sink becomes (and stays) ready, unless it
    sleeps with ready low, which an unpaused and unlimited sink does not *)
Lemma edge_steady k v (d : A) : k_pause k = false -> k_task k <> KDead -> steady (snk_edge true k v d).
Proof.
  unfold steady. destruct k as [q p l w t r]. cbn. intros -> Hd. destruct t as [| |n|n ps|]; cbn; try congruence; auto;
  match goal with |- context [if ?b then (if ?n then _ else KSleep) else _] => destruct b, n; auto end.
Qed.

Lemma wake_steady (k : snk A) : steady k -> steady (snk_wake k).
Proof. unfold steady. cbn. destruct (k_task k); auto. Qed.

Lemma edge_ready k v (d : A) : k_pause k = false -> k_task k <> KDead -> k_limit k <= 0 -> steady k ->
  snk_awake k -> k_ready (snk_edge true k v d) = true.
Proof.
  unfold steady, snk_awake, snk_full. destruct k as [q p l w t r]. cbn. intros -> Hd Hl Hs Hw.
  destruct t as [| |n|n ps|]; cbn; try congruence; try (rewrite st_full_neg by lia; reflexivity).
  - rewrite st_full_neg by lia. now rewrite Hs.
  - destruct r; auto. rewrite st_full_neg in Hw by lia. destruct (Hw eq_refl); discriminate.
Qed.

Lemma wake_awake (k : snk A) : snk_awake k -> snk_awake (snk_wake k).
Proof. unfold snk_awake. cbn. destruct (k_task k); auto. Qed.

(** ready at every later edge *)
Definition goes (hr : bool) (c : chan A) : Prop :=
  running c /\ src_sleep_ok (c_src c) /\ chan_inv hr c /\
  (hr = true -> snk_awake (c_snk c) /\ steady (c_snk c) /\ k_ready (c_snk c) = true).

Lemma goes_clk dflt hr c : goes hr c -> goes hr (clk dflt hr c).
Proof.
  intros (H1 & H2 & H3 & H4). split; [now apply running_clk|]. split; [now apply chan_sleep_step|].
  split; [now apply chan_step_inv|]. intros Eh. subst hr. destruct (H4 eq_refl) as (H5 & H6 & H7).
  destruct H1 as (_ & _ & R1 & R2 & R3).
  destruct (clk_snk dflt true c) as (v & d & [->| ->]).
  - split; [now apply snk_awake_edge|]. split; [now apply edge_steady|]. now apply edge_ready.
  - split; [now apply wake_awake, snk_awake_edge|]. split; [now apply wake_steady, edge_steady|].
    cbn [snk_wake k_ready]. now apply edge_ready.
Qed.

Lemma goes_after2 dflt hr c : running c -> src_sleep_ok (c_src c) -> chan_inv hr c ->
  (hr = true -> snk_awake (c_snk c)) -> goes hr (clk dflt hr (clk dflt hr c)).
Proof.
  intros H1 H2 H3 H4.
  pose proof (running_clk dflt hr c H1) as R1. pose proof (running_clk dflt hr _ R1) as R2.
  pose proof (chan_sleep_step dflt hr c CClk H2) as S1. pose proof (chan_sleep_step dflt hr _ CClk S1) as S2.
  pose proof (chan_step_inv dflt hr c CClk H3) as I1. pose proof (chan_step_inv dflt hr _ CClk I1) as I2.
  split; [exact R2|]. split; [exact S2|]. split; [exact I2|]. intros Eh. subst hr. specialize (H4 eq_refl).
  assert (W1 : snk_awake (c_snk (clk dflt true c)) /\ steady (c_snk (clk dflt true c))).
  { destruct H1 as (_ & _ & X1 & X2 & X3). destruct (clk_snk dflt true c) as (v & d & [->| ->]).
    - split; [now apply snk_awake_edge|now apply edge_steady].
    - split; [now apply wake_awake, snk_awake_edge|now apply wake_steady, edge_steady]. }
  destruct W1 as [W1 W2]. destruct R1 as (_ & _ & X1 & X2 & X3).
  destruct (clk_snk dflt true (clk dflt true c)) as (v & d & [->| ->]).
  - split; [now apply snk_awake_edge|]. split; [now apply edge_steady|]. now apply edge_ready.
  - split; [now apply wake_awake, snk_awake_edge|]. split; [now apply wake_steady, edge_steady|].
    cbn [snk_wake k_ready]. now apply edge_ready.
Qed.

(** clock edges still needed *)
Definition todo (s : src A) : nat :=
  if s_valid s then S (length (s_q s)) else match s_q s with [] => 0%nat | q => S (length q) end.

Lemma todo_clk dflt hr c : goes hr c -> todo (c_src (clk dflt hr c)) = pred (todo (c_src c)).
Proof.
  intros (H1 & H2 & H3 & H4). rewrite clk_src. destruct c as [s k]. cbn [c_src c_snk] in *.
  destruct H1 as (R1 & R2 & _). cbn [c_src c_snk] in *.
  assert (Hr : negb hr || k_ready k = true). { destruct hr; [|reflexivity]. destruct (H4 eq_refl) as (_ & _ & ->). reflexivity. }
  unfold src_edge. rewrite Hr. unfold todo.
  destruct (s_task s) eqn:Et.
  - congruence.
  - cbn [andb]. rewrite orb_negb_r. rewrite R2. cbn [negb].
    destruct (s_q s) as [|x q]; cbn; destruct (s_valid s); reflexivity.
  - destruct (H2 Et) as [-> ->]. reflexivity.
Qed.

Lemma todo_clk_le dflt hr c : running c -> src_sleep_ok (c_src c) -> (todo (c_src (clk dflt hr c)) <= todo (c_src c))%nat.
Proof.
  intros (R1 & R2 & _) H2. rewrite clk_src. destruct c as [s k]. cbn [c_src c_snk] in *.
  unfold src_edge. destruct (s_task s) eqn:Et; [congruence| |lia].
  rewrite R2. cbn [negb]. unfold todo at 2. destruct (s_valid s) eqn:Ev; cbn [negb orb andb].
  - rewrite andb_true_r, orb_false_r. destruct (negb hr || k_ready k).
    + unfold todo. destruct (s_q s); cbn; lia.
    + unfold todo. rewrite Ev. lia.
  - rewrite orb_true_r. unfold todo. destruct (s_q s); cbn; lia.
Qed.

Lemma iter_goes dflt hr : forall n c, goes hr c -> goes hr (clocks dflt hr n c) /\
  todo (c_src (clocks dflt hr n c)) = (todo (c_src c) - n)%nat.
Proof.
  induction n as [|n IH]; intros c H; cbn [clocks]; [split; [auto|lia]|].
  destruct (IH c H) as [H1 H2]. split; [now apply goes_clk|]. pose proof (todo_clk dflt hr _ H1) as H3. unfold clk in H3. lia.
Qed.

Lemma iter_shift dflt hr n : forall c : chan A, clocks dflt hr n (clk dflt hr c) = clk dflt hr (clocks dflt hr n c).
Proof. induction n as [|n IH]; intros c; cbn [clocks]; [reflexivity|]. now rewrite IH. Qed.

Lemma contents_iter dflt hr (c : chan A) n : chan_inv hr c -> chan_alive hr c -> contents (clocks dflt hr n c) = contents c.
Proof.
  intros Hi Ha. enough (H : contents (clocks dflt hr n c) = contents c /\ chan_inv hr (clocks dflt hr n c) /\
    chan_alive hr (clocks dflt hr n c)) by tauto.
  induction n as [|n IH]; [auto|]. cbn [clocks]. destruct IH as (H1 & H2 & H3).
  split; [rewrite <- H1; exact (chan_clk_exact dflt hr _ H2 H3)|]. split; [now apply chan_step_inv|now apply chan_alive_step].
Qed.

Lemma deliver dflt hr (c : chan A) n : running c -> src_sleep_ok (c_src c) -> chan_inv hr c ->
  (hr = true -> snk_awake (c_snk c)) -> (length (s_q (c_src c)) + 3 <= n)%nat ->
  let c' := clocks dflt hr n c in
  k_q (c_snk c') = contents c /\ s_q (c_src c') = [] /\ s_valid (c_src c') = false.
Proof.
  intros H1 H2 H3 H4 Hn. cbv zeta. destruct n as [|[|n]]; try lia.
  assert (E : clocks dflt hr (S (S n)) c = clocks dflt hr n (clk dflt hr (clk dflt hr c))).
  { rewrite !iter_shift. reflexivity. }
  pose proof (goes_after2 dflt hr c H1 H2 H3 H4) as Hg.
  destruct (iter_goes dflt hr n _ Hg) as [_ Ht]. rewrite <- E in Ht.
  pose proof (todo_clk_le dflt hr c H1 H2) as T1.
  pose proof (todo_clk_le dflt hr _ (running_clk dflt hr c H1) (chan_sleep_step dflt hr c CClk H2)) as T2.
  assert (T0 : (todo (c_src c) <= S (length (s_q (c_src c))))%nat).
  { unfold todo. destruct (s_valid (c_src c)); [lia|]. destruct (s_q (c_src c)); cbn; lia. }
  assert (Z : todo (c_src (clocks dflt hr (S (S n)) c)) = 0%nat) by lia.
  assert (Ec : contents (clocks dflt hr (S (S n)) c) = contents c).
  { apply contents_iter; auto. intros _. apply H1. }
  remember (clocks dflt hr (S (S n)) c) as c' eqn:Ec'. clear E Ec' Ht.
  unfold todo in Z. destruct (s_valid (c_src c')) eqn:Ev; [discriminate|]. destruct (s_q (c_src c')) eqn:Eq; [|discriminate].
  split; [|auto]. rewrite <- Ec. unfold contents, on_wire. rewrite Ev, Eq. cbn. now rewrite app_nil_r.
Qed.
End P.
