(** Progress of the clocked channel (M_cchan.v): when it is clocked and not paused for three edges, what can move moves. *)
From Coq Require Import ZArith Lia List Bool.
From Coq Require Import ZifyBool ZifyNat.
From Verif Require Import Py M_stream M_cchan P_cchan.
From Verif Require Import M_sys S_clk P_ulive.
Import ListNotations.
Open Scope Z_scope.

Section P.
Context {A : Type}.
Variable dflt : A.
Notation cchan := (cchan A).
Notation cabs := (@cabs A).

Inductive cact := AC (o : chop) | ASend (x : A) | ARecv.
Definition act_ok (c : cchan) (a : option cact) (c' : cchan) : Prop :=
  match a with
  | None => c' = c
  | Some (AC o) => c' = cc_step dflt c o
  | Some (ASend x) => cc_room c = true /\ c' = cc_send c x
  | Some ARecv => cc_got c <> [] /\ c' = cc_recv c
  end.
Definition did (c : cchan) (a : option cact) (e : cev) : Prop := exists o, a = Some (AC o) /\ In e (cevs c o).

Lemma act_ci (c : cchan) a c' : ci c -> act_ok c a c' -> ci c'.
Proof.
  intros H Ha. destruct a as [[o|x|]|]; cbn in Ha.
  - subst c'. now apply cc_step_abs.
  - destruct Ha as [Hr ->]. now apply cc_send_abs.
  - destruct Ha as [Hr ->]. destruct (cc_got c) as [|x q] eqn:E; [congruence|]. now apply (cc_recv_abs c x q).
  - now subst c'.
Qed.

Lemma room_app (x y : list A) : q_room (x ++ y) = true -> q_room x = true.
Proof. unfold q_room, q_limit. rewrite app_length. intros H. apply Nat.ltb_lt in H. apply Nat.ltb_lt. lia. Qed.
Lemma room_full (q : list A) : q_room q = true -> st_full 2 q = false.
Proof. intros H. rewrite full2, H. reflexivity. Qed.

Definition cev_dec (c : cchan) (a : option cact) (e : cev) : {did c a e} + {~ did c a e}.
Proof.
  destruct a as [[o|x|]|]; try (right; intros (o' & E & _); discriminate).
  assert (D : forall x y : cev, {x = y} + {x <> y}) by decide equality.
  destruct (in_dec D e (cevs c o)) as [i|n]; [left; exists o; auto|right; intros (o' & E & Hi)]. injection E as <-. contradiction.
Defined.

Lemma fold_no_ld l (a : chan A) : ~ In Ld l -> can_load a = true -> can_load (fold_left cev_do l a) = true.
Proof.
  revert a. induction l as [|e l IH]; intros a Hn Ha; cbn [fold_left]; auto.
  assert (e = Xf) as -> by (destruct e; auto; exfalso; apply Hn; left; reflexivity).
  apply IH; [intros Hi; apply Hn; right; exact Hi|]. cbn. unfold ch_xfer. unfold can_load in Ha. destruct (ch_reg a) eqn:E; [discriminate|]. unfold can_load. rewrite E. exact Ha.
Qed.
Lemma fold_no_xf l (a : chan A) : ~ In Xf l -> can_xfer a = true -> can_xfer (fold_left cev_do l a) = true.
Proof.
  revert a. induction l as [|e l IH]; intros a Hn Ha; cbn [fold_left]; auto.
  assert (e = Ld) as -> by (destruct e; auto; exfalso; apply Hn; left; reflexivity).
  apply IH; [intros Hi; apply Hn; right; exact Hi|]. cbn. unfold ch_load. pose proof Ha as Hb. unfold can_xfer in Ha. destruct (ch_reg a) eqn:E; [exact Hb|discriminate].
Qed.
Lemma load_stays (c : cchan) a c' : ci c -> act_ok c a c' -> ~ did c a Ld -> can_load (cabs c) = true -> can_load (cabs c') = true.
Proof.
  intros H Ha Hn Hl. destruct a as [[o|x|]|]; cbn in Ha.
  - subst c'. destruct (cc_step_abs dflt c o H) as [_ ->]. apply fold_no_ld; auto. intros Hi. apply Hn. exists o. auto.
  - destruct Ha as [Hr ->]. destruct (cc_send_abs c x H Hr) as [_ ->]. unfold can_load, ch_push in *. cbn [ch_reg ch_src] in *. destruct (ch_reg (cabs c)); [discriminate|]. destruct (ch_src (cabs c)); reflexivity.
  - destruct Ha as [Hr ->]. destruct (cc_got c) as [|x q] eqn:E; [congruence|]. destruct (cc_recv_abs c x q H E) as (_ & _ & ->). exact Hl.
  - now subst c'.
Qed.
Lemma xfer_stays (c : cchan) a c' : ci c -> act_ok c a c' -> ~ did c a Xf -> can_xfer (cabs c) = true -> can_xfer (cabs c') = true.
Proof.
  intros H Ha Hn Hl. destruct a as [[o|x|]|]; cbn in Ha.
  - subst c'. destruct (cc_step_abs dflt c o H) as [_ ->]. apply fold_no_xf; auto. intros Hi. apply Hn. exists o. auto.
  - destruct Ha as [Hr ->]. destruct (cc_send_abs c x H Hr) as [_ ->]. exact Hl.
  - destruct Ha as [Hr ->]. destruct (cc_got c) as [|x q] eqn:E; [congruence|]. destruct (cc_recv_abs c x q H E) as (_ & E2 & ->).
    unfold can_xfer in *. cbn. cbn in Hl, E2. rewrite E2 in Hl. destruct (if taken c then None else wire (cc_src c)); auto.
    unfold q_room, q_limit in *. cbn [length] in Hl. apply Nat.ltb_lt in Hl. change (Nat.ltb (length (q ++ coming c)) 2 = true). apply Nat.ltb_lt. lia.
  - now subst c'.
Qed.

(** *** the source *)
Definition pend_s (c : cchan) : Prop := exists e, cc_edge c = Some e /\ ed_src e = false.
Lemma pend_loads (c : cchan) : ci c -> pend_s c -> can_load (cabs c) = true -> calm c -> loads c = true.
Proof.
  intros H (e & Ee & Es) Hl [Hp _]. unfold loads. rewrite Ee, Es, Hp. cbn [negb andb]. rewrite andb_true_r.
  unfold can_load, P_cchan.cabs, taken in Hl. cbn in Hl. rewrite Ee, Es in Hl. cbn [negb] in Hl. rewrite andb_true_r in Hl.
  destruct H. rewrite Ee in ci_edge. destruct ci_edge as (Ha & _). destruct (Ha Es) as (Hv & Hd & _). unfold wire in Hl. rewrite Hv in Hl. rewrite Hv.
  destruct (ed_v e); cbn [andb negb] in *; [|rewrite orb_true_r; cbn; destruct (s_q (cc_src c)); [discriminate|reflexivity]].
  rewrite Hd in Hl by reflexivity. destruct (ed_r e); [|discriminate]. cbn. destruct (s_q (cc_src c)); [discriminate|reflexivity].
Qed.
Lemma sample_pend (c : cchan) : ci c -> cc_edge c = None -> can_load (cabs (cc_sample dflt c)) = true -> pend_s (cc_sample dflt c).
Proof.
  intros H Ee Hl. assert (Hq : s_q (cc_src c) <> []).
  { intros Hq. assert (E : ch_src (cabs (cc_sample dflt c)) = s_q (cc_src c)).
    { unfold P_cchan.cabs. cbn [ch_src]. unfold cc_sample, cc_settle. cbn [cc_edge]. match goal with |- context [if ?b then _ else _] => destruct b end; reflexivity. }
    unfold can_load in Hl. rewrite E, Hq in Hl. destruct (ch_reg _); discriminate. }
  assert (Ht : s_task (cc_src c) = TEdge).
  { destruct H. destruct (s_task (cc_src c)) eqn:E; auto; try congruence. destruct (ci_sleep eq_refl). congruence. }
  unfold cc_sample, cc_settle. cbn [cc_edge ed_src ed_snk]. rewrite Ht. cbn [andb]. eexists. split; reflexivity.
Qed.
Lemma edge_pend_s (c : cchan) : ci c -> can_load (cabs (cc_step dflt c OEdge)) = true -> pend_s (cc_step dflt c OEdge).
Proof. intros H. destruct (passed_ci c H) as (P1 & _ & P3). apply (sample_pend _ P1 P3). Qed.

Lemma pend_s_stays (c : cchan) a c' : ci c -> calm c -> act_ok c a c' -> ~ did c a Ld -> can_load (cabs c) = true -> pend_s c -> pend_s c'.
Proof.
  intros H Hc Ha Hn Hl Hp. pose proof (pend_loads c H Hp Hl Hc) as HL. destruct Hp as (e & Ee & Es).
  destruct a as [[o|x|]|]; cbn in Ha.
  - destruct o; subst c'; cbn [cc_step]; try (exists e; auto; fail).
    + exfalso. apply Hn. exists OEdge. split; auto. cbn. rewrite HL. left. reflexivity.
    + exfalso. apply Hn. exists OSrc. split; auto. cbn. rewrite HL. left. reflexivity.
    + unfold cc_snkpass. rewrite Ee. destruct (ed_snk e); [exists e; auto|]. unfold cc_settle. cbn [cc_edge ed_src ed_snk]. rewrite Es. cbn [andb]. eexists. split; [reflexivity|]. reflexivity.
  - destruct Ha as [_ ->]. exists e. auto.
  - destruct Ha as [_ ->]. exists e. auto.
  - subst c'. exists e. auto.
Qed.

(** *** the sink *)
Definition pend_k (c : cchan) : Prop := exists e, cc_edge c = Some e /\ ed_snk e = false.
Definition steady (k : snk A) : Prop := match k_task k with KEdge _ ps => ps = false | _ => True end.
Lemma wake_steady (k : snk A) : steady k -> steady (snk_wake k). Proof. unfold steady, snk_wake. cbn. destruct (k_task k); auto. Qed.
Lemma run_steady (k : snk A) : k_pause k = false -> steady k -> steady (snk_run k).
Proof. unfold steady, snk_run. cbn. intros H. destruct (k_task k); auto. Qed.
Lemma settle_steady (c : cchan) : steady (cc_snk c) -> steady (cc_snk (cc_settle c)).
Proof. intros H. unfold cc_settle. destruct (cc_edge c); auto. destruct (_ && _); auto. cbn. destruct (_ || _); auto. now apply wake_steady. Qed.
Lemma settle_ready (c : cchan) : k_ready (cc_snk (cc_settle c)) = k_ready (cc_snk c).
Proof. unfold cc_settle. destruct (cc_edge c); auto. destruct (_ && _); auto. cbn. destruct (_ || _); auto. Qed.
Lemma settle_pause (c : cchan) : k_pause (cc_snk (cc_settle c)) = k_pause (cc_snk c).
Proof. unfold cc_settle. destruct (cc_edge c); auto. destruct (_ && _); auto. cbn. destruct (_ || _); auto. Qed.

(** after the sink's pass *)
Lemma snkpass_steady (c : cchan) : ci c -> k_pause (cc_snk c) = false -> pend_k c \/ steady (cc_snk c) -> steady (cc_snk (cc_snkpass c)).
Proof.
  intros H Hp Hs. unfold cc_snkpass. destruct (cc_edge c) as [e|] eqn:Ee; [|destruct Hs as [(e & E & _)|Hs]; [congruence|auto]].
  destruct (ed_snk e) eqn:Ek; [destruct Hs as [(e' & E & E')|Hs]; [congruence|auto]|].
  apply settle_steady. cbn [cc_snk]. destruct H. rewrite Ee in ci_edge. destruct ci_edge as (_ & Hb & _). destruct (Hb Ek) as (_ & n & p & Ht).
  destruct (snk_edge_ci (cc_snk c) (ed_v e) (ed_d e) n p Ht ci_kl ci_rdy ci_len) as (_ & _ & _ & _ & _ & _ & _ & _ & _ & H). exact (H Hp).
Qed.
Lemma snkpass_ready (c : cchan) : ci c -> steady (cc_snk c) -> q_room (ch_snk (cabs c)) = true -> pend_k c \/ k_ready (cc_snk c) = true ->
  k_ready (cc_snk (cc_snkpass c)) = true.
Proof.
  intros H Hs Hr Hk. unfold cc_snkpass. destruct (cc_edge c) as [e|] eqn:Ee; [|destruct Hk as [(e & E & _)|Hk]; [congruence|auto]].
  destruct (ed_snk e) eqn:Ek; [destruct Hk as [(e' & E & E')|Hk]; [congruence|auto]|].
  rewrite settle_ready. cbn [cc_snk]. destruct H. rewrite Ee in ci_edge. destruct ci_edge as (_ & Hb & _). destruct (Hb Ek) as (Hrd & n & p & Ht).
  destruct (snk_edge_ci (cc_snk c) (ed_v e) (ed_d e) n p Ht ci_kl ci_rdy ci_len) as (_ & _ & _ & Kq & _ & _ & Kr & _). rewrite Kr, Kq.
  unfold steady in Hs. rewrite Ht in Hs. subst p. unfold P_cchan.cabs, coming in Hr. cbn in Hr. rewrite Ee, Ek in Hr. cbn [negb] in Hr. rewrite andb_true_r in Hr.
  rewrite Hrd, (room_full _ Hr). reflexivity.
Qed.
Lemma srcpass_snk (c : cchan) : k_ready (cc_snk (cc_srcpass c)) = k_ready (cc_snk c) /\ k_pause (cc_snk (cc_srcpass c)) = k_pause (cc_snk c) /\
  (steady (cc_snk c) -> steady (cc_snk (cc_srcpass c))).
Proof.
  unfold cc_srcpass. destruct (cc_edge c) as [e|]; auto. destruct (ed_src e); auto. rewrite settle_ready, settle_pause. split; [reflexivity|]. split; [reflexivity|].
  intros H. now apply settle_steady.
Qed.
Lemma snkpass_pause (c : cchan) : ci c -> k_pause (cc_snk (cc_snkpass c)) = k_pause (cc_snk c).
Proof.
  intros H. unfold cc_snkpass. destruct (cc_edge c) as [e|] eqn:Ee; auto. destruct (ed_snk e) eqn:Ek; auto. rewrite settle_pause. cbn [cc_snk].
  destruct H. rewrite Ee in ci_edge. destruct ci_edge as (_ & Hb & _). destruct (Hb Ek) as (_ & n & p & Ht).
  now destruct (snk_edge_ci (cc_snk c) (ed_v e) (ed_d e) n p Ht ci_kl ci_rdy ci_len) as (_ & ? & _).
Qed.
Lemma passed_steady (c : cchan) : ci c -> k_pause (cc_snk c) = false -> pend_k c \/ steady (cc_snk c) ->
  steady (cc_snk (passed c)) /\ k_pause (cc_snk (passed c)) = false.
Proof.
  intros H Hp Hs. unfold passed. destruct (srcpass_snk (cc_snkpass c)) as (_ & E & Hst). rewrite E, snkpass_pause by auto. split; auto. apply Hst. now apply snkpass_steady.
Qed.
Lemma sample_steady (c : cchan) : k_pause (cc_snk c) = false -> steady (cc_snk c) -> steady (cc_snk (cc_sample dflt c)).
Proof. intros Hp Hs. apply settle_steady. cbn [cc_snk]. now apply run_steady. Qed.
(** after an edge the sink will make a pass or is asleep *)
Lemma sample_pend_k (c : cchan) : ci c -> cc_edge c = None -> can_xfer (cabs (cc_sample dflt c)) = true -> k_pause (cc_snk c) = false ->
  pend_k (cc_sample dflt c) \/ (k_ready (cc_snk (cc_sample dflt c)) = true /\ steady (cc_snk (cc_sample dflt c))).
Proof.
  intros H Ee Hx Hp.
  assert (D : (exists n p, k_task (snk_run (cc_snk c)) = KEdge n p) \/ k_task (cc_snk c) = KSleep).
  { destruct H. unfold snk_run. cbn. destruct (k_task (cc_snk c)); try (left; eexists; eexists; reflexivity); [|right; reflexivity]. congruence. }
  destruct D as [(n & p & Et)|Et].
  - left. unfold cc_sample, cc_settle. cbn [cc_edge ed_src ed_snk]. rewrite Et. rewrite andb_false_r. eexists. split; reflexivity.
  - right. assert (Er : k_ready (cc_snk c) = true).
    { destruct (k_ready (cc_snk c)) eqn:Er; auto. destruct (ci_awake _ H Et Er) as [Hf|Hf]; [|congruence]. exfalso.
      unfold snk_full in Hf. rewrite (ci_kl _ H) in Hf. destruct (sample_ci dflt c H Ee) as (_ & E & _). rewrite Er, andb_false_r in E. rewrite E in Hx.
      unfold can_xfer in Hx. destruct (ch_reg (cabs c)); [|discriminate]. cbn [P_cchan.cabs ch_snk] in Hx. apply room_app in Hx. rewrite room_full in Hf by exact Hx. discriminate. }
    unfold cc_sample. rewrite settle_ready. split; [exact Er|]. apply settle_steady. unfold steady, snk_run. cbn. rewrite Et. exact I.
Qed.

(** stage 1: the sink has made a pass since pause is off, or will *)
Definition st1 (c : cchan) : Prop := pend_k c \/ steady (cc_snk c).
Definition st2 (c : cchan) : Prop := steady (cc_snk c) /\ (pend_k c \/ k_ready (cc_snk c) = true).

Lemma sink_op (c : cchan) a c' : (forall o, a <> Some (AC o)) -> act_ok c a c' -> cc_edge c' = cc_edge c /\ k_ready (cc_snk c') = k_ready (cc_snk c) /\ (steady (cc_snk c) -> steady (cc_snk c')).
Proof.
  intros Hn Ha. destruct a as [[o|x|]|]; cbn in Ha.
  - exfalso. now apply (Hn o).
  - destruct Ha as [_ ->]. auto.
  - destruct Ha as [_ ->]. unfold cc_recv. cbn. split; [reflexivity|]. destruct (k_q (cc_snk c)); auto. split; [reflexivity|]. unfold steady. cbn. destruct (k_task (cc_snk c)); auto.
  - subst c'. auto.
Qed.
Lemma chan_op (c : cchan) o : calm c -> calm (cc_step dflt c o) -> o <> OEdge -> o <> OSrc -> o <> OSnk ->
  cc_edge (cc_step dflt c o) = cc_edge c /\ k_ready (cc_snk (cc_step dflt c o)) = k_ready (cc_snk c) /\ (steady (cc_snk c) -> steady (cc_snk (cc_step dflt c o))).
Proof.
  intros [_ Hp] [_ Hp'] H1 H2 H3. destruct o as [b|b| | | |]; try congruence; cbn [cc_step] in *; split; try reflexivity; split; try reflexivity; auto.
  - cbn [snk_step cc_snk]. destruct (Bool.eqb _ _); reflexivity.
  - cbn [snk_step cc_snk] in *. destruct (Bool.eqb _ _); cbn; unfold steady; cbn; destruct (k_task (cc_snk c)); auto.
  - cbn [cc_snk]. apply run_steady. exact Hp.
Qed.
Lemma srcpass_pend_k (c : cchan) : pend_k c -> pend_k (cc_srcpass c).
Proof.
  intros (e & Ee & Ek). unfold cc_srcpass. rewrite Ee. destruct (ed_src e); [exists e; auto|]. unfold cc_settle. cbn [cc_edge ed_src ed_snk]. rewrite Ek, andb_false_r.
  eexists. split; [reflexivity|]. reflexivity.
Qed.

Lemma st1_step (c : cchan) a c' : ci c -> calm c -> calm c' -> act_ok c a c' -> st1 c -> st1 c'.
Proof.
  intros H Hc Hc' Ha Hs. destruct a as [[o|x|]|].
  2,3,4: (pose proof (fun Hn => sink_op c _ c' Hn Ha) as X; destruct X as (E1 & E2 & E3); [discriminate|]; destruct Hs as [(e & Ee & Ek)|Hs]; [left; exists e; rewrite E1; auto|right; auto]).
  cbn in Ha. subst c'. assert (D : {o = OEdge} + {o = OSrc} + {o = OSnk} + {o <> OEdge /\ o <> OSrc /\ o <> OSnk}).
  { destruct o; auto; right; repeat split; discriminate. }
  destruct D as [[[->| ->]| ->]|(D1 & D2 & D3)].
  - right. cbn [cc_step]. destruct (passed_steady c H (proj2 Hc) Hs) as [P1 P2]. apply sample_steady; assumption.
  - cbn [cc_step]. destruct Hs as [Hs|Hs]; [left; now apply srcpass_pend_k|right; now apply srcpass_snk].
  - right. cbn [cc_step]. apply snkpass_steady; auto. apply Hc.
  - destruct (chan_op c o Hc Hc' D1 D2 D3) as (E1 & E2 & E3). destruct Hs as [(e & Ee & Ek)|Hs]; [left; exists e; rewrite E1; auto|right; auto].
Qed.
Lemma edge_st1 (c : cchan) : ci c -> calm c -> st1 c -> can_xfer (cabs (cc_step dflt c OEdge)) = true -> st2 (cc_step dflt c OEdge).
Proof.
  intros H Hc Hs Hx. cbn [cc_step] in *. destruct (passed_steady c H (proj2 Hc) Hs) as [P1 P2]. destruct (passed_ci c H) as (P3 & _ & P4).
  split; [now apply sample_steady|]. destruct (sample_pend_k _ P3 P4 Hx P2) as [Hk|[Hk _]]; auto.
Qed.
Lemma edge_st0 (c : cchan) : ci c -> calm c -> can_xfer (cabs (cc_step dflt c OEdge)) = true -> st1 (cc_step dflt c OEdge).
Proof.
  intros H Hc Hx. cbn [cc_step] in *. destruct (passed_ci c H) as (P3 & _ & P4).
  assert (P2 : k_pause (cc_snk (passed c)) = false). { unfold passed. destruct (srcpass_snk (cc_snkpass c)) as (_ & E & _). rewrite E, snkpass_pause by auto. apply Hc. }
  destruct (sample_pend_k _ P3 P4 Hx P2) as [Hk|[_ Hk]]; [left|right]; auto.
Qed.
Lemma room_of (c : cchan) : can_xfer (cabs c) = true -> q_room (ch_snk (cabs c)) = true.
Proof. unfold can_xfer. destruct (ch_reg (cabs c)); [auto|discriminate]. Qed.
Lemma st2_step (c : cchan) a c' : ci c -> calm c -> calm c' -> act_ok c a c' -> can_xfer (cabs c) = true -> can_xfer (cabs c') = true -> st2 c -> st2 c'.
Proof.
  intros H Hc Hc' Ha Hx Hx' [Hs Hk]. destruct a as [[o|x|]|].
  2,3,4: (pose proof (fun Hn => sink_op c _ c' Hn Ha) as X; destruct X as (E1 & E2 & E3); [discriminate|]; split; [auto|]; rewrite E2; destruct Hk as [(e & Ee & Ek)|Hk]; [left; exists e; rewrite E1; auto|right; auto]).
  cbn in Ha. subst c'. assert (D : {o = OEdge} + {o = OSrc} + {o = OSnk} + {o <> OEdge /\ o <> OSrc /\ o <> OSnk}).
  { destruct o; auto; right; repeat split; discriminate. }
  destruct D as [[[->| ->]| ->]|(D1 & D2 & D3)].
  - apply edge_st1; auto. right. exact Hs.
  - cbn [cc_step]. destruct (srcpass_snk c) as (E1 & E2 & E3). split; [auto|]. rewrite E1. destruct Hk as [Hk|Hk]; [left; now apply srcpass_pend_k|auto].
  - cbn [cc_step]. split; [apply snkpass_steady; auto; apply Hc|]. right. apply snkpass_ready; auto. now apply room_of.
  - destruct (chan_op c o Hc Hc' D1 D2 D3) as (E1 & E2 & E3). split; [auto|]. rewrite E2. destruct Hk as [(e & Ee & Ek)|Hk]; [left; exists e; rewrite E1; auto|right; auto].
Qed.
Lemma edge_st2 (c : cchan) : ci c -> can_xfer (cabs c) = true -> st2 c -> xfers c = true.
Proof.
  intros H Hx [Hs Hk]. unfold xfers. destruct (passed_ci c H) as (P1 & P2 & P3). apply andb_true_iff. split.
  - assert (E : cabs (passed c) = cabs c).
    { rewrite P2. destruct (loads c); auto. unfold ch_load. unfold can_xfer in Hx. destruct (ch_reg (cabs c)); [reflexivity|discriminate]. }
    unfold can_xfer in Hx. rewrite <- E in Hx. unfold P_cchan.cabs, taken, wire in Hx. cbn in Hx. rewrite P3 in Hx. destruct (s_valid (cc_src (passed c))); [reflexivity|discriminate].
  - unfold passed. destruct (srcpass_snk (cc_snkpass c)) as (E & _). rewrite E. apply snkpass_ready; auto. now apply room_of.
Qed.

(** *** the queue *)
Definition under_way (c : cchan) : Prop := ch_snk (cabs c) <> [].
Lemma settle_q (c : cchan) : k_q (cc_snk (cc_settle c)) = k_q (cc_snk c).
Proof. unfold cc_settle. destruct (cc_edge c); auto. destruct (_ && _); auto. cbn. destruct (_ || _); auto. Qed.
Lemma fold_snk l (a : chan A) : ch_snk a <> [] -> ch_snk (fold_left cev_do l a) <> [].
Proof.
  revert a. induction l as [|e l IH]; intros a Ha; cbn [fold_left]; auto. apply IH. destruct e; cbn [cev_do].
  - unfold ch_load. destruct (ch_reg a), (ch_src a); exact Ha.
  - unfold ch_xfer. destruct (ch_reg a); auto. destruct (q_room _); auto. cbn. destruct (ch_snk a); discriminate.
Qed.
Lemma under_way_step (c : cchan) a c' : ci c -> act_ok c a c' -> a <> Some ARecv -> under_way c -> under_way c'.
Proof.
  intros H Ha Hn Hu. unfold under_way in *. destruct a as [[o|x|]|]; cbn in Ha; try congruence.
  - subst c'. destruct (cc_step_abs dflt c o H) as [_ ->]. now apply fold_snk.
  - destruct Ha as [Hr ->]. destruct (cc_send_abs c x H Hr) as [_ ->]. exact Hu.
Qed.
Lemma snkpass_q (c : cchan) : ci c -> exists l, k_q (cc_snk (cc_snkpass c)) = k_q (cc_snk c) ++ l.
Proof.
  intros H. unfold cc_snkpass. destruct (cc_edge c) as [e|] eqn:Ee; [|exists []; now rewrite app_nil_r]. destruct (ed_snk e) eqn:Ek; [exists []; now rewrite app_nil_r|].
  rewrite settle_q. cbn [cc_snk]. destruct H. rewrite Ee in ci_edge. destruct ci_edge as (_ & Hb & _). destruct (Hb Ek) as (_ & n & p & Ht).
  destruct (snk_edge_ci (cc_snk c) (ed_v e) (ed_d e) n p Ht ci_kl ci_rdy ci_len) as (_ & _ & _ & Kq & _). eexists. exact Kq.
Qed.
Lemma srcpass_q (c : cchan) : k_q (cc_snk (cc_srcpass c)) = k_q (cc_snk c).
Proof. unfold cc_srcpass. destruct (cc_edge c) as [e|]; auto. destruct (ed_src e); auto. now rewrite settle_q. Qed.
Lemma app_ne (l l' : list A) : l <> [] -> l ++ l' <> []. Proof. destruct l; [congruence|discriminate]. Qed.
Lemma got_step (c : cchan) a c' : ci c -> act_ok c a c' -> a <> Some ARecv -> cc_got c <> [] -> cc_got c' <> [].
Proof.
  intros H Ha Hn Hu. unfold cc_got in *. destruct a as [[o|x|]|]; cbn in Ha; try congruence.
  - subst c'. destruct (snkpass_q c H) as (l & El). destruct o as [b|b| | | |]; cbn [cc_step cc_snk].
    + exact Hu.
    + cbn [snk_step]. destruct (Bool.eqb _ _); exact Hu.
    + exact Hu.
    + unfold cc_sample. rewrite settle_q. cbn [cc_snk]. change (k_q (snk_run ?k)) with (k_q k). rewrite srcpass_q, El. now apply app_ne.
    + rewrite srcpass_q. exact Hu.
    + rewrite El. now apply app_ne.
  - destruct Ha as [Hr ->]. exact Hu.
Qed.
Lemma edge_got (c : cchan) : ci c -> under_way c -> cc_got (cc_step dflt c OEdge) <> [].
Proof.
  intros H Hu. destruct (passed_ci c H) as (P1 & P2 & P3). unfold cc_got. cbn [cc_step]. fold (passed c). unfold cc_sample. rewrite settle_q. cbn [cc_snk].
  change (k_q (snk_run ?k)) with (k_q k).
  assert (E : ch_snk (cabs (passed c)) = ch_snk (cabs c)). { rewrite P2. destruct (loads c); auto. unfold ch_load. destruct (ch_reg (cabs c)), (ch_src (cabs c)); reflexivity. }
  unfold under_way in Hu. rewrite <- E in Hu. cbn [P_cchan.cabs ch_snk] in Hu. unfold coming in Hu. rewrite P3, app_nil_r in Hu. exact Hu.
Qed.

(** pauses change by pause steps only *)
Lemma settle_src (c : cchan) : cc_src (cc_settle c) = cc_src c.
Proof. unfold cc_settle. destruct (cc_edge c); auto. destruct (_ && _); auto. Qed.
Lemma src_edge_pause (s : src A) r : s_pause (src_edge true s r) = s_pause s.
Proof. unfold src_edge. repeat match goal with |- context [match ?x with _ => _ end] => destruct x; try reflexivity end. Qed.
Lemma srcpass_pause_s (c : cchan) : s_pause (cc_src (cc_srcpass c)) = s_pause (cc_src c).
Proof. unfold cc_srcpass. destruct (cc_edge c) as [e|]; auto. destruct (ed_src e); auto. rewrite settle_src. apply src_edge_pause. Qed.
Lemma snkpass_src (c : cchan) : cc_src (cc_snkpass c) = cc_src c.
Proof. unfold cc_snkpass. destruct (cc_edge c) as [e|]; auto. destruct (ed_snk e); auto. now rewrite settle_src. Qed.
Lemma act_calm (c : cchan) a c' : ci c -> act_ok c a c' -> (forall b, a <> Some (AC (OPauseS b))) -> (forall b, a <> Some (AC (OPauseK b))) -> calm c -> calm c'.
Proof.
  intros H Ha N1 N2 [C1 C2]. destruct a as [[o|x|]|]; cbn in Ha.
  - subst c'. destruct o as [b|b| | | |]; cbn [cc_step].
    + now destruct (N1 b).
    + now destruct (N2 b).
    + split; assumption.
    + unfold calm, cc_sample. rewrite settle_src, settle_pause. cbn [cc_src cc_snk]. change (k_pause (snk_run ?k)) with (k_pause k).
      destruct (srcpass_snk (cc_snkpass c)) as (_ & E & _). rewrite E, srcpass_pause_s, snkpass_src, snkpass_pause by exact H. auto.
    + split; [now rewrite srcpass_pause_s|]. destruct (srcpass_snk c) as (_ & E & _). now rewrite E.
    + split; [now rewrite snkpass_src|]. now rewrite snkpass_pause.
  - destruct Ha as [_ ->]. split; [|exact C2]. cbn. destruct (src_full (cc_src c)); exact C1.
  - destruct Ha as [_ ->]. split; [exact C1|]. cbn. destruct (k_q (cc_snk c)); exact C2.
  - now subst c'.
Qed.

(** ** sequences *)
Variable c : nat -> cchan.
Variable ev : nat -> option cact.
Hypothesis H0 : ci (c 0%nat).
Hypothesis Hst : forall t, act_ok (c t) (ev t) (c (S t)).
(** again and again there are three edges without a pause from the first to the last *)
Hypothesis Hwin : forall n, exists m1 m2 m3, (n <= m1 < m2 /\ m2 < m3)%nat /\ ev m1 = Some (AC OEdge) /\ ev m2 = Some (AC OEdge) /\ ev m3 = Some (AC OEdge) /\
  forall t, (m1 <= t <= m3)%nat -> calm (c t).

Lemma Hci t : ci (c t).
Proof. induction t as [|t IH]; [exact H0|]. exact (act_ci _ _ _ IH (Hst t)). Qed.

(** from n on, as long as nothing moved, the invariant J holds *)
Lemma walk (e : cev) (J : cchan -> Prop) n m : (n <= m)%nat -> J (c n) ->
  (forall t, (n <= t < m)%nat -> ~ did (c t) (ev t) e -> J (c t) -> J (c (S t))) ->
  (exists i, (n <= i < m)%nat /\ did (c i) (ev i) e) \/ J (c m).
Proof.
  intros Hm. induction Hm as [|m Hm IH]; intros Hn Hstep; [right; exact Hn|].
  destruct IH as [(i & Hi & Hd)|HJ]; [exact Hn|intros t Ht; apply Hstep; lia|left; exists i; split; [lia|exact Hd]|].
  destruct (cev_dec (c m) (ev m) e) as [Hd|Hd]; [left; exists m; split; [lia|exact Hd]|]. right. apply Hstep; [lia|exact Hd|exact HJ].
Qed.

Lemma load_live n : exists m, (n <= m)%nat /\ (did (c m) (ev m) Ld \/ can_load (cabs (c m)) = false).
Proof.
  destruct (Hwin n) as (m1 & m2 & m3 & Hm & E1 & E2 & E3 & Hc).
  destruct (can_load (cabs (c m1))) eqn:L1; [|exists m1; split; [lia|auto]].
  destruct (cev_dec (c m1) (ev m1) Ld) as [Hd|Hd]; [exists m1; split; [lia|auto]|].
  pose proof (load_stays _ _ _ (Hci m1) (Hst m1) Hd L1) as L2.
  assert (P2 : pend_s (c (S m1))). { pose proof (Hst m1) as Hs. rewrite E1 in Hs. cbn in Hs. rewrite Hs in *. apply edge_pend_s; [apply Hci|exact L2]. }
  destruct (walk Ld (fun x => can_load (cabs x) = true /\ pend_s x) (S m1) m2) as [(i & Hi & Hd2)|[L3 P3]]; [lia|auto| |exists i; split; [lia|auto]|].
  - intros t Ht Hd2 [L P]. split; [exact (load_stays _ _ _ (Hci t) (Hst t) Hd2 L)|]. apply (pend_s_stays (c t) (ev t)); [apply Hci|apply Hc; lia|apply Hst|exact Hd2|exact L|exact P].
  - exists m2. split; [lia|]. left. exists OEdge. split; [exact E2|]. cbn. rewrite pend_loads; auto; [left; reflexivity|apply Hci|apply Hc; lia].
Qed.
Lemma xfer_live n : exists m, (n <= m)%nat /\ (did (c m) (ev m) Xf \/ can_xfer (cabs (c m)) = false).
Proof.
  destruct (Hwin n) as (m1 & m2 & m3 & Hm & E1 & E2 & E3 & Hc).
  destruct (can_xfer (cabs (c m1))) eqn:L1; [|exists m1; split; [lia|auto]].
  destruct (cev_dec (c m1) (ev m1) Xf) as [Hd|Hd]; [exists m1; split; [lia|auto]|].
  pose proof (xfer_stays _ _ _ (Hci m1) (Hst m1) Hd L1) as L2.
  assert (P2 : st1 (c (S m1))). { pose proof (Hst m1) as Hs. rewrite E1 in Hs. cbn in Hs. rewrite Hs in *. apply edge_st0; [apply Hci|apply Hc; lia|exact L2]. }
  destruct (walk Xf (fun x => can_xfer (cabs x) = true /\ st1 x) (S m1) m2) as [(i & Hi & Hd2)|[L3 P3]]; [lia|auto| |exists i; split; [lia|auto]|].
  - intros t Ht Hd2 [L P]. split; [exact (xfer_stays _ _ _ (Hci t) (Hst t) Hd2 L)|]. apply (st1_step (c t) (ev t)); [apply Hci|apply Hc; lia|apply Hc; lia|apply Hst|exact P].
  - destruct (cev_dec (c m2) (ev m2) Xf) as [Hd2|Hd2]; [exists m2; split; [lia|auto]|].
    pose proof (xfer_stays _ _ _ (Hci m2) (Hst m2) Hd2 L3) as L4.
    assert (P4 : st2 (c (S m2))). { pose proof (Hst m2) as Hs. rewrite E2 in Hs. cbn in Hs. rewrite Hs in *. apply edge_st1; [apply Hci|apply Hc; lia|exact P3|exact L4]. }
    destruct (walk Xf (fun x => can_xfer (cabs x) = true /\ st2 x) (S m2) m3) as [(i & Hi & Hd3)|[L5 P5]]; [lia|auto| |exists i; split; [lia|auto]|].
    + intros t Ht Hd3 [L P]. pose proof (xfer_stays _ _ _ (Hci t) (Hst t) Hd3 L) as L'. split; [exact L'|].
      apply (st2_step (c t) (ev t)); [apply Hci| | |apply Hst|exact L|exact L'|exact P]; apply Hc; lia.
    + exists m3. split; [lia|]. left. exists OEdge. split; [exact E3|]. cbn. rewrite edge_st2; auto; [apply in_or_app; right; left; reflexivity|apply Hci].
Qed.

(** a transfer under way is in the queue after the next edge, and stays there until it is received *)
Lemma got_live n : under_way (c n) -> (exists i, (n <= i)%nat /\ ev i = Some ARecv) \/ exists m, (n <= m)%nat /\ forall k, (m <= k)%nat -> (exists i, (n <= i < k)%nat /\ ev i = Some ARecv) \/ cc_got (c k) <> [].
Proof.
  assert (D : forall t, ev t = Some ARecv \/ ev t <> Some ARecv). { intros t. destruct (ev t) as [[o|x|]|]; try (right; discriminate). left; reflexivity. }
  intros Hu. destruct (Hwin n) as (m1 & m2 & m3 & Hm & E1 & _).
  assert (W : forall k, (n <= k)%nat -> (exists i, (n <= i < k)%nat /\ ev i = Some ARecv) \/ under_way (c k)).
  { intros k Hk. induction Hk as [|k Hk [(i & Hi & E)|IH]]; [auto|left; exists i; split; [lia|exact E]|].
    destruct (D k) as [E|E]; [left; exists k; split; [lia|exact E]|]. right. exact (under_way_step _ _ _ (Hci k) (Hst k) E IH). }
  destruct (W m1) as [(i & Hi & E)|W1]; [lia|left; exists i; split; [lia|exact E]|].
  right. exists (S m1). split; [lia|]. intros k Hk. induction Hk as [|k Hk [(i & Hi & E)|IH]].
  - right. pose proof (Hst m1) as Hs. rewrite E1 in Hs. cbn in Hs. rewrite Hs. apply edge_got; [apply Hci|exact W1].
  - left; exists i; split; [lia|exact E].
  - destruct (D k) as [E|E]; [left; exists k; split; [lia|exact E]|]. right. exact (got_step _ _ _ (Hci k) (Hst k) E IH).
Qed.
End P.
