(** The clocked channel (M_cchan.v) is an instance of the channel of M_sys.v. *)
From Coq Require Import ZArith Lia List Bool.
From Coq Require Import ZifyBool ZifyNat.
From Verif Require Import Py M_stream M_cchan.
From Verif Require M_sys P_ulive.
Import ListNotations.
Open Scope Z_scope.

Section P.
Context {A : Type}.
Variable dflt : A.
Notation achan := (M_sys.chan A).

(** a transfer was sampled, and the source, the sink does not know yet *)
Definition taken (c : cchan A) : bool := match cc_edge c with Some e => ed_v e && ed_r e && negb (ed_src e) | None => false end.
Definition coming (c : cchan A) : list A := match cc_edge c with Some e => if ed_v e && ed_r e && negb (ed_snk e) then [ed_d e] else [] | None => [] end.
Definition wire (s : src A) : option A := if s_valid s then s_data s else None.
Definition cabs (c : cchan A) : achan :=
  {| M_sys.ch_src := s_q (cc_src c); M_sys.ch_reg := if taken c then None else wire (cc_src c); M_sys.ch_snk := k_q (cc_snk c) ++ coming c |}.

Record ci (c : cchan A) : Prop := {
  ci_sl : s_limit (cc_src c) = 2; ci_kl : k_limit (cc_snk c) = 2;
  ci_sd : s_task (cc_src c) <> TDead; ci_kd : k_task (cc_snk c) <> KDead;
  ci_sleep : s_task (cc_src c) = TSleep -> s_q (cc_src c) = [] /\ s_valid (cc_src c) = false;
  ci_data : s_valid (cc_src c) = true -> exists x, s_data (cc_src c) = Some x;
  ci_len : zlen (k_q (cc_snk c)) <= 2; ci_rdy : k_ready (cc_snk c) = true -> zlen (k_q (cc_snk c)) < 2;
  ci_awake : k_task (cc_snk c) = KSleep -> k_ready (cc_snk c) = false -> snk_full (cc_snk c) = true \/ k_pause (cc_snk c) = true;
  ci_edge : match cc_edge c with
    | None => k_task (cc_snk c) = KSleep -> s_valid (cc_src c) && k_ready (cc_snk c) = false
    | Some e =>
        (ed_src e = false -> s_valid (cc_src c) = ed_v e /\ (ed_v e = true -> s_data (cc_src c) = Some (ed_d e)) /\ s_task (cc_src c) = TEdge) /\
        (ed_snk e = false -> k_ready (cc_snk c) = ed_r e /\ exists null ps, k_task (cc_snk c) = KEdge null ps) /\
        ed_src e && ed_snk e = false /\
        (k_task (cc_snk c) = KSleep -> ed_v e && k_ready (cc_snk c) = false)
    end }.

Lemma ci_init : ci cc_init.
Proof. constructor; cbn; try discriminate; try lia; auto. Qed.

Lemma full2 (q : list A) : st_full 2 q = negb (M_sys.q_room q).
Proof. unfold st_full, M_sys.q_room, M_sys.q_limit, zlen. destruct (Nat.ltb_spec (length q) 2); cbn [negb]; lia. Qed.

Lemma cc_room_abs c : ci c -> cc_room c = M_sys.q_room (M_sys.ch_src (cabs c)).
Proof. intros H. unfold cc_room, src_full. rewrite (ci_sl c H), full2. cbn [cabs M_sys.ch_src]. apply negb_involutive. Qed.

Lemma cc_send_abs c x : ci c -> cc_room c = true -> ci (cc_send c x) /\ cabs (cc_send c x) = M_sys.ch_push (cabs c) x.
Proof.
  intros H Hr. unfold cc_send. cbn [src_step]. unfold cc_room in Hr. apply negb_true_iff in Hr. rewrite Hr. split; [|reflexivity].
  destruct H. constructor; cbn; auto.
  - destruct (s_task (cc_src c)); congruence.
  - destruct (s_task (cc_src c)); discriminate.
  - destruct (cc_edge c) as [e|]; [|auto]. destruct ci_edge0 as (H1 & H2 & H3 & H4). repeat split; auto; try (intros; apply H1 || apply H2; auto).
    destruct (H1 H) as (_ & _ & ->). reflexivity.
Qed.


(** the sink is woken, with a shorter or the same queue *)
Lemma wake_ci c q p : ci c -> zlen q <= zlen (k_q (cc_snk c)) ->
  ci {| cc_src := cc_src c; cc_snk := {| k_q := q; k_pause := p; k_limit := k_limit (cc_snk c); k_wake := true;
     k_task := match k_task (cc_snk c) with KSleep => KWoken false | t => t end; k_ready := k_ready (cc_snk c) |}; cc_edge := cc_edge c |}.
Proof.
  intros [] Hq. constructor; cbn; auto.
  - destruct (k_task (cc_snk c)); congruence.
  - lia.
  - intros Hr. specialize (ci_rdy0 Hr). lia.
  - destruct (k_task (cc_snk c)); discriminate.
  - destruct (cc_edge c) as [e|].
    + destruct ci_edge0 as (H1 & H2 & H3 & H4). split; [exact H1|]. split; [|split; [exact H3|]].
      * intros E. destruct (H2 E) as (H5 & n & ps & H6). rewrite H6. eauto.
      * destruct (k_task (cc_snk c)); discriminate.
    + destruct (k_task (cc_snk c)); discriminate.
Qed.

Lemma cc_recv_abs c x q : ci c -> cc_got c = x :: q ->
  ci (cc_recv c) /\ M_sys.ch_snk (cabs c) = x :: q ++ coming c /\ cabs (cc_recv c) = M_sys.ch_pop (cabs c) (q ++ coming c).
Proof.
  intros H E. unfold cc_got in E. unfold cc_recv. cbn [snk_step]. rewrite E. split; [|split; [cbn; rewrite E; reflexivity|reflexivity]].
  apply wake_ci; auto. rewrite E, zlen_cons. cbn [k_q]. lia.
Qed.

(** ** the passes *)
Definition pend (c : cchan A) : option (edge A) := cc_edge c.
(** the source's pass takes an item from the queue *)
Definition loads (c : cchan A) : bool :=
  match cc_edge c with
  | Some e => negb (ed_src e) && (ed_r e || negb (s_valid (cc_src c))) && negb (s_pause (cc_src c)) &&
              match s_q (cc_src c) with [] => false | _ => true end
  | None => false
  end.
(** the edge transfers *)
Definition passed (c : cchan A) : cchan A := cc_srcpass (cc_snkpass c).
Definition xfers (c : cchan A) : bool := s_valid (cc_src (passed c)) && k_ready (cc_snk (passed c)).

(** all of the invariant but that a pass is outstanding *)
Definition ci1 (c : cchan A) : Prop :=
  exists e, cc_edge c = Some e /\
  s_limit (cc_src c) = 2 /\ k_limit (cc_snk c) = 2 /\ s_task (cc_src c) <> TDead /\ k_task (cc_snk c) <> KDead /\
  (s_task (cc_src c) = TSleep -> s_q (cc_src c) = [] /\ s_valid (cc_src c) = false) /\
  (s_valid (cc_src c) = true -> exists x, s_data (cc_src c) = Some x) /\
  zlen (k_q (cc_snk c)) <= 2 /\ (k_ready (cc_snk c) = true -> zlen (k_q (cc_snk c)) < 2) /\
  (k_task (cc_snk c) = KSleep -> k_ready (cc_snk c) = false -> snk_full (cc_snk c) = true \/ k_pause (cc_snk c) = true) /\
  (ed_src e = false -> s_valid (cc_src c) = ed_v e /\ (ed_v e = true -> s_data (cc_src c) = Some (ed_d e)) /\ s_task (cc_src c) = TEdge) /\
  (ed_snk e = false -> k_ready (cc_snk c) = ed_r e /\ exists null ps, k_task (cc_snk c) = KEdge null ps) /\
  (k_task (cc_snk c) = KSleep -> ed_v e && k_ready (cc_snk c) = false).

Lemma settle_ci c : ci1 c -> ci (cc_settle c) /\ cabs (cc_settle c) = cabs c /\ cc_src (cc_settle c) = cc_src c /\ k_ready (cc_snk (cc_settle c)) = k_ready (cc_snk c).
Proof.
  intros (e & Ee & H1 & H2 & H3 & H4 & H5 & H6 & H7 & H8 & H9 & Ha & Hb & Hc). unfold cc_settle. rewrite Ee.
  destruct (ed_src e && ed_snk e) eqn:Eb.
  - assert (D : ci {| cc_src := cc_src c; cc_snk := if rises (ed_v e) (s_valid (cc_src c)) || rises (ed_r e) (k_ready (cc_snk c)) then snk_wake (cc_snk c) else cc_snk c; cc_edge := None |}).
    { destruct (rises (ed_v e) (s_valid (cc_src c)) || rises (ed_r e) (k_ready (cc_snk c))) eqn:Er; constructor; cbn; auto.
      - destruct (k_task (cc_snk c)); congruence.
      - destruct (k_task (cc_snk c)); discriminate.
      - destruct (k_task (cc_snk c)); discriminate.
      - intros Hs. specialize (Hc Hs). apply orb_false_iff in Er. destruct Er as [Er _]. unfold rises in Er. destruct (ed_v e), (s_valid (cc_src c)); auto; discriminate. }
    split; [exact D|]. apply andb_true_iff in Eb. destruct Eb as [Eb1 Eb2].
    split; [|split; [reflexivity|cbn; match goal with |- context [if ?b then _ else _] => destruct b end; reflexivity]].
    unfold cabs, taken, coming. rewrite Ee. cbn [cc_edge cc_src cc_snk]. rewrite Eb1, Eb2. cbn [negb]. rewrite !andb_false_r.
    match goal with |- context [if ?b then snk_wake _ else _] => destruct b end; reflexivity.
  - split; [|auto]. constructor; auto. rewrite Ee. auto.
Qed.

Lemma snk_edge_ci k v (d : A) null ps : k_task k = KEdge null ps -> k_limit k = 2 -> (k_ready k = true -> zlen (k_q k) < 2) -> zlen (k_q k) <= 2 ->
  let k' := snk_edge true k v d in
  k_limit k' = 2 /\ k_pause k' = k_pause k /\ k_task k' <> KDead /\ k_q k' = k_q k ++ (if v && k_ready k then [d] else []) /\
  zlen (k_q k') <= 2 /\ (k_ready k' = true -> zlen (k_q k') < 2) /\ k_ready k' = negb (st_full 2 (k_q k') || ps) /\
  (k_task k' = KSleep -> k_ready k' = false -> snk_full k' = true \/ k_pause k' = true) /\
  (k_task k' = KSleep -> v && k_ready k' = false) /\
  (k_pause k = false -> match k_task k' with KEdge _ p => p = false | _ => True end).
Proof.
  intros Et El Hr Hl. unfold snk_edge. cbn [snk_run k_task]. rewrite Et. cbn [k_ready k_q k_limit k_pause negb orb k_task snk_run]. rewrite El.
  assert (Hq : (if k_ready k && v then k_q k ++ [d] else k_q k) = k_q k ++ (if v && k_ready k then [d] else [])).
  { rewrite (andb_comm v). destruct (k_ready k && v); [reflexivity|now rewrite app_nil_r]. }
  rewrite Hq. set (q := k_q k ++ _).
  assert (Hz : zlen q <= 2).
  { unfold q. rewrite zlen_app. destruct v, (k_ready k); cbn [andb]; unfold zlen at 2; cbn [length]; try specialize (Hr eq_refl); lia. }
  assert (Hf : st_full 2 q = (2 <=? zlen q)) by reflexivity.
  split; [reflexivity|]. split; [reflexivity|]. split; [|split; [reflexivity|split; [exact Hz|split; [|split; [reflexivity|split; [|split]]]]]].
  - match goal with |- (if ?b then _ else _) <> _ => destruct b; [destruct null|]; congruence end.
  - rewrite Hf. intros H. apply negb_true_iff, orb_false_iff in H. lia.
  - destruct ((negb v || (st_full 2 q || ps)) && Bool.eqb ps (k_pause k)) eqn:Es; [|discriminate]. destruct null; [discriminate|]. intros _.
    rewrite negb_false_iff. intros H. apply orb_true_iff in H. destruct H as [H|H]; [left; exact H|]. right.
    apply andb_true_iff in Es. destruct Es as [_ Es]. apply eqb_prop in Es. congruence.
  - destruct ((negb v || (st_full 2 q || ps)) && Bool.eqb ps (k_pause k)) eqn:Es; [|discriminate]. intros _.
    apply andb_true_iff in Es. destruct Es as [Es _]. destruct v; [|reflexivity]. cbn [negb orb] in Es. rewrite Es. reflexivity.
  - intros Hp. match goal with |- match (if ?b then _ else _) with _ => _ end => destruct b; [destruct null|]; auto end.
Qed.

Lemma snkpass_ci c : ci c -> ci (cc_snkpass c) /\ cabs (cc_snkpass c) = cabs c /\ cc_src (cc_snkpass c) = cc_src c.
Proof.
  intros H. unfold cc_snkpass. destruct (cc_edge c) as [e|] eqn:Ee; [|auto]. destruct (ed_snk e) eqn:Ek; [auto|].
  destruct H. rewrite Ee in ci_edge0. destruct ci_edge0 as (Ha & Hb & _ & Hc). destruct (Hb Ek) as (Hr & null & ps & Ht).
  destruct (snk_edge_ci (cc_snk c) (ed_v e) (ed_d e) null ps Ht ci_kl0 ci_rdy0 ci_len0) as (K1 & K2 & K3 & K4 & K5 & K6 & K7 & K8 & K9 & _).
  match goal with |- ci (cc_settle ?c') /\ _ => assert (D : ci1 c') end.
  { eexists. split; [reflexivity|]. cbn [cc_src cc_snk ed_src ed_snk ed_v ed_d ed_r]. repeat (split; auto); discriminate. }
  destruct (settle_ci _ D) as (S1 & S2 & S3 & _). split; [exact S1|]. split; [|exact S3]. rewrite S2.
  unfold cabs, taken, coming. rewrite Ee. cbn [cc_src cc_snk cc_edge ed_v ed_d ed_r ed_src ed_snk negb]. rewrite K4, Ek, Hr. cbn [negb].
  rewrite andb_true_r, andb_false_r, app_nil_r. reflexivity.
Qed.

Lemma srcpass_ci c : ci c -> ci (cc_srcpass c) /\ cabs (cc_srcpass c) = (if loads c then M_sys.ch_load (cabs c) else cabs c) /\
  (match cc_edge c with Some e => ed_snk e = true | None => True end -> cc_edge (cc_srcpass c) = None) /\
  (loads c = true -> M_sys.ch_reg (cabs c) = None /\ M_sys.ch_src (cabs c) <> []).
Proof.
  intros H. unfold cc_srcpass, loads. destruct (cc_edge c) as [e|] eqn:Ee; [|split; [exact H|split; [reflexivity|split; [auto|discriminate]]]]. destruct (ed_src e) eqn:Ek.
  { cbn [negb andb]. split; [exact H|]. split; [reflexivity|]. split; [|discriminate].
    intros E2. destruct H. rewrite Ee in ci_edge0. destruct ci_edge0 as (_ & _ & E & _). rewrite Ek, E2 in E. discriminate. }
  destruct H. rewrite Ee in ci_edge0. destruct ci_edge0 as (Ha & Hb & _ & Hc). destruct (Ha Ek) as (Hv & Hd & Ht).
  set (s' := src_edge true (cc_src c) (ed_r e)).
  assert (HS : s_limit s' = 2 /\ s_task s' <> TDead /\ (s_task s' = TSleep -> s_q s' = [] /\ s_valid s' = false) /\ (s_valid s' = true -> exists x, s_data s' = Some x)).
  { unfold s', src_edge. rewrite Ht. cbn [negb orb]. destruct (_ || _); [|rewrite Ht; repeat split; auto; discriminate]. destruct (s_q (cc_src c)); [|destruct (negb (s_pause (cc_src c)))]; cbn; repeat split; auto; try discriminate; eauto. }
  destruct HS as (S1 & S2 & S3 & S4).
  match goal with |- ci (cc_settle ?c') /\ _ => assert (D : ci1 c') end.
  { eexists. split; [reflexivity|]. cbn [cc_src cc_snk ed_src ed_snk ed_v ed_d ed_r]. repeat (split; auto); discriminate. }
  destruct (settle_ci _ D) as (T1 & T2 & T3 & _). split; [exact T1|]. rewrite T2. split; [|split].
  - unfold cabs, taken, coming. rewrite Ee. cbn [cc_src cc_snk cc_edge ed_v ed_d ed_r ed_src ed_snk negb]. rewrite Ek. cbn [negb andb].
    rewrite andb_false_r, andb_true_r. unfold s', src_edge, wire, M_sys.ch_load. rewrite Ht. cbn [negb orb]. rewrite <- Hv.
    destruct (s_valid (cc_src c)) eqn:Ev; cbn [negb orb andb].
    + rewrite orb_false_r, !andb_true_r. destruct (ed_r e) eqn:Er; cbn [andb orb].
      * destruct (s_q (cc_src c)) as [|x q] eqn:Eq; cbn [s_q s_valid s_data M_sys.ch_reg M_sys.ch_src M_sys.ch_snk]; [rewrite ?andb_false_r; reflexivity|].
        rewrite andb_true_r. destruct (negb (s_pause (cc_src c))); reflexivity.
      * rewrite Ev. reflexivity.
    + rewrite andb_false_r, orb_true_r. cbn [andb orb].
      destruct (s_q (cc_src c)) as [|x q] eqn:Eq; cbn [s_q s_valid s_data M_sys.ch_reg M_sys.ch_src M_sys.ch_snk]; [rewrite ?andb_false_r; reflexivity|].
        destruct (ed_r e), (s_pause (cc_src c)); reflexivity.
  - intros E2. unfold cc_settle. cbn [cc_edge ed_src ed_snk]. rewrite E2. reflexivity.
  - cbn [negb andb]. intros H. apply andb_true_iff in H. destruct H as [H Hq]. apply andb_true_iff in H. destruct H as [H Hp].
    split; [|cbn; destruct (s_q (cc_src c)); discriminate].
    unfold cabs, taken. rewrite Ee. cbn [M_sys.ch_reg]. rewrite Ek, <- Hv. unfold wire. destruct (s_valid (cc_src c)); cbn [andb negb] in *; [|reflexivity].
    rewrite orb_false_r in H. rewrite H. reflexivity.
Qed.

Lemma snkpass_done (c : cchan A) : match cc_edge (cc_snkpass c) with Some e => ed_snk e = true | None => True end.
Proof.
  unfold cc_snkpass. destruct (cc_edge c) as [e|] eqn:Ee; [|now rewrite Ee]. destruct (ed_snk e) eqn:Ek; [now rewrite Ee|].
  unfold cc_settle. cbn [cc_edge ed_src ed_snk]. destruct (ed_src e); cbn; auto.
Qed.

Lemma loads_snkpass c : ci c -> loads (cc_snkpass c) = loads c.
Proof.
  intros H. destruct (snkpass_ci c H) as (_ & _ & E). unfold loads. rewrite E.
  unfold cc_snkpass. destruct (cc_edge c) as [e|] eqn:Ee; [|now rewrite Ee]. destruct (ed_snk e) eqn:Ek; [now rewrite Ee|].
  unfold cc_settle. cbn [cc_edge ed_src ed_snk]. destruct (ed_src e) eqn:Es; cbn; rewrite ?Es; auto.
Qed.

Lemma passed_ci c : ci c -> ci (passed c) /\ cabs (passed c) = (if loads c then M_sys.ch_load (cabs c) else cabs c) /\ cc_edge (passed c) = None.
Proof.
  intros H. destruct (snkpass_ci c H) as (H1 & H2 & H3). destruct (srcpass_ci _ H1) as (H4 & H5 & H6 & _).
  unfold passed. rewrite H5, loads_snkpass, H2 by auto. split; [exact H4|]. split; [reflexivity|]. apply H6. apply snkpass_done.
Qed.

Lemma sample_ci c : ci c -> cc_edge c = None ->
  ci (cc_sample dflt c) /\ cabs (cc_sample dflt c) = (if s_valid (cc_src c) && k_ready (cc_snk c) then M_sys.ch_xfer (cabs c) else cabs c) /\
  (s_valid (cc_src c) && k_ready (cc_snk c) = true -> P_ulive.can_xfer (cabs c) = true).
Proof.
  intros H Ee. destruct H. rewrite Ee in ci_edge0. unfold cc_sample.
  match goal with |- ci (cc_settle ?c') /\ _ => assert (D : ci1 c') end.
  { eexists. split; [reflexivity|]. cbn [cc_src cc_snk ed_src ed_snk ed_v ed_d ed_r snk_run k_q k_limit k_pause k_ready k_task].
    repeat (split; auto).
    - destruct (k_task (cc_snk c)); congruence.
    - unfold snk_full. cbn. destruct (k_task (cc_snk c)); try discriminate. exact ci_awake0.
    - intros Hv. destruct (ci_data0 Hv) as (x & ->). reflexivity.
    - destruct (s_task (cc_src c)); try congruence; discriminate.
    - destruct (k_task (cc_snk c)); try discriminate; eauto.
    - destruct (k_task (cc_snk c)); try discriminate. exact ci_edge0. }
  destruct (settle_ci _ D) as (T1 & T2 & T3 & _). split; [exact T1|]. rewrite T2. clear T1 T2 T3.
  assert (Hx : s_valid (cc_src c) && k_ready (cc_snk c) = true -> s_task (cc_src c) = TEdge /\ (exists x, s_data (cc_src c) = Some x) /\ exists n p, k_task (snk_run (cc_snk c)) = KEdge n p).
  { intros Hx. apply andb_true_iff in Hx. destruct Hx as [Hv Hr]. split; [|split; [auto|]].
    - destruct (s_task (cc_src c)) eqn:E; try congruence. destruct (ci_sleep0 eq_refl). congruence.
    - cbn. destruct (k_task (cc_snk c)); try congruence; eauto. specialize (ci_edge0 eq_refl). rewrite Hv, Hr in ci_edge0. discriminate. }
  split.
  - unfold cabs, taken, coming. rewrite Ee. cbn [cc_src cc_snk cc_edge ed_v ed_d ed_r ed_src ed_snk snk_run k_ready k_q k_task]. rewrite app_nil_r.
    destruct (s_valid (cc_src c) && k_ready (cc_snk c)) eqn:Ex; cbn [andb].
    + destruct (Hx eq_refl) as (E1 & (x & E2) & (n & p & E3)). cbn in E3. rewrite E1, E2. rewrite E3. cbn [negb].
      apply andb_true_iff in Ex. destruct Ex as [Ev Er]. unfold M_sys.ch_xfer, wire. cbn [M_sys.ch_reg M_sys.ch_snk M_sys.ch_src]. rewrite Ev, E2.
      specialize (ci_rdy0 Er). pose proof (full2 (k_q (cc_snk c))) as F. unfold st_full in F. destruct (M_sys.q_room (k_q (cc_snk c))); [reflexivity|cbn [negb] in F; lia].
    + rewrite app_nil_r. reflexivity.
  - intros Hx'. destruct (Hx Hx') as (E1 & (x & E2) & _). apply andb_true_iff in Hx'. destruct Hx' as [Ev Er].
    unfold P_ulive.can_xfer, cabs, taken, coming, wire. rewrite Ee. cbn [M_sys.ch_reg M_sys.ch_snk]. rewrite Ev, E2, app_nil_r.
    specialize (ci_rdy0 Er). pose proof (full2 (k_q (cc_snk c))) as F. unfold st_full in F. destruct (M_sys.q_room (k_q (cc_snk c))); [reflexivity|cbn [negb] in F; lia].
Qed.

(** ** a channel step is a sequence of steps of the channel of M_sys.v *)
Inductive cev := Ld | Xf.
Definition cev_do (a : achan) (e : cev) : achan := match e with Ld => M_sys.ch_load a | Xf => M_sys.ch_xfer a end.
Definition cevs (c : cchan A) (o : chop) : list cev :=
  match o with
  | OEdge => (if loads c then [Ld] else []) ++ (if xfers c then [Xf] else [])
  | OSrc => if loads c then [Ld] else []
  | _ => []
  end.

Lemma cc_step_abs c o : ci c -> ci (cc_step dflt c o) /\ cabs (cc_step dflt c o) = fold_left cev_do (cevs c o) (cabs c).
Proof.
  intros H. destruct o as [b|b| | | |]; cbn [cc_step cevs fold_left].
  - split; [|reflexivity]. destruct H. constructor; cbn; auto.
  - cbn [snk_step]. destruct (Bool.eqb (k_pause (cc_snk c)) b) eqn:E.
    + apply eqb_prop in E. subst b. destruct c as [s [q p l w t r] e]. cbn in *. split; [exact H|reflexivity].
    + split; [|reflexivity]. apply (wake_ci c (k_q (cc_snk c)) b H). lia.
  - split; [|reflexivity]. destruct H. constructor; cbn; auto.
    + destruct (k_task (cc_snk c)); congruence.
    + unfold snk_full. cbn. destruct (k_task (cc_snk c)); try discriminate. exact ci_awake0.
    + destruct (cc_edge c) as [e|].
      * destruct ci_edge0 as (H1 & H2 & H3 & H4). split; [exact H1|]. split; [|split; [exact H3|]].
        -- intros E. destruct (H2 E) as (H5 & n & ps & H6). rewrite H6. eauto.
        -- destruct (k_task (cc_snk c)); try discriminate. exact H4.
      * destruct (k_task (cc_snk c)); try discriminate. exact ci_edge0.
  - destruct (passed_ci c H) as (P1 & P2 & P3). destruct (sample_ci _ P1 P3) as (S1 & S2 & _). change (cc_srcpass (cc_snkpass c)) with (passed c).
    split; [exact S1|]. rewrite S2, P2, fold_left_app. fold (xfers c). destruct (loads c), (xfers c); reflexivity.
  - destruct (srcpass_ci c H) as (P1 & P2 & _). split; [exact P1|]. rewrite P2. destruct (loads c); reflexivity.
  - destruct (snkpass_ci c H) as (P1 & P2 & _). auto.
Qed.
End P.
