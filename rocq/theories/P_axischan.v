(** Proofs about AXI stream sinks, monitors and connected sources and sinks. *)
From Coq Require Import ZArith Lia List Bool.
From Coq Require Import ZifyBool ZifyNat.
From Verif Require Import Py M_stream M_axisframe M_axis S_axis S_axisrun P_axisframe P_axis.
Import ListNotations.
Open Scope Z_scope.

Section P.
Variable c : scfg.
Hypothesis Hc : cfg_ok c.

(** ** the sink's edge *)
Lemma asnk_edge_dead k v b : z_task (asnk_edge c k v b) = KDead -> z_task k = KDead.
Proof.
  destruct k as [q p rq ob of lb lf ps w t r]. unfold asnk_edge. destruct t; cbn; auto;
  match goal with |- context [let '(x, y) := ?e in _] => destruct e as [? ?] end; cbn;
  match goal with |- context [if ?b then (if ?n then _ else KSleep) else _] => destruct b, n; discriminate end.
Qed.

Lemma asnk_edge_sleep k v b : z_task (asnk_edge c k v b) = KSleep ->
  (z_task k = KSleep /\ z_ready (asnk_edge c k v b) = z_ready k) \/
  v = false \/ (x_ready c = true /\ z_ready (asnk_edge c k v b) = false).
Proof.
  destruct k as [q p rq ob of lb lf ps w t r]. unfold asnk_edge. destruct t; cbn; auto;
  match goal with |- context [let '(x, y) := ?e in _] => destruct e as [? ?] end; cbn; intros H; right;
  (match type of H with (if ?b then _ else _) = _ => destruct b eqn:E; try discriminate end);
  (destruct (x_ready c); cbn in *; [|left; now apply negb_true_iff in E]);
  apply andb_true_iff in E; destruct E as [E _]; apply orb_true_iff in E;
  (destruct E as [E|E]; [left; now apply negb_true_iff in E|right; split; [reflexivity|]; rewrite E; reflexivity]).
Qed.

(** a running sink appends what it makes of an accepted beat *)
Lemma asnk_edge_q k v b : z_task k <> KDead -> z_task k <> KSleep -> (z_task k = KStart -> z_part k = None) ->
  (z_part (asnk_edge c k v b), z_q (asnk_edge c k v b)) =
  if (negb (x_ready c) || z_ready k) && v then let '(p, fs) := rx_beat c (z_part k) b in (p, z_q k ++ fs) else (z_part k, z_q k).
Proof.
  destruct k as [q p rq ob of lb lf ps w t r]. unfold asnk_edge. cbn [z_task z_part z_ready z_q]. intros H1 H2 H3.
  assert (E : match t with KStart => None | _ => p end = p) by (destruct t; auto; now rewrite H3).
  destruct t; try congruence; cbn; cbn in E; rewrite ?E;
  (destruct ((negb (x_ready c) || r) && v); [destruct (rx_beat c p b) as [p' fs]; reflexivity|cbn; now rewrite app_nil_r]).
Qed.

Definition achan_inv (h : achan) : Prop :=
  asrc_inv (ac_src h) /\
  z_task (ac_snk h) <> KDead /\ (z_task (ac_snk h) = KStart -> z_part (ac_snk h) = None) /\
  (z_task (ac_snk h) = KSleep -> a_valid (ac_src h) && (negb (x_ready c) || z_ready (ac_snk h)) = false).

(** operations that drop nothing *)
Definition acquiet (o : acop) : bool :=
  match o with
  | ACSrc o => aquiet o
  | ACSnk ZClear | ACSnk (ZReset true) => false
  | _ => true
  end.
Definition acop_norm (o : acop) : Prop := match o with ACSrc o => op_norm o | _ => True end.

Lemma recv_task k r : (z_task (fst (asnk_recv k r)) = z_task k /\ z_ready (fst (asnk_recv k r)) = z_ready k \/
   z_task (fst (asnk_recv k r)) = match z_task k with KSleep => KWoken false | t => t end) /\ z_part (fst (asnk_recv k r)) = z_part k.
Proof.
  unfold asnk_recv. destruct r as [cp| |n].
  - destruct (z_q k); cbn; auto.
  - destruct (z_q k); [cbn; auto|]. destruct (z_readq k); cbn; auto.
  - destruct (read_all _ _ _). destruct (z_q k); cbn; auto.
Qed.

Lemma achan_step_inv h o : acquiet o = true -> acop_norm o -> achan_inv h -> achan_inv (achan_step c h o).
Proof.
  intros Ho Hn (Hs & Hd & Hp & Hk). destruct h as [s k]. cbn [ac_src ac_snk] in *. destruct o as [o|o|].
  - assert (E : (exists r, o = AEdge r) \/ a_valid (asrc_step c s o) = a_valid s).
    { destruct o as [t f|b|lb lf| |b|r]; [right|right|right|right|right|left; eauto]; cbn [asrc_step]; auto; try discriminate.
      - destruct (asrc_full s); auto.
      - destruct b; [discriminate|]. reflexivity. }
    destruct E as [[r ->]|E]; [split; auto|].
    assert (Hs' : asrc_inv (asrc_step c s o)) by (apply asrc_step_inv; auto).
    assert (G : achan_inv {| ac_src := asrc_step c s o; ac_snk := k |}) by (split; [exact Hs'|]; cbn [ac_src ac_snk]; rewrite E; auto).
    destruct o; try exact G. split; auto.
  - cbn [achan_step ac_src ac_snk]. split; [exact Hs|]. cbn [ac_src ac_snk]. destruct o as [b|lb lf|r| |b|]; try discriminate; cbn [asnk_step].
    + destruct (Bool.eqb (z_pause k) b); cbn [z_task z_part z_ready asnk_wake]; [auto|].
      destruct (z_task k); repeat split; auto; congruence.
    + cbn. auto.
    + destruct (recv_task k r) as [[[E1 E2]|E1] E3]; rewrite E1, E3.
      * rewrite E2. auto.
      * destruct (z_task k); repeat split; auto; congruence.
    + destruct b; [discriminate|]. cbn. destruct (z_task k); repeat split; auto; congruence.
    + cbn. destruct (z_task k); repeat split; auto; congruence.
  - cbn [achan_step ac_src ac_snk]. unfold asettle. cbn [ac_src ac_snk].
    destruct (asrc_edge_spec c Hc s (z_ready k) Hs) as [Hs' _].
    set (s' := asrc_edge c s (z_ready k)) in *. set (k' := asnk_edge c k (a_valid s) (a_beat s)).
    assert (Hd' : z_task k' <> KDead) by (intros E; apply asnk_edge_dead in E; auto).
    assert (Hst : z_task k' <> KStart).
    { unfold k', asnk_edge. destruct k as [q p rq ob of lb lf ps w t r]. destruct t; cbn; try congruence;
      match goal with |- context [let '(x, y) := ?e in _] => destruct e as [? ?] end; cbn;
      match goal with |- context [if ?b then (if ?n then _ else KSleep) else _] => destruct b, n; discriminate end. }
    destruct (rises (a_valid s) (a_valid s') || (x_ready c && rises (z_ready k) (z_ready k'))) eqn:Er; (split; [exact Hs'|]); cbn [ac_src ac_snk].
    + cbn. destruct (z_task k'); repeat split; auto; congruence.
    + split; [exact Hd'|]. split; [congruence|]. intros Ek. apply orb_false_iff in Er. destruct Er as [Er1 Er2]. unfold rises in *.
      destruct (asnk_edge_sleep _ _ _ Ek) as [[H1 H2]|[H1|[H1 H2]]].
      * specialize (Hk H1). fold k' in H2. rewrite H2. clearbody s' k'.
        destruct (x_ready c), (a_valid s), (a_valid s'), (z_ready k); cbn in *; congruence.
      * rewrite H1 in Er1. cbn in Er1. now rewrite Er1.
      * fold k' in H2. rewrite H1, H2. apply andb_false_r.
Qed.

(** one clock edge: the accepted beats leave the source side and enter the sink side *)
Lemma achan_clk h : achan_inv h ->
  let h' := achan_step c h ACClk in
  exists acc, wire (ac_src h) ++ pend c (ac_src h) = acc ++ wire (ac_src h') ++ pend c (ac_src h') /\
    let '(p, fs) := reassemble c (z_part (ac_snk h)) acc in z_part (ac_snk h') = p /\ z_q (ac_snk h') = z_q (ac_snk h) ++ fs.
Proof.
  intros (Hs & Hd & Hp & Hk). destruct h as [s k]. cbn [ac_src ac_snk] in *. cbv zeta. cbn [achan_step ac_src ac_snk].
  unfold asettle. cbn [ac_src ac_snk].
  destruct (asrc_edge_spec c Hc s (z_ready k) Hs) as [_ E].
  set (s' := asrc_edge c s (z_ready k)) in *. set (k' := asnk_edge c k (a_valid s) (a_beat s)).
  exists (if a_valid s && (negb (x_ready c) || z_ready k) then [a_beat s] else []).
  assert (G : let '(p, fs) := reassemble c (z_part k) (if a_valid s && (negb (x_ready c) || z_ready k) then [a_beat s] else []) in
     z_part k' = p /\ z_q k' = z_q k ++ fs).
  { destruct (z_task k) eqn:Et.
    - congruence.
    - pose proof (asnk_edge_q k (a_valid s) (a_beat s) ltac:(congruence) ltac:(congruence) ltac:(auto)) as Q. fold k' in Q.
      rewrite andb_comm in Q. destruct (a_valid s && (negb (x_ready c) || z_ready k)); cbn [reassemble].
      + destruct (rx_beat c (z_part k) (a_beat s)) as [p fs]. injection Q as -> ->. now rewrite app_nil_r.
      + injection Q as -> ->. now rewrite app_nil_r.
    - pose proof (asnk_edge_q k (a_valid s) (a_beat s) ltac:(congruence) ltac:(congruence) ltac:(congruence)) as Q. fold k' in Q.
      rewrite andb_comm in Q. destruct (a_valid s && (negb (x_ready c) || z_ready k)); cbn [reassemble].
      + destruct (rx_beat c (z_part k) (a_beat s)) as [p fs]. injection Q as -> ->. now rewrite app_nil_r.
      + injection Q as -> ->. now rewrite app_nil_r.
    - pose proof (asnk_edge_q k (a_valid s) (a_beat s) ltac:(congruence) ltac:(congruence) ltac:(congruence)) as Q. fold k' in Q.
      rewrite andb_comm in Q. destruct (a_valid s && (negb (x_ready c) || z_ready k)); cbn [reassemble].
      + destruct (rx_beat c (z_part k) (a_beat s)) as [p fs]. injection Q as -> ->. now rewrite app_nil_r.
      + injection Q as -> ->. now rewrite app_nil_r.
    - rewrite (Hk eq_refl). cbn [reassemble]. rewrite app_nil_r. unfold k', asnk_edge. cbn [asnk_run z_task]. rewrite Et. cbn. rewrite Et. auto. }
  destruct (rises (a_valid s) (a_valid s') || x_ready c && rises (z_ready k) (z_ready k')); (split; [exact E|]);
  destruct (reassemble c (z_part k) (if a_valid s && (negb (x_ready c) || z_ready k) then [a_beat s] else [])) as [p fs]; exact G.
Qed.

Lemma recv_taken k r : taken r (z_readq k) (z_q k) ++ z_q (fst (asnk_recv k r)) = z_q k.
Proof.
  unfold asnk_recv. destruct r as [cp| |n]; cbn [taken].
  - destruct (z_q k) eqn:E; cbn; rewrite ?E; reflexivity.
  - destruct (z_q k) eqn:E; [cbn; rewrite ?E; destruct (z_readq k); reflexivity|]. destruct (z_readq k); cbn; rewrite ?E; reflexivity.
  - destruct (read_all _ _ _). destruct (z_q k) eqn:E; cbn; rewrite ?E, ?app_nil_r; reflexivity.
Qed.

Lemma achan_conserve ops : forall h, Forall (fun o => acquiet o = true /\ acop_norm o) ops -> achan_inv h ->
  let '(sent, got, h') := achan_trace c h ops in
  achan_inv h' /\
  exists acc, wire (ac_src h) ++ pend c (ac_src h) ++ flat_map (nb c) sent = acc ++ wire (ac_src h') ++ pend c (ac_src h') /\
    let '(p, fs) := reassemble c (z_part (ac_snk h)) acc in z_part (ac_snk h') = p /\ z_q (ac_snk h) ++ fs = got ++ z_q (ac_snk h').
Proof.
  induction ops as [|o ops IH]; intros h Hq Hi; cbn [achan_trace].
  - split; [exact Hi|]. exists []. cbn. rewrite !app_nil_r. auto.
  - inversion Hq as [|? ? [Ho Hn] Hq']; subst x l. pose proof (achan_step_inv h o Ho Hn Hi) as Hi1.
    specialize (IH _ Hq' Hi1). destruct (achan_trace c (achan_step c h o) ops) as [[sent got] h'].
    destruct IH as (Hi' & acc & E & G). split; [exact Hi'|].
    assert (Hsrc : forall o', o = ACSrc o' -> exists acc0,
       wire (ac_src h) ++ pend c (ac_src h) ++ flat_map (nb c) ((match o with ACSrc (ASend t f) => if asrc_full (ac_src h) then [] else [(t, f)] | _ => [] end) ++ sent) =
       acc0 ++ wire (ac_src h') ++ pend c (ac_src h') /\
       let '(p, fs) := reassemble c (z_part (ac_snk h)) acc0 in z_part (ac_snk h') = p /\ z_q (ac_snk h) ++ fs = got ++ z_q (ac_snk h')).
    { intros o' ->. exists acc. cbn [achan_step] in E, G. rewrite <- E. destruct o' as [t f|b|lb lf| |b|r]; try discriminate; cbn [ac_src ac_snk asrc_step] in *.
      - split; [|exact G]. rewrite flat_map_app. destruct (asrc_full (ac_src h)); [reflexivity|]. unfold wire, pend. cbn. rewrite flat_map_app. cbn. now rewrite <- !app_assoc.
      - auto.
      - auto.
      - destruct b; [discriminate|]. auto.
      - auto. }
    destruct o as [o|o|].
    + exact (Hsrc o eq_refl).
    + exists acc. cbn [app]. cbn [achan_step ac_src ac_snk] in E, G. split; [exact E|].
      destruct o as [b|lb lf|r| |b|]; try discriminate; cbn [asnk_step] in G; cbn [app].
      * destruct (Bool.eqb _ _); exact G.
      * exact G.
      * destruct (recv_task (ac_snk h) r) as [_ Ep]. rewrite Ep in G.
        destruct (reassemble c (z_part (ac_snk h)) acc) as [p fs]. destruct G as [G1 G2]. split; [exact G1|].
        rewrite <- (recv_taken (ac_snk h) r) at 1. rewrite <- !app_assoc, G2. reflexivity.
      * destruct b; [discriminate|]. exact G.
      * cbn [asnk_run z_part z_q] in G. destruct Hi as (_ & _ & Hp & _).
        assert (Ez : match z_task (ac_snk h) with KStart => None | _ => z_part (ac_snk h) end = z_part (ac_snk h)) by (destruct (z_task (ac_snk h)); auto; now rewrite Hp).
        rewrite Ez in G. exact G.
    + destruct (achan_clk h Hi) as (acc0 & E0 & G0). cbv zeta in E0, G0. exists (acc0 ++ acc). cbn [app].
      split.
      * rewrite app_assoc, E0, <- !app_assoc. f_equal. exact E.
      * rewrite reassemble_app. destruct (reassemble c (z_part (ac_snk h)) acc0) as [p0 f0]. destruct G0 as [G1 G2]. rewrite G1, G2 in G.
        destruct (reassemble c p0 acc) as [p1 f1]. now rewrite app_assoc.
Qed.

(** ** monitor *)
Definition amon_inv (m : amon) : Prop :=
  n_task m <> MDead /\ (n_task m = MStart -> n_part m = None) /\
  (n_task m = MSleep -> n_valid m && (negb (x_ready c) || n_ready m) = false).
Definition nquiet (o : nop) : bool := match o with NClear | NReset true => false | _ => true end.

Lemma mrecv_task m r : let m' := fst (amon_recv m r) in
  n_task m' = n_task m /\ n_part m' = n_part m /\ n_valid m' = n_valid m /\ n_ready m' = n_ready m /\ n_beat m' = n_beat m.
Proof.
  cbv zeta. unfold amon_recv. destruct r as [cp| |n].
  - destruct (n_q m); cbn; auto 6.
  - destruct (n_q m); [cbn; auto 6|]. destruct (n_readq m); cbn; auto 6.
  - destruct (read_all _ _ _). cbn; auto 6.
Qed.

Lemma mrecv_taken m r : taken r (n_readq m) (n_q m) ++ n_q (fst (amon_recv m r)) = n_q m.
Proof.
  unfold amon_recv. destruct r as [cp| |n]; cbn [taken].
  - destruct (n_q m) eqn:E; cbn; rewrite ?E; reflexivity.
  - destruct (n_q m) eqn:E; [cbn; rewrite ?E; destruct (n_readq m); reflexivity|]. destruct (n_readq m); cbn; rewrite ?E; reflexivity.
  - destruct (read_all _ _ _). cbn. apply app_nil_r.
Qed.

Lemma amon_step_inv m o : nquiet o = true -> amon_inv m -> amon_inv (amon_step c m o).
Proof.
  intros Ho (H1 & H2 & H3). unfold amon_inv. destruct o as [v r b|r| |b| |]; try discriminate; cbn [amon_step].
  - cbn. destruct (n_task m) eqn:Et; repeat split; auto; try congruence;
    destruct (rises (n_valid m) v || x_ready c && rises (n_ready m) r) eqn:E; try congruence.
    intros _. specialize (H3 eq_refl). unfold rises in E. destruct (x_ready c), (n_valid m), (n_ready m), v, r; cbn in *; congruence.
  - destruct (mrecv_task m r) as (-> & -> & -> & -> & _). auto.
  - destruct b; [discriminate|]. cbn. destruct (n_task m); repeat split; auto; congruence.
  - cbn. destruct (n_task m); repeat split; auto; congruence.
  - unfold amon_edge. destruct (n_task (amon_start m)) eqn:E; cbn in E |- *; rewrite ?E.
    + destruct (n_task m); congruence.
    + destruct (n_task m); congruence.
    + destruct ((negb (x_ready c) || n_ready m) && n_valid m) eqn:Ef.
      * match goal with |- context [rx_beat c ?p ?b] => destruct (rx_beat c p b) as [p' fs] end. cbn. repeat split; congruence.
      * cbn. destruct null; repeat split; try congruence. rewrite andb_comm. auto.
    + destruct (n_task m); try congruence. auto.
Qed.

Lemma amon_conserve ops : forall m, Forall (fun o => nquiet o = true) ops -> amon_inv m ->
  let '(seen, got, _, m') := amon_trace c m ops in
  let '(p, fs) := reassemble c (n_part m) seen in n_part m' = p /\ n_q m ++ fs = got ++ n_q m'.
Proof.
  induction ops as [|o ops IH]; intros m Hq Hm; cbn [amon_trace].
  - cbn. rewrite app_nil_r. auto.
  - inversion Hq as [|? ? Ho Hq']; subst x l. pose proof (amon_step_inv m o Ho Hm) as Hm1. specialize (IH _ Hq' Hm1).
    destruct (amon_trace c (amon_step c m o) ops) as [[[seen got] rd] m'].
    destruct Hm as (H1 & H2 & H3).
    destruct o as [v r b|r| |b| |]; try discriminate; cbn [amon_step app] in *.
    + exact IH.
    + destruct (mrecv_task m r) as (_ & Ep & _). rewrite Ep in IH. destruct (reassemble c (n_part m) seen) as [p fs]. destruct IH as [G1 G2].
      split; [exact G1|]. rewrite <- (mrecv_taken m r) at 1. rewrite <- !app_assoc, G2. reflexivity.
    + destruct b; [discriminate|]. exact IH.
    + cbn [amon_start n_part n_q] in IH.
      assert (Ez : match n_task m with MStart => None | _ => n_part m end = n_part m) by (destruct (n_task m); auto; now rewrite H2).
      rewrite Ez in IH. exact IH.
    + rewrite reassemble_app.
      assert (G : let '(p, fs) := reassemble c (n_part m) (if n_valid m && (negb (x_ready c) || n_ready m) then [n_beat m] else []) in
         n_part (amon_edge c m) = p /\ n_q (amon_edge c m) = n_q m ++ fs).
      { assert (Ez : match n_task m with MStart => None | _ => n_part m end = n_part m) by (destruct (n_task m); auto; now rewrite H2).
        unfold amon_edge. cbn [amon_start n_task n_part n_q n_ready n_valid n_beat]. rewrite Ez. destruct (n_task m) eqn:Et.
        - congruence.
        - rewrite (andb_comm _ (n_valid m)). destruct (n_valid m && (negb (x_ready c) || n_ready m)); cbn [reassemble].
          + destruct (rx_beat c (n_part m) (n_beat m)) as [p fs]. cbn. now rewrite app_nil_r.
          + cbn. now rewrite app_nil_r.
        - rewrite (andb_comm _ (n_valid m)). destruct (n_valid m && (negb (x_ready c) || n_ready m)); cbn [reassemble].
          + destruct (rx_beat c (n_part m) (n_beat m)) as [p fs]. cbn. now rewrite app_nil_r.
          + cbn. now rewrite app_nil_r.
        - rewrite (H3 eq_refl). cbn. rewrite Et, app_nil_r. auto. }
      destruct (reassemble c (n_part m) (if n_valid m && (negb (x_ready c) || n_ready m) then [n_beat m] else [])) as [p0 f0].
      destruct G as [G1 G2]. rewrite G1, G2 in IH. destruct (reassemble c p0 seen) as [p1 f1]. now rewrite app_assoc.
Qed.

(** ** received frames can always be compacted *)
Definition rx_ok (f : frame) : Prop :=
  exists k i d u, f_keep f = Some k /\ f_id f = SList i /\ f_dest f = SList d /\ f_user f = SList u /\
    (k = [] \/ zlen k = zlen (f_data f)) /\ zlen i <= zlen (f_data f) /\ zlen d <= zlen (f_data f) /\ zlen u <= zlen (f_data f) /\
    (x_keep c = false -> k = []) /\ (x_keep c = true -> zlen k = zlen (f_data f)).

Lemma rx_new_ok : rx_ok (rx_new c).
Proof. exists [], [], [], []. cbn. change (zlen (@nil Z)) with 0. repeat split; auto; lia. Qed.

Lemma rx_lanes_ok b n : forall o f, rx_ok f -> rx_ok (rx_lanes c b n o f).
Proof.
  induction n as [|n IH]; intros o f H; cbn [rx_lanes]; [exact H|]. apply IH. clear IH.
  destruct H as (k & i & d & u & Ek & Ei & Ed & Eu & H1 & H2 & H3 & H4 & H5 & H6).
  unfold rx_ok. cbn [f_keep f_id f_dest f_user f_data]. unfold keepl. rewrite Ek, Ei, Ed, Eu. cbn [sbl]. do 4 eexists.
  do 4 (split; [reflexivity|]). rewrite zlen_app. 
  assert (Z1 : forall x : Z, zlen [x] = 1) by reflexivity. rewrite Z1.
  split; [destruct (x_keep c) eqn:EK; [right; rewrite zlen_app, Z1; rewrite H6 by auto; reflexivity|left; auto]|].
  split; [destruct (x_id c); rewrite ?zlen_app, ?Z1; lia|].
  split; [destruct (x_dest c); rewrite ?zlen_app, ?Z1; lia|].
  split; [destruct (x_user c); rewrite ?zlen_app, ?Z1; lia|].
  split; [intros E; rewrite E in *; auto|intros E; rewrite E in *; rewrite zlen_app, Z1, H6 by auto; auto].
Qed.

Lemma rx_beat_ok p b : (forall f, p = Some f -> rx_ok f) ->
  let '(p', fs) := rx_beat c p b in (forall f, p' = Some f -> rx_ok f) /\ Forall rx_ok fs.
Proof.
  intros H. unfold rx_beat.
  set (f := rx_lanes c b (Z.to_nat (x_lanes c)) 0 _).
  assert (Hf : rx_ok f).
  { apply rx_lanes_ok. destruct p as [g|]; [|apply rx_new_ok]. destruct (0 <? zlen (f_data g)); [now apply H|apply rx_new_ok]. }
  destruct (negb (x_last c) || b_last b); split; try congruence; auto.
Qed.

Lemma rx_ok_compact f : rx_ok f -> exists g, compact f = Ok g.
Proof.
  intros (k & i & d & u & Ek & Ei & Ed & Eu & H1 & H2 & H3 & H4 & _).
  destruct (compact_spec f k i d u Ek Ei Ed Eu H1 H2 H3 H4) as (g & E & _). eauto.
Qed.

Lemma reassemble_ok l : forall p, (forall f, p = Some f -> rx_ok f) ->
  let '(p', fs) := reassemble c p l in (forall f, p' = Some f -> rx_ok f) /\ Forall rx_ok fs.
Proof.
  induction l as [|b l IH]; intros p Hp; cbn [reassemble]; [split; [exact Hp|constructor]|].
  pose proof (rx_beat_ok p b Hp) as H. destruct (rx_beat c p b) as [p1 f1]. destruct H as [H1 H2].
  specialize (IH p1 H1). destruct (reassemble c p1 l) as [p2 f2]. destruct IH. split; [auto|]. apply Forall_app. auto.
Qed.

(** ** byte reads *)
Definition buffered (k : asnk) : list Z := z_readq k ++ concat (map cdata (z_q k)).

Definition zreads (e : zev) : bool :=
  match e with ZOp (ZRecv (RRecv _)) | ZOp ZClear => false | _ => true end.

Lemma read_all_app rq q n : let '(rq', r) := read_all rq q n in r ++ rq' = rq ++ concat (map cdata q).
Proof. unfold read_all. apply firstn_skipn. Qed.

Lemma reads_conserve l : forall k, Forall (fun e => zreads e = true) l ->
  let '(arr, rd, k') := zev_trace c k l in
  buffered k ++ concat (map cdata arr) = rd ++ buffered k'.
Proof.
  induction l as [|e l IH]; intros k Hq; cbn [zev_trace].
  - cbn. now rewrite app_nil_r.
  - inversion Hq as [|? ? Ho Hq']; subst x l0. specialize (IH (zev_step c k e) Hq').
    destruct (zev_trace c (zev_step c k e) l) as [[arr rd] k']. rewrite <- app_assoc, <- IH. clear IH.
    rewrite map_app, concat_app. rewrite (app_assoc (buffered k)), (app_assoc _ (buffered (zev_step c k e))). f_equal.
    destruct e as [o|v b|]; cbn [zev_step].
    + cbn [map concat]. rewrite app_nil_r. destruct o as [b|lb lf|r| |b|]; try discriminate; cbn [asnk_step app]; try reflexivity.
      * destruct (Bool.eqb _ _); reflexivity.
      * destruct r as [cp| |n]; try discriminate; cbn [asnk_recv].
        -- destruct (z_q k) as [|f q] eqn:E; [reflexivity|]. destruct (z_readq k) eqn:E2; [|reflexivity].
           unfold buffered. cbn. rewrite E, E2. reflexivity.
        -- pose proof (read_all_app (z_readq k) (z_q k) n) as H. destruct (read_all (z_readq k) (z_q k) n) as [rq r].
           unfold buffered. rewrite <- H. destruct (z_q k); cbn; now rewrite app_nil_r.
      * destruct b; reflexivity.
    + cbn [app]. unfold asnk_edge. destruct (z_task (asnk_run k)) eqn:Et.
      all: try (unfold buffered; cbn [asnk_run z_q z_readq]; rewrite skipn_all; cbn; now rewrite app_nil_r).
      cbn [asnk_run z_part z_ready z_q z_readq].
      match goal with |- context [let '(x, y) := ?e in _] => destruct e as [? fs] end. unfold buffered. cbn [z_q z_readq].
      rewrite skipn_app, skipn_all, Nat.sub_diag. cbn [app skipn]. rewrite map_app, concat_app. now rewrite <- app_assoc.
    + cbn. now rewrite app_nil_r.
Qed.

(** ** bounds *)
Definition zbound (L : Z) (k : asnk) : Prop :=
  z_limf k = L /\ snk_counts k /\ zlen (z_q k) <= L + 1 /\ (z_ready k = true -> zlen (z_q k) <= L).

Lemma rx_beat_one p b : zlen (snd (rx_beat c p b)) <= 1.
Proof. unfold rx_beat. destruct (_ || _); cbn; lia. Qed.

Lemma zbound_edge L k v b : x_ready c = true -> 0 < L -> zbound L k -> zbound L (asnk_edge c k v b).
Proof.
  intros Hr HL (H1 & H2 & H3 & H4). split; [|split; [now apply snk_counts_edge|]].
  - unfold asnk_edge. destruct (z_task (asnk_run k)); auto. match goal with |- context [let '(x, y) := ?e in _] => destruct e as [? fs] end. exact H1.
  - pose proof (snk_counts_edge c k v b H2) as [C1 _]. revert C1. unfold asnk_edge. destruct (z_task (asnk_run k)); auto.
    rewrite Hr. cbn [asnk_run z_part z_ready z_q z_occf z_occb z_limb z_limf z_pause negb orb].
    pose proof (rx_beat_one (match z_task k with KStart => None | _ => z_part k end) b) as Hone.
    destruct (z_ready k && v) eqn:Ev.
    + destruct (rx_beat c (match z_task k with KStart => None | _ => z_part k end) b) as [p fs]. cbn [snd] in Hone.
      cbn [z_ready z_q z_occf]. intros C1. apply andb_true_iff in Ev. destruct Ev as [Ev _]. specialize (H4 Ev). rewrite zlen_app in *.
      split; [lia|]. intros Hf. apply negb_true_iff, orb_false_iff in Hf. destruct Hf as [Hf _]. unfold occ_full in Hf. rewrite H1 in Hf.
      destruct ((0 <? z_limb k) && _); [discriminate|]. destruct ((0 <? L) && (L <? z_occf k + zlen fs)) eqn:E; [discriminate|].
      destruct H2 as [C0 _]. lia.
    + cbn [z_ready z_q z_occf]. rewrite app_nil_r. intros C1. split; [lia|].
      intros Hf. apply negb_true_iff, orb_false_iff in Hf. destruct Hf as [Hf _]. unfold occ_full in Hf. rewrite H1 in Hf.
      destruct ((0 <? z_limb k) && _); [discriminate|]. destruct ((0 <? L) && _) eqn:E; [discriminate|].
      destruct H2 as [C0 _]. lia.
Qed.

Lemma recv_fields k r : z_limf (fst (asnk_recv k r)) = z_limf k /\ z_ready (fst (asnk_recv k r)) = z_ready k /\ z_pause (fst (asnk_recv k r)) = z_pause k /\ z_limb (fst (asnk_recv k r)) = z_limb k.
Proof.
  unfold asnk_recv. destruct r as [cp| |n].
  - destruct (z_q k); cbn; auto.
  - destruct (z_q k); [cbn; auto|]. destruct (z_readq k); cbn; auto.
  - destruct (read_all _ _ _). destruct (z_q k); cbn; auto.
Qed.

Lemma zbound_step L k o : x_ready c = true -> 0 < L -> (forall a b, o <> ZLimits a b) -> zbound L k -> zbound L (asnk_step c k o).
Proof.
  intros Hr HL Ho (H1 & H2 & H3 & H4). split; [|split; [now apply snk_counts_step|]].
  - destruct o as [b|lb lf|r| |b|]; cbn [asnk_step]; auto.
    + destruct (Bool.eqb _ _); auto.
    + exfalso. eapply Ho. reflexivity.
    + destruct (recv_fields k r) as [-> _]. exact H1.
    + destruct b; auto.
  - destruct o as [b|lb lf|r| |b|]; cbn [asnk_step]; auto.
    + destruct (Bool.eqb _ _); auto.
    + pose proof (f_equal zlen (recv_taken k r)) as E. rewrite zlen_app in E. pose proof (zlen_nonneg (taken r (z_readq k) (z_q k))).
      destruct (recv_fields k r) as (_ & -> & _). split; [lia|]. intros X. specialize (H4 X). lia.
    + cbn. change (zlen (@nil frame)) with 0. split; lia.
    + destruct b; cbn; auto. rewrite Hr. split; [auto|discriminate].
Qed.

(** ** readiness *)
Definition zawake (k : asnk) : Prop :=
  match z_task k with KSleep => z_ready k = false -> asnk_full k = true \/ z_pause k = true | _ => True end.

Lemma zawake_step k o : x_ready c = true -> o <> ZClear -> (forall a b, o <> ZLimits a b) -> zawake k -> zawake (asnk_step c k o).
Proof.
  intros Hr H1 H2 H. unfold zawake in *. destruct o as [b|lb lf|r| |b|]; cbn [asnk_step]; try congruence.
  - destruct (Bool.eqb (z_pause k) b) eqn:E; cbn.
    + apply eqb_prop in E. subst b. exact H.
    + destruct (z_task k); exact I.
  - destruct r as [cp| |n]; cbn [asnk_recv].
    + destruct (z_q k); cbn; [exact H|]. destruct (z_task k); exact I.
    + destruct (z_q k); [exact H|]. destruct (z_readq k); cbn; [|exact H]. destruct (z_task k); exact I.
    + destruct (read_all _ _ _). destruct (z_q k); cbn; [|destruct (z_task k); exact I].
      destruct (z_task k); auto. unfold asnk_full in *. cbn. rewrite !Z.sub_0_r. exact H.
  - destruct b; cbn; auto. destruct (z_task k); auto.
  - cbn. destruct (z_task k); auto.
Qed.

Lemma zawake_edge k v b : x_ready c = true -> zawake k -> zawake (asnk_edge c k v b).
Proof.
  intros Hr. unfold zawake, asnk_full, asnk_edge. destruct k as [q p rq ob of lb lf ps w t r]. rewrite Hr. destruct t; cbn; auto; intros _;
  match goal with |- context [let '(x, y) := ?e in _] => destruct e as [? fs] end; cbn;
  match goal with |- context [if ?b then (if ?n then _ else KSleep) else _] => destruct b eqn:Es, n; auto end;
  intros Hf; apply negb_false_iff in Hf; apply orb_true_iff in Hf;
  (destruct Hf as [Hf|Hf]; [left; exact Hf|right]); auto;
  apply andb_true_iff in Es; destruct Es as [_ Es]; apply eqb_prop in Es; congruence.
Qed.

Lemma zawake_wake k : zawake k -> zawake (asnk_wake k).
Proof. unfold zawake. cbn. destruct (z_task k); auto. Qed.
End P.
