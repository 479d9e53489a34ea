(** Proofs about AXI stream sources, monitors and sinks. *)
From Coq Require Import ZArith Lia List Bool Permutation.
From Coq Require Import ZifyBool ZifyNat.
From Verif Require Import Py M_stream M_axisframe M_axis S_axis S_axisrun P_axisframe.
Import ListNotations.
Open Scope Z_scope.

Lemma nonempty_pos (l : list Z) : l <> [] -> 0 < zlen l.
Proof. destruct l; [congruence|]. intros _. rewrite zlen_cons. pose proof (zlen_nonneg l). lia. Qed.

Section P.
Variable c : scfg.
Hypothesis Hc : cfg_ok c.

(** ** beats of the source *)
Lemma beats_fuel g : forall n m fo, 0 <= fo -> zlen (f_data g) - fo <= Z.of_nat n -> zlen (f_data g) - fo <= Z.of_nat m ->
  fo < zlen (f_data g) -> beats_from c g n fo = beats_from c g m fo.
Proof.
  induction n as [|n IH]; intros [|m] fo H0 H1 H2 H3; try lia; cbn [beats_from].
  pose proof (drive_beat_spec c Hc g fo ltac:(lia)) as H. destruct (drive_beat c g fo) as [[b fo'] fin].
  destruct H as (E1 & E2 & _). destruct fin; [reflexivity|]. f_equal. destruct Hc. apply IH; lia.
Qed.

(** beats not yet driven *)
Definition rem (o : option (tframe * Z)) : list beat :=
  match o with
  | Some (_, g, fo) => beats_from c g (Z.to_nat (zlen (f_data g) - fo)) fo
  | None => []
  end.
Definition nb (x : tframe) : list beat := match normalize (snd x) with Ok g => frame_beats c g | Err _ => [] end.
Definition pend (s : asrc) : list beat := rem (a_cur s) ++ flat_map nb (a_q s).
Definition wire (s : asrc) : list beat := if a_valid s then [a_beat s] else [].

Definition cur_ok (o : option (tframe * Z)) : Prop :=
  match o with Some (_, g, fo) => 0 <= fo <= zlen (f_data g) /\ (0 < zlen (f_data g) -> fo < zlen (f_data g)) | None => True end.
Definition norm_ok (x : tframe) : Prop := exists g, normalize (snd x) = Ok g.

Definition asrc_inv (s : asrc) : Prop :=
  (a_valid s = true -> a_task s = TEdge) /\ cur_ok (a_cur s) /\ Forall norm_ok (a_q s) /\
  (a_active s = false -> a_valid s = false /\ ftrue (a_cur s) = false).

Lemma rem_false o : cur_ok o -> ftrue o = false -> rem o = [].
Proof.
  destruct o as [[[t g] fo]|]; [|reflexivity]. cbn. intros [H1 H2] H. replace (Z.to_nat (zlen (f_data g) - fo)) with 0%nat by lia. reflexivity.
Qed.

Lemma rem_true t g fo : 0 <= fo < zlen (f_data g) ->
  let '(b, fo', fin) := drive_beat c g fo in
  rem (Some (t, g, fo)) = b :: rem (if fin then None else Some (t, g, fo')) /\ cur_ok (if fin then None else Some (t, g, fo')).
Proof.
  intros H. cbn [rem]. destruct (Z.to_nat (zlen (f_data g) - fo)) as [|n] eqn:En; [lia|]. cbn [beats_from].
  pose proof (drive_beat_spec c Hc g fo H) as D. destruct (drive_beat c g fo) as [[b fo'] fin]. destruct D as (E1 & E2 & _).
  destruct fin; cbn [rem cur_ok]; [auto|]. destruct Hc. split; [f_equal; apply beats_fuel; lia|lia].
Qed.

(** the fetch of a new frame *)
Lemma fetch_spec s : cur_ok (a_cur s) -> Forall norm_ok (a_q s) ->
  exists s1, asrc_fetch s = Ok s1 /\ pend s1 = pend s /\ cur_ok (a_cur s1) /\ Forall norm_ok (a_q s1) /\
    a_valid s1 = a_valid s /\ a_pause s1 = a_pause s /\ a_beat s1 = a_beat s /\ a_task s1 = a_task s /\
    (ftrue (a_cur s1) = false -> ftrue (a_cur s) = false) /\ (a_active s1 = false -> a_active s = false) /\
    (a_q s <> [] -> ftrue (a_cur s) = false -> a_active s1 = true) /\ (ftrue (a_cur s1) = true -> a_active s1 = true \/ ftrue (a_cur s) = true).
Proof.
  intros H1 H2. unfold asrc_fetch. destruct (ftrue (a_cur s)) eqn:Ef.
  - exists s. split; [reflexivity|]. split; [reflexivity|]. split; [exact H1|]. split; [exact H2|].
    do 4 (split; [reflexivity|]). intuition congruence.
  - destruct (a_q s) as [|[t f] q] eqn:Eq.
    + exists s. split; [reflexivity|]. split; [reflexivity|]. split; [exact H1|]. split; [rewrite Eq; constructor|].
      do 4 (split; [reflexivity|]). intuition congruence.
    + inversion H2 as [|? ? [g Hg] H2']; subst x l. cbn [snd] in Hg. rewrite Hg. cbn [bind]. eexists. split; [reflexivity|].
      unfold pend. cbn [a_q a_cur]. rewrite Eq. rewrite (rem_false (a_cur s)) by auto. cbn [flat_map app].
      unfold nb at 2. cbn [snd]. rewrite Hg. cbn [rem cur_ok]. pose proof (zlen_nonneg (f_data g)). split.
      { f_equal. rewrite Z.sub_0_r. unfold frame_beats, zlen. now rewrite Nat2Z.id. }
      split; [split; lia|]. split; [exact H2'|]. do 4 (split; [reflexivity|]). cbn. intuition congruence.
Qed.

Definition aquiet (o : aop) : bool := match o with AClear | AReset true => false | _ => true end.
Definition op_norm (o : aop) : Prop := match o with ASend _ f => exists g, normalize f = Ok g | _ => True end.

(** what an edge does *)
Lemma asrc_edge_spec s r : asrc_inv s ->
  asrc_inv (asrc_edge c s r) /\
  wire s ++ pend s = (if a_valid s && (negb (x_ready c) || r) then [a_beat s] else []) ++ wire (asrc_edge c s r) ++ pend (asrc_edge c s r).
Proof.
  intros (Hv & Hcur & Hq & Ha). unfold asrc_edge. destruct (a_task s) eqn:Et.
  - assert (Ev : a_valid s = false) by (destruct (a_valid s); [specialize (Hv eq_refl); discriminate|reflexivity]).
    unfold wire. rewrite Ev. split; [|reflexivity]. unfold asrc_inv. rewrite Et, Ev. split; [congruence|]. intuition congruence.
  - destruct ((negb (x_ready c) || r) && a_valid s || negb (a_valid s)) eqn:Eg.
    + destruct (fetch_spec s Hcur Hq) as (s1 & -> & Ep & Hc1 & Hq1 & Ev1 & Epa & Eb1 & Et1 & Hf1 & Hf2 & Hf3 & Hf4).
      assert (Eacc : wire s = (if a_valid s && (negb (x_ready c) || r) then [a_beat s] else [])).
      { unfold wire. destruct (a_valid s); [|reflexivity]. rewrite andb_true_r, orb_false_r in Eg. now rewrite Eg. }
      rewrite <- Eacc, <- Ep. clear Eacc.
      assert (Hhold : asrc_inv (asrc_hold s1) /\ wire s ++ pend s1 = wire s ++ wire (asrc_hold s1) ++ pend (asrc_hold s1)).
      { split; [|reflexivity]. unfold asrc_inv, asrc_hold. cbn. split; [discriminate|]. auto. }
      destruct (a_cur s1) as [[[t g] fo]|] eqn:Ec1; [|exact Hhold].
      destruct ((0 <? zlen (f_data g)) && negb (a_pause s1)) eqn:Ed; [|exact Hhold].
      apply andb_true_iff in Ed. destruct Ed as [Ed _]. cbn [cur_ok] in Hc1.
      unfold asrc_drive. pose proof (rem_true t g fo ltac:(lia)) as D. destruct (drive_beat c g fo) as [[b fo'] fin]. destruct D as [D1 D2].
      split.
      * unfold asrc_inv. cbn. split; [auto|]. split; [exact D2|]. split; [exact Hq1|]. intros Hact.
        exfalso. assert (a_active s1 = true); [|congruence]. destruct (a_active s1) eqn:E; [reflexivity|exfalso].
        specialize (Hf2 eq_refl). destruct (Ha Hf2) as [_ Hfc]. destruct (Hf4 ltac:(cbn; lia)); congruence.
      * f_equal. unfold pend. rewrite Ec1. cbn [a_cur a_q wire a_valid a_beat]. exact (f_equal (fun l => l ++ flat_map nb (a_q s1)) D1).
    + assert (Ev : a_valid s = true) by (destruct (a_valid s); [reflexivity|rewrite orb_true_r in Eg; discriminate]).
      unfold wire. rewrite Ev in *. rewrite andb_true_r, orb_false_r in Eg. rewrite Eg. cbn. split; [|reflexivity].
      unfold asrc_inv. rewrite Et, Ev. auto.
  - assert (Ev : a_valid s = false) by (destruct (a_valid s); [specialize (Hv eq_refl); discriminate|reflexivity]).
    unfold wire. rewrite Ev. split; [|reflexivity]. unfold asrc_inv. rewrite Et, Ev. split; [congruence|]. intuition congruence.
Qed.

Lemma asrc_step_inv s o : aquiet o = true -> op_norm o -> asrc_inv s -> asrc_inv (asrc_step c s o).
Proof.
  intros Ho Hn Hs. destruct o as [t f|b|lb lf| |b|r]; try discriminate; cbn [asrc_step].
  - destruct (asrc_full s); [exact Hs|]. destruct Hs as (Hv & Hcur & Hq & Ha). split; cbn; [|split; [exact Hcur|split; [|exact Ha]]].
    + intros E. rewrite (Hv E). reflexivity.
    + apply Forall_app. split; [exact Hq|]. constructor; [exact Hn|constructor].
  - exact Hs.
  - exact Hs.
  - destruct b; [discriminate|]. destruct Hs as (Hv & Hs). split; cbn; [|exact Hs]. intros E. rewrite (Hv E). reflexivity.
  - now apply asrc_edge_spec.
Qed.

Lemma asrc_conserve ops : forall s, Forall (fun o => aquiet o = true /\ op_norm o) ops -> asrc_inv s ->
  let '(sent, acc, s') := asrc_trace c s ops in
  asrc_inv s' /\ wire s ++ pend s ++ flat_map nb sent = acc ++ wire s' ++ pend s'.
Proof.
  induction ops as [|o ops IH]; intros s Hq Hs; cbn [asrc_trace].
  - split; auto. cbn. now rewrite app_nil_r.
  - inversion Hq as [|? ? [Ho Hn] Hq']; subst x l. pose proof (asrc_step_inv s o Ho Hn Hs) as Hs1.
    specialize (IH (asrc_step c s o) Hq' Hs1).
    destruct (asrc_trace c (asrc_step c s o) ops) as [[sent acc] s']. destruct IH as [Hs' IH].
    split; [exact Hs'|]. rewrite <- app_assoc, <- IH. clear IH. rewrite flat_map_app.
    destruct o as [t f|b|lb lf| |b|r]; try discriminate; cbn [asrc_step app flat_map]; auto.
    + destruct (asrc_full s); [reflexivity|]. unfold pend, wire. cbn. rewrite flat_map_app. cbn. now rewrite <- !app_assoc.
    + destruct b; [discriminate|]. reflexivity.
    + destruct (asrc_edge_spec s r Hs) as [_ E]. rewrite app_assoc, E, <- !app_assoc. reflexivity.
Qed.

(** ** reassembly *)
Lemma reassemble_app l : forall p m, reassemble c p (l ++ m) =
  let '(p1, f1) := reassemble c p l in let '(p2, f2) := reassemble c p1 m in (p2, f1 ++ f2).
Proof.
  induction l as [|b l IH]; intros p m; cbn [app reassemble].
  - destruct (reassemble c p m) as [p2 f2]. reflexivity.
  - destruct (rx_beat c p b) as [p1 f1]. rewrite IH. destruct (reassemble c p1 l) as [p2 f2]. destruct (reassemble c p2 m) as [p3 f3].
    now rewrite app_assoc.
Qed.

Lemma reassemble_frames fs : x_last c = true -> Forall norm_ok fs ->
  exists rs, reassemble c None (flat_map nb fs) = (None, rs) /\
    Forall2 (received_as c) (filter nonempty (map snd fs)) rs.
Proof.
  intros Hl H. induction H as [|[t f] fs [g Hg] _ (rs & IH1 & IH2)]; [exists []; split; [reflexivity|constructor]|].
  cbn [flat_map map snd filter]. cbn [snd] in Hg. unfold nb at 1. cbn [snd]. rewrite Hg.
  assert (E2 : f_data g = f_data f).
  { unfold normalize in Hg. destruct (match f_keep f with Some l => _ | None => _ end); [|discriminate]. cbn [bind] in Hg.
    destruct (fit_sb _ (f_id f)); [|discriminate]. cbn [bind] in Hg. destruct (fit_sb _ (f_dest f)); [|discriminate]. cbn [bind] in Hg.
    destruct (fit_sb _ (f_user f)); [|discriminate]. cbn [bind] in Hg. now injection Hg as <-. }
  destruct (nonempty f) eqn:En; unfold nonempty in En.
  - assert (Hd : f_data g <> []) by (rewrite E2; intros E; rewrite E in En; discriminate).
    pose proof (frame_beats_reassemble c Hc g Hl Hd) as HR. rewrite reassemble_app, HR, IH1.
    eexists. split; [reflexivity|]. cbn [app]. constructor; [|exact IH2]. exists g. auto.
  - assert (Hd : f_data g = []) by (rewrite E2; destruct (f_data f); [reflexivity|rewrite zlen_cons in En; pose proof (zlen_nonneg l); lia]).
    unfold frame_beats. rewrite Hd. cbn [length beats_from app]. exists rs. auto.
Qed.

(** ** queue counters *)
Definition src_bytes (q : list tframe) : Z := bytes_of (map snd q).
Lemma bytes_app p q : bytes_of (p ++ q) = bytes_of p + bytes_of q.
Proof. induction p as [|f p IH]; [reflexivity|]. cbn [app]. unfold bytes_of in *. cbn [fold_right]. lia. Qed.

Lemma bytes_cons f q : bytes_of (f :: q) = zlen (f_data f) + bytes_of q.
Proof. reflexivity. Qed.
Lemma bytes_nil : bytes_of [] = 0.
Proof. reflexivity. Qed.

Lemma src_bytes_app p q : src_bytes (p ++ q) = src_bytes p + src_bytes q.
Proof. unfold src_bytes. rewrite map_app. apply bytes_app. Qed.
Lemma src_bytes_cons t f q : src_bytes ((t, f) :: q) = zlen (f_data f) + src_bytes q.
Proof. reflexivity. Qed.

Definition src_counts (s : asrc) : Prop := a_occf s = zlen (a_q s) /\ a_occb s = src_bytes (a_q s).

Lemma hold_counts s : src_counts s -> src_counts (asrc_hold s).
Proof. intros H. exact H. Qed.

Lemma drive_counts s t f fo : src_counts s -> src_counts (asrc_drive c s t f fo).
Proof. intros H. unfold asrc_drive. destruct (drive_beat c f fo) as [[b fo'] fin]. exact H. Qed.

Lemma src_counts_step s o : src_counts s -> src_counts (asrc_step c s o).
Proof.
  intros H. destruct o as [t f|b|lb lf| |b|r]; cbn [asrc_step]; auto.
  - destruct (asrc_full s); auto. destruct H as [H1 H2]. split; cbn [a_q a_occf a_occb]; [rewrite zlen_app; change (zlen [(t, f)]) with 1; lia|].
    rewrite src_bytes_app, src_bytes_cons. change (src_bytes []) with 0. lia.
  - split; reflexivity.
  - destruct b; exact H.
  - unfold asrc_edge. destruct (a_task s); auto. destruct (_ || _); auto. unfold asrc_fetch.
    assert (Hdone : forall s1, src_counts s1 -> src_counts (match a_cur s1 with
              | Some (t, f, fo) => if (0 <? zlen (f_data f)) && negb (a_pause s1) then asrc_drive c s1 t f fo else asrc_hold s1
              | None => asrc_hold s1 end)).
    { intros s1 Hs1. destruct (a_cur s1) as [[[t f] fo]|]; auto. destruct (_ && _); [now apply drive_counts|now apply hold_counts]. }
    destruct (ftrue (a_cur s)); [now apply Hdone|]. destruct (a_q s) as [|[t f] q] eqn:Eq; [apply Hdone; exact H|].
    destruct H as [H1 H2]. rewrite Eq in H1, H2. rewrite zlen_cons in H1. rewrite src_bytes_cons in H2.
    destruct (normalize f) as [g|e]; cbn [bind].
    + apply Hdone. split; cbn [a_q a_occf a_occb]; lia.
    + split; cbn [asrc_crash a_q a_occf a_occb]; rewrite Eq; cbn [tl]; lia.
Qed.

Definition snk_counts (k : asnk) : Prop := z_occf k = zlen (z_q k) /\ z_occb k = bytes_of (z_q k).
Definition mon_counts (m : amon) : Prop := n_occf m = zlen (n_q m) /\ n_occb m = bytes_of (n_q m).

Lemma snk_counts_step k o : snk_counts k -> snk_counts (asnk_step c k o).
Proof.
  intros [H1 H2]. unfold snk_counts. destruct o as [b|lb lf|o| |b|]; cbn [asnk_step].
  - destruct (Bool.eqb _ _); auto.
  - auto.
  - destruct o as [cp| |n]; cbn [asnk_recv].
    + destruct (z_q k) as [|f q] eqn:E; cbn [fst asnk_wake z_q z_occf z_occb n_q n_occf n_occb]; rewrite ?E; auto. rewrite zlen_cons in H1. rewrite bytes_cons in H2. split; lia.
    + destruct (z_q k) as [|f q] eqn:E; [cbn [fst asnk_wake z_q z_occf z_occb n_q n_occf n_occb]; rewrite ?E; auto|]. destruct (z_readq k); cbn [fst asnk_wake z_q z_occf z_occb n_q n_occf n_occb]; rewrite ?E; auto.
      rewrite zlen_cons in H1. rewrite bytes_cons in H2. split; lia.
    + unfold read_all. destruct (z_q k) as [|f q] eqn:E; split; cbn [fst asnk_wake z_q z_occf z_occb n_q n_occf n_occb]; rewrite ?bytes_nil, ?bytes_cons, ?zlen_cons in *; change (zlen (@nil frame)) with 0 in *; lia.
  - split; reflexivity.
  - destruct b; auto.
  - auto.
Qed.

Lemma snk_counts_edge k v b : snk_counts k -> snk_counts (asnk_edge c k v b).
Proof.
  intros [H1 H2]. unfold asnk_edge. destruct (z_task (asnk_run k)); try (split; auto; fail).
  cbn [asnk_run z_occf z_occb z_q z_part z_ready].
  match goal with |- context [let '(p, fs) := ?x in _] => destruct x as [p fs] end.
  split; cbn [fst asnk_wake z_q z_occf z_occb n_q n_occf n_occb]; rewrite ?zlen_app, ?bytes_app; lia.
Qed.

Lemma mon_counts_step m o : mon_counts m -> mon_counts (amon_step c m o).
Proof.
  intros [H1 H2]. unfold mon_counts. destruct o as [v r b|o| |b| |]; cbn [amon_step]; auto.
  - destruct o as [cp| |n]; cbn [amon_recv].
    + destruct (n_q m) as [|f q] eqn:E; cbn [fst asnk_wake z_q z_occf z_occb n_q n_occf n_occb]; rewrite ?E; auto. rewrite zlen_cons in H1. rewrite bytes_cons in H2. split; lia.
    + destruct (n_q m) as [|f q] eqn:E; [cbn [fst asnk_wake z_q z_occf z_occb n_q n_occf n_occb]; rewrite ?E; auto|]. destruct (n_readq m); cbn [fst asnk_wake z_q z_occf z_occb n_q n_occf n_occb]; rewrite ?E; auto.
      rewrite zlen_cons in H1. rewrite bytes_cons in H2. split; lia.
    + unfold read_all. destruct (n_q m) as [|f q] eqn:E; split; cbn [fst asnk_wake z_q z_occf z_occb n_q n_occf n_occb]; rewrite ?bytes_nil, ?bytes_cons, ?zlen_cons in *; change (zlen (@nil frame)) with 0 in *; lia.
  - destruct b; auto.
  - unfold amon_edge. destruct (n_task (amon_start m)); auto. cbn [amon_start n_ready n_valid n_part n_beat n_q n_occf n_occb].
    destruct (_ && _); [|auto]. match goal with |- context [let '(p, fs) := ?x in _] => destruct x as [p fs] end.
    cbn [fst asnk_wake z_q z_occf z_occb n_q n_occf n_occb]. rewrite zlen_app, bytes_app. split; lia.
Qed.

(** ** tx_complete *)
Definition cur_tag (s : asrc) : list Z := match a_cur s with Some (t, g, _) => if 0 <? zlen (f_data g) then [t] else [] | None => [] end.
Definition flush_tag (o : option tframe) : list Z := match o with Some (t, f) => if 0 <? zlen (f_data f) then [t] else [] | None => [] end.

Definition tag_inv (s : asrc) : Prop :=
  flush_tag (a_current s) = cur_tag s /\ Forall norm_ok (a_q s) /\ (a_active s = false -> cur_tag s = []).

Lemma ftrue_tag s : ftrue (a_cur s) = false -> cur_tag s = [].
Proof. unfold cur_tag, ftrue. destruct (a_cur s) as [[[t g] fo]|]; [|auto]. intros ->. reflexivity. Qed.

Lemma drive_fin g fo : 0 <= fo < zlen (f_data g) -> True.
Proof. auto. Qed.

(** one operation: tags of sent frames are in exactly one place, or the frame was empty *)
Lemma tag_step s o : tag_inv s -> op_norm o ->
  tag_inv (asrc_step c s o) /\
  exists drop, Forall (fun x => f_data (snd x) = []) drop /\ incl drop (a_q s) /\
    Permutation (a_done s ++ cur_tag s ++ map fst (a_q s) ++ map fst (match o with ASend t f => if asrc_full s then [] else [(t, f)] | _ => [] end))
                (a_done (asrc_step c s o) ++ cur_tag (asrc_step c s o) ++ map fst (a_q (asrc_step c s o)) ++ map fst drop) /\
    incl (a_q (asrc_step c s o)) (a_q s ++ (match o with ASend t f => if asrc_full s then [] else [(t, f)] | _ => [] end)).
Proof.
  intros (H1 & H2 & H3) Ho.
  assert (Hnil : forall s', tag_inv s' -> a_done s' = a_done s -> cur_tag s' = cur_tag s -> a_q s' = a_q s ->
     tag_inv s' /\ exists drop, Forall (fun x => f_data (snd x) = []) drop /\ incl drop (a_q s) /\
       Permutation (a_done s ++ cur_tag s ++ map fst (a_q s) ++ []) (a_done s' ++ cur_tag s' ++ map fst (a_q s') ++ map fst drop) /\ incl (a_q s') (a_q s ++ [])).
  { intros s' Hi -> -> ->. split; [exact Hi|]. exists []. split; [constructor|]. split; [intros x []|]. split; [reflexivity|]. rewrite app_nil_r. apply incl_refl. }
  destruct o as [t f|b|lb lf| |b|r]; cbn [asrc_step].
  - destruct (asrc_full s).
    + apply Hnil; auto. split; auto.
    + split; [split; [exact H1|split; [|exact H3]]; cbn; apply Forall_app; split; [exact H2|constructor; [exact Ho|constructor]]|].
      exists []. split; [constructor|]. split; [intros x []|]. split; [|apply incl_refl].
      unfold cur_tag. cbn. rewrite map_app. cbn. rewrite !app_nil_r. apply Permutation_refl.
  - apply Hnil; auto. split; auto.
  - apply Hnil; auto. split; auto.
  - split; [split; [exact H1|split; [constructor|exact H3]]|]. exists []. split; [constructor|]. split; [intros x []|]. split; [|intros x []].
    unfold cur_tag. cbn. rewrite !app_nil_r, <- app_assoc. apply Permutation_app_head. apply Permutation_app_comm.
  - destruct b.
    + split.
      * unfold tag_inv, cur_tag. cbn. split; [|auto]. fold (flush_tag (a_current s)).
        destruct (flush_tag (a_current s)) eqn:E; [exact E|reflexivity].
      * exists []. split; [constructor|]. split; [intros x []|]. split; [|cbn; rewrite app_nil_r; apply incl_refl].
        unfold cur_tag at 2. cbn. fold (flush_tag (a_current s)). rewrite H1. rewrite !app_nil_r, <- app_assoc. apply Permutation_refl.
    + apply Hnil; auto. split; auto.
  - unfold asrc_edge. destruct (a_task s); try (apply Hnil; auto; split; auto; fail).
    destruct (_ || _); [|apply Hnil; auto; split; auto].
    assert (Hrun : forall s1, flush_tag (a_current s1) = cur_tag s1 -> Forall norm_ok (a_q s1) -> (ftrue (a_cur s1) = true -> a_active s1 = true) ->
       let s2 := match a_cur s1 with
              | Some (t, f, fo) => if (0 <? zlen (f_data f)) && negb (a_pause s1) then asrc_drive c s1 t f fo else asrc_hold s1
              | None => asrc_hold s1 end in
       tag_inv s2 /\ Permutation (a_done s1 ++ cur_tag s1) (a_done s2 ++ cur_tag s2) /\ a_q s2 = a_q s1).
    { intros s1 G1 G2 G3. assert (Hh : tag_inv (asrc_hold s1) /\ Permutation (a_done s1 ++ cur_tag s1) (a_done (asrc_hold s1) ++ cur_tag (asrc_hold s1)) /\ a_q (asrc_hold s1) = a_q s1).
      { split; [|split; [apply Permutation_refl|reflexivity]]. split; [exact G1|split; [exact G2|]]. cbn. intros E. apply ftrue_tag in E. exact E. }
      cbv zeta. destruct (a_cur s1) as [[[t g] fo]|] eqn:Ec; [|exact Hh]. destruct ((0 <? zlen (f_data g)) && negb (a_pause s1)) eqn:E; [|exact Hh].
      apply andb_true_iff in E. destruct E as [E _]. unfold asrc_drive. destruct (drive_beat c g fo) as [[b fo'] fin].
      assert (Et : cur_tag s1 = [t]) by (unfold cur_tag; rewrite Ec, E; reflexivity).
      specialize (G3 E). destruct fin.
      - split; [split; [reflexivity|split; [exact G2|cbn; congruence]]|]. split; [|reflexivity]. rewrite Et. unfold cur_tag. cbn. now rewrite app_nil_r.
      - split; [split; [|split; [exact G2|cbn; congruence]]|].
        + cbn [a_current]. rewrite G1, Et. unfold cur_tag. cbn. now rewrite E.
        + split; [|reflexivity]. rewrite Et. unfold cur_tag. cbn. rewrite E. apply Permutation_refl. }
    assert (Hact : ftrue (a_cur s) = true -> a_active s = true).
    { intros E. destruct (a_active s) eqn:Ea; [reflexivity|]. specialize (H3 eq_refl). unfold cur_tag, ftrue in *.
      destruct (a_cur s) as [[[t g] fo]|]; [|discriminate]. rewrite E in H3. discriminate. }
    cbn [map]. unfold asrc_fetch. destruct (ftrue (a_cur s)) eqn:Ef.
    + destruct (Hrun s H1 H2 ltac:(auto)) as (R1 & R2 & R3). cbv zeta in R1, R2, R3.
      split; [exact R1|]. exists []. split; [constructor|]. split; [intros x []|]. rewrite R3, !app_nil_r. split; [|apply incl_refl].
      rewrite !app_assoc. apply Permutation_app_tail. exact R2.
    + destruct (a_q s) as [|[t f] q] eqn:Eq.
      * destruct (Hrun s H1 ltac:(rewrite Eq; constructor) ltac:(intros; congruence)) as (R1 & R2 & R3). cbv zeta in R1, R2, R3.
        split; [exact R1|]. exists []. split; [constructor|]. split; [intros x []|]. rewrite R3, Eq. cbn. rewrite !app_nil_r. split; [exact R2|apply incl_refl].
      * inversion H2 as [|? ? [g Hg] H2']; subst x l. cbn [snd] in Hg. rewrite Hg. cbn [bind].
        match goal with |- context [a_cur ?x] => set (s1 := x) end.
        destruct (Hrun s1 eq_refl H2' ltac:(auto)) as (R1 & R2 & R3). cbv zeta in R1, R2, R3.
        assert (E2 : f_data g = f_data f).
        { unfold normalize in Hg. destruct (match f_keep f with Some l => _ | None => _ end); [|discriminate]. cbn [bind] in Hg.
          destruct (fit_sb _ (f_id f)); [|discriminate]. cbn [bind] in Hg. destruct (fit_sb _ (f_dest f)); [|discriminate]. cbn [bind] in Hg.
          destruct (fit_sb _ (f_user f)); [|discriminate]. cbn [bind] in Hg. now injection Hg as <-. }
        split; [exact R1|].
        assert (Ec1 : cur_tag s1 = if 0 <? zlen (f_data f) then [t] else []) by (unfold cur_tag, s1; cbn; rewrite E2; reflexivity).
        exists (if 0 <? zlen (f_data f) then [] else [(t, f)]).
        rewrite R3. change (a_q s1) with q. rewrite (ftrue_tag s Ef). change (a_done s) with (a_done s1). cbn [app map fst].
        destruct (0 <? zlen (f_data f)) eqn:E0.
        -- split; [constructor|]. split; [intros x []|]. split; [|rewrite app_nil_r; apply incl_tl, incl_refl].
           cbn [map]. rewrite !app_nil_r. rewrite app_assoc. rewrite <- R2, Ec1. rewrite <- app_assoc. apply Permutation_refl.
        -- split; [constructor; [cbn; destruct (f_data f); [reflexivity|rewrite zlen_cons in E0; pose proof (zlen_nonneg l); lia]|constructor]|].
           split; [intros x [<-|[]]; now left|]. split; [|rewrite app_nil_r; apply incl_tl, incl_refl].
           cbn [map fst]. rewrite app_nil_r. rewrite app_assoc. rewrite <- R2, Ec1, app_nil_r. apply Permutation_app_head. apply (Permutation_app_comm [t]).
Qed.

Lemma tag_conserve ops : forall s, tag_inv s -> Forall op_norm ops ->
  let '(sent, _, s') := asrc_trace c s ops in
  tag_inv s' /\ exists drop, Forall (fun x => f_data (snd x) = []) drop /\ incl drop (a_q s ++ sent) /\
    Permutation (a_done s ++ cur_tag s ++ map fst (a_q s) ++ map fst sent)
                (a_done s' ++ cur_tag s' ++ map fst (a_q s') ++ map fst drop).
Proof.
  induction ops as [|o ops IH]; intros s Hs Hn; cbn [asrc_trace].
  - split; [exact Hs|]. exists []. split; [constructor|]. split; [intros x []|]. apply Permutation_refl.
  - inversion Hn as [|? ? Ho Hn']; subst x l. destruct (tag_step s o Hs Ho) as (Hs1 & d1 & D1 & D2 & D3 & D4).
    specialize (IH _ Hs1 Hn'). destruct (asrc_trace c (asrc_step c s o) ops) as [[sent acc] s'].
    destruct IH as (Hs' & d2 & E1 & E2 & E3). split; [exact Hs'|].
    set (x := match o with ASend t f => if asrc_full s then [] else [(t, f)] | _ => [] end) in *.
    exists (d1 ++ d2). split; [apply Forall_app; auto|]. split.
    + apply incl_app; [apply incl_appl; exact D2|]. intros y Hy. apply E2 in Hy. apply in_app_or in Hy. rewrite app_assoc. apply in_or_app.
      destruct Hy as [Hy|Hy]; [left; now apply D4|now right].
    + rewrite !map_app.
      assert (P1 : Permutation (a_done s ++ cur_tag s ++ map fst (a_q s) ++ map fst x ++ map fst sent)
        ((a_done (asrc_step c s o) ++ cur_tag (asrc_step c s o) ++ map fst (a_q (asrc_step c s o)) ++ map fst d1) ++ map fst sent)).
      { rewrite <- D3. rewrite <- !app_assoc. apply Permutation_refl. }
      rewrite P1. rewrite <- !app_assoc.
      transitivity ((a_done (asrc_step c s o) ++ cur_tag (asrc_step c s o) ++ map fst (a_q (asrc_step c s o)) ++ map fst sent) ++ map fst d1).
      { rewrite <- !app_assoc. do 3 apply Permutation_app_head. apply Permutation_app_comm. }
      rewrite E3. rewrite <- !app_assoc. do 3 apply Permutation_app_head. apply Permutation_app_comm.
Qed.
End P.
