(** C40: when the ready of a sink comes back; histories with clear() and changes of the limits. *)
From Coq Require Import ZArith Lia List Bool.
From Coq Require Import ZifyBool ZifyNat.
From Verif Require Import Py M_stream S_stream P_stream P_streamlive M_axisframe M_axis S_axis S_axisrun P_axis P_axischan T_stream T_axis.
Import ListNotations.
Open Scope Z_scope.

(** ** StreamSink *)
Definition at_limit {A} (k : snk A) : Prop := 0 < k_limit k <= zlen (k_q k).
(** clear() or a new limit makes room in a sink that had none *)
Definition makes_room {A} (k : snk A) (e : kev A) : Prop :=
  (e = KOp KClear \/ exists n, e = KOp (KLimit n)) /\ at_limit k /\ ~ at_limit (kev_step true k e).
(** the value of pause changes; an item is taken; valid or ready rises; the sink is reset *)
Definition stirs {A} (k : snk A) (e : kev A) : Prop :=
  (exists b, e = KOp (KPause b) /\ k_pause k = negb b) \/ (e = KOp KRecv /\ k_q k <> []) \/ e = KWakeE \/ e = KOp (KReset true).

Lemma at_limit_full {A} (k : snk A) : snk_full k = true <-> at_limit k.
Proof. unfold snk_full, st_full, at_limit. destruct (_ && _) eqn:E; lia. Qed.
Lemma not_at_limit {A} (k : snk A) : ~ at_limit k -> snk_full k = false.
Proof. rewrite <- at_limit_full. destruct (snk_full k); congruence. Qed.

Lemma awake_any {A} (k : snk A) e : ~ makes_room k e -> snk_awake k -> snk_awake (kev_step true k e).
Proof.
  intros Hm H. destruct e as [o|v d|]; [|now apply snk_awake_edge|now apply wake_awake].
  assert (HC : (o = KClear \/ exists n, o = KLimit n) \/ (o <> KClear /\ forall n, o <> KLimit n)).
  { destruct o; try (right; split; [discriminate|intros; discriminate]); left; [right; eexists; reflexivity|now left]. }
  destruct HC as [HC|[H1 H2]]; [|now apply snk_awake_step].
  assert (HT : k_task (kev_step true k (KOp o)) = k_task k /\ k_ready (kev_step true k (KOp o)) = k_ready k /\ k_pause (kev_step true k (KOp o)) = k_pause k).
  { destruct HC as [->|[n ->]]; repeat split. }
  destruct HT as (T1 & T2 & T3). unfold snk_awake in *. rewrite T1, T2, T3. destruct (k_task k); auto. intros Hr. destruct (H Hr) as [Hf|Hp]; [|now right]. left.
  destruct (snk_full (kev_step true k (KOp o))) eqn:E; [reflexivity|]. exfalso. apply Hm. split; [|split].
  - destruct HC as [->|[n ->]]; [now left|right; eexists; reflexivity].
  - now apply at_limit_full.
  - intros Ha. apply at_limit_full in Ha. congruence.
Qed.
Lemma awake_stirs {A} (k : snk A) e : stirs k e -> snk_awake (kev_step true k e).
Proof.
  intros [(b & -> & E)|[[-> E]|[->| ->]]]; unfold snk_awake; cbn.
  - rewrite E. destruct b; cbn; destruct (k_task k); exact I.
  - destruct (k_q k); [congruence|]. cbn. destruct (k_task k); exact I.
  - destruct (k_task k); exact I.
  - exact I.
Qed.
Lemma awake_run {A} (l2 : list (kev A)) : forall k, (forall p o s, l2 = p ++ o :: s -> ~ makes_room (kev_run true k p) o) -> snk_awake k -> snk_awake (kev_run true k l2).
Proof.
  induction l2 as [|o l2 IH]; intros k Hq H; [exact H|]. change (snk_awake (kev_run true (kev_step true k o) l2)). apply IH.
  - intros p o' s ->. exact (Hq (o :: p) o' s eq_refl).
  - apply awake_any; [exact (Hq [] o l2 eq_refl)|exact H].
Qed.
Lemma kev_app {A} hr (k : snk A) l1 l2 : kev_run hr k (l1 ++ l2) = kev_run hr (kev_run hr k l1) l2.
Proof. apply fold_left_app. Qed.

(** After any history at all, from the first event that stirs the sink (or from the start): if clear() and limit changes do not make room in a sink at its
    limit, a sink that runs, is not paused and below its limit has ready high now or within two clock edges, whatever valid does. *)
Theorem C40_sink_ready_again : forall A limit (l1 l2 : list (kev A)) v1 d1 v2 d2, let run := kev_run true (snk_init limit) in
  (l1 = [] \/ exists p e, l1 = p ++ [e] /\ stirs (run p) e) ->
  (forall p o s, l2 = p ++ o :: s -> ~ makes_room (run (l1 ++ p)) o) ->
  let k := run (l1 ++ l2) in
  k_task k <> KDead -> k_pause k = false -> ~ at_limit k ->
  let k1 := snk_edge true k v1 d1 in let k2 := snk_edge true k1 v2 d2 in
  k_ready k = true \/ k_ready k1 = true \/ k_ready k2 = true.
Proof.
  intros A limit l1 l2 v1 d1 v2 d2. cbv zeta. intros H1 H2 Hd Hp Hf. apply snk_ready_soon; auto; [|now apply not_at_limit].
  rewrite kev_app. apply awake_run.
  - intros p o s E. rewrite <- kev_app. now apply (H2 p o s).
  - destruct H1 as [->|(p & e & -> & He)]; [exact I|]. rewrite kev_app. cbn. now apply awake_stirs.
Qed.
Print Assumptions C40_sink_ready_again.

(** Otherwise it does not come back by itself: after every history, such a sink has ready within two edges whatever valid does, or at no later edge. *)
Theorem C40_sink_ready_or_stuck : forall A limit (l : list (kev A)), let k := kev_run true (snk_init limit) l in
  k_task k <> KDead -> k_pause k = false -> ~ at_limit k ->
  (forall v1 d1 v2 d2, k_ready k = true \/ k_ready (snk_edge true k v1 d1) = true \/ k_ready (snk_edge true (snk_edge true k v1 d1) v2 d2) = true) \/
  (forall es : list (bool * A), k_ready (kev_run true k (map (fun x => KClkE (fst x) (snd x)) es)) = false).
Proof.
  intros A limit l. cbv zeta. generalize (kev_run true (snk_init limit) l). clear l. intros k Hd Hp Hf. apply not_at_limit in Hf.
  assert (HD : snk_awake k \/ (k_task k = KSleep /\ k_ready k = false)).
  { unfold snk_awake. destruct (k_task k); auto. destruct (k_ready k); [left; congruence|now right]. }
  destruct HD as [HA|HS]; [left; intros; now apply snk_ready_soon|right].
  intros es. revert HS. clear Hd Hp Hf. revert k. induction es as [|[v d] es IH]; intros k [E1 E2]; [exact E2|].
  change (k_ready (kev_run true (snk_edge true k v d) (map (fun x => KClkE (fst x) (snd x)) es)) = false). apply IH. unfold snk_edge. cbn [snk_run k_task]. rewrite E1. cbn. rewrite E1. auto.
Qed.
Print Assumptions C40_sink_ready_or_stuck.

(** clear() of a sink below its limit, later of one at its limit: stuck until pause changes *)
Example C40_again_nontrivial :
  let l := [KClkE true 7; KClkE true 7; KOp KClear; KClkE true 8; KClkE true 8; KClkE true 9] in
  let run := kev_run true (snk_init 2) in
  ~ at_limit (run (firstn 2 l)) /\ makes_room (run l) (KOp KClear) /\ k_ready (run (l ++ [KOp KClear; KClkE true 9; KClkE true 9])) = false /\
  stirs (run (l ++ [KOp KClear])) (KOp (KPause true)) /\ k_ready (run (l ++ [KOp KClear; KOp (KPause true); KOp (KPause false); KClkE true 9])) = true.
Proof.
  cbv zeta. split; [vm_compute; intuition discriminate|]. split; [|split; [reflexivity|split; [|reflexivity]]].
  - split; [now left|]. split; [vm_compute; intuition discriminate|vm_compute; intuition congruence].
  - left. exists true. split; reflexivity.
Qed.

(** ** AxiStreamSink; the limits are those of axis.py 758-764, compared with the counts of queued bytes and frames *)
Definition over_limit (k : asnk) : Prop := 0 < z_limb k < z_occb k \/ 0 < z_limf k < z_occf k.
Definition zmakes_room (c : scfg) (k : asnk) (e : zev) : Prop :=
  (e = ZOp ZClear \/ exists a b, e = ZOp (ZLimits a b)) /\ over_limit k /\ ~ over_limit (zev_step c k e).
(** the value of pause changes; a frame is received, or frames are read; valid or ready rises; the sink is reset *)
Definition zstirs (k : asnk) (e : zev) : Prop :=
  (exists b, e = ZOp (ZPause b) /\ z_pause k = negb b) \/
  ((exists cp, e = ZOp (ZRecv (RRecv cp))) /\ z_q k <> []) \/ ((exists n, e = ZOp (ZRecv (RRead n))) /\ z_q k <> []) \/
  e = ZWakeE \/ e = ZOp (ZReset true).

Lemma over_limit_full k : asnk_full k = true <-> over_limit k.
Proof.
  unfold asnk_full, occ_full, over_limit.
  destruct (Z.ltb_spec 0 (z_limb k)), (Z.ltb_spec (z_limb k) (z_occb k)), (Z.ltb_spec 0 (z_limf k)), (Z.ltb_spec (z_limf k) (z_occf k)); cbn; split; intros; try reflexivity; try discriminate; lia.
Qed.
Lemma not_over_limit k : ~ over_limit k -> asnk_full k = false.
Proof. rewrite <- over_limit_full. destruct (asnk_full k); congruence. Qed.

Section Axis.
Variable c : scfg.
Hypothesis Hr : x_ready c = true.
Lemma zawake_any k e : ~ zmakes_room c k e -> zawake k -> zawake (zev_step c k e).
Proof.
  intros Hm H. destruct e as [o|v d|]; [|now apply zawake_edge|now apply zawake_wake].
  assert (HC : (o = ZClear \/ exists a b, o = ZLimits a b) \/ (o <> ZClear /\ forall a b, o <> ZLimits a b)).
  { destruct o; try (right; split; [discriminate|intros; discriminate]); left; [right; do 2 eexists; reflexivity|now left]. }
  destruct HC as [HC|[H1 H2]]; [|now apply zawake_step].
  assert (HT : z_task (zev_step c k (ZOp o)) = z_task k /\ z_ready (zev_step c k (ZOp o)) = z_ready k /\ z_pause (zev_step c k (ZOp o)) = z_pause k).
  { destruct HC as [->|(a & b & ->)]; repeat split. }
  destruct HT as (T1 & T2 & T3). unfold zawake in *. rewrite T1, T2, T3. destruct (z_task k); auto. intros Hy. destruct (H Hy) as [Hf|Hp]; [|now right]. left.
  destruct (asnk_full (zev_step c k (ZOp o))) eqn:E; [reflexivity|]. exfalso. apply Hm. split; [|split].
  - destruct HC as [->|(a & b & ->)]; [now left|right; do 2 eexists; reflexivity].
  - now apply over_limit_full.
  - intros Ha. apply over_limit_full in Ha. congruence.
Qed.
Lemma zawake_stirs k e : zstirs k e -> zawake (zev_step c k e).
Proof.
  intros [(b & -> & E)|[[[cp ->] E]|[[[n ->] E]|[->| ->]]]]; unfold zawake; cbn.
  - rewrite E. destruct b; cbn; destruct (z_task k); exact I.
  - destruct (z_q k); [congruence|]. cbn. destruct (z_task k); exact I.
  - destruct (z_q k) eqn:Eq; [congruence|]. cbn. destruct (z_task k); exact I.
  - destruct (z_task k); exact I.
  - exact I.
Qed.
Lemma zawake_run l2 : forall k, (forall p o s, l2 = p ++ o :: s -> ~ zmakes_room c (zev_run c k p) o) -> zawake k -> zawake (zev_run c k l2).
Proof.
  induction l2 as [|o l2 IH]; intros k Hq H; [exact H|]. change (zawake (zev_run c (zev_step c k o) l2)). apply IH.
  - intros p o' s ->. exact (Hq (o :: p) o' s eq_refl).
  - apply zawake_any; [exact (Hq [] o l2 eq_refl)|exact H].
Qed.
Lemma zev_app k l1 l2 : zev_run c k (l1 ++ l2) = zev_run c (zev_run c k l1) l2.
Proof. apply fold_left_app. Qed.
Lemma zready_soon k v1 b1 v2 b2 : zawake k -> z_task k <> KDead -> z_pause k = false -> asnk_full k = false ->
  z_ready k = true \/ z_ready (asnk_edge c k v1 b1) = true \/ z_ready (asnk_edge c (asnk_edge c k v1 b1) v2 b2) = true.
Proof.
  unfold zawake, asnk_full. destruct k as [q p rq ob of lb lf ps w t r]. cbn [z_pause z_ready z_q z_limb z_limf z_task z_occb z_occf].
  intros Hw Hd -> Hf. destruct r; [now left|right].
  unfold asnk_edge. destruct t as [| |null|null pp|]; cbn; rewrite ?Hr; try congruence; cbn; rewrite ?Z.add_0_r, ?Hf; cbn; auto.
  - destruct pp; cbn; rewrite ?Z.add_0_r, ?Hf; cbn; [right|left; reflexivity].
    rewrite ?orb_true_r. cbn. rewrite ?Z.add_0_r, ?Hf. cbn. rewrite ?Z.add_0_r, ?Hf. reflexivity.
  - destruct (Hw eq_refl); congruence.
Qed.
End Axis.

Theorem C40_axis_sink_ready_again : forall c limb limf l1 l2 v1 b1 v2 b2, x_ready c = true -> let run := zev_run c (asnk_init limb limf) in
  (l1 = [] \/ exists p e, l1 = p ++ [e] /\ zstirs (run p) e) ->
  (forall p o s, l2 = p ++ o :: s -> ~ zmakes_room c (run (l1 ++ p)) o) ->
  let k := run (l1 ++ l2) in
  z_task k <> KDead -> z_pause k = false -> ~ over_limit k ->
  let k1 := asnk_edge c k v1 b1 in let k2 := asnk_edge c k1 v2 b2 in
  z_ready k = true \/ z_ready k1 = true \/ z_ready k2 = true.
Proof.
  intros c limb limf l1 l2 v1 b1 v2 b2 Hr. cbv zeta. intros H1 H2 Hd Hp Hf. apply zready_soon; auto; [|now apply not_over_limit].
  rewrite zev_app. apply (zawake_run c Hr).
  - intros p o s E. rewrite <- zev_app. now apply (H2 p o s).
  - destruct H1 as [->|(p & e & -> & He)]; [exact I|]. rewrite zev_app. cbn. now apply zawake_stirs.
Qed.
Print Assumptions C40_axis_sink_ready_again.

Theorem C40_axis_sink_ready_or_stuck : forall c limb limf l, x_ready c = true -> let k := zev_run c (asnk_init limb limf) l in
  z_task k <> KDead -> z_pause k = false -> ~ over_limit k ->
  (forall v1 b1 v2 b2, z_ready k = true \/ z_ready (asnk_edge c k v1 b1) = true \/ z_ready (asnk_edge c (asnk_edge c k v1 b1) v2 b2) = true) \/
  (forall es : list (bool * beat), z_ready (zev_run c k (map (fun x => ZClkE (fst x) (snd x)) es)) = false).
Proof.
  intros c limb limf l Hr. cbv zeta. generalize (zev_run c (asnk_init limb limf) l). clear l. intros k Hd Hp Hf. apply not_over_limit in Hf.
  assert (HD : zawake k \/ (z_task k = KSleep /\ z_ready k = false)).
  { unfold zawake. destruct (z_task k); auto. destruct (z_ready k); [left; congruence|now right]. }
  destruct HD as [HA|HS]; [left; intros; now apply zready_soon|right].
  intros es. revert HS. clear Hd Hp Hf. revert k. induction es as [|[v d] es IH]; intros k [E1 E2]; [exact E2|].
  change (z_ready (zev_run c (asnk_edge c k v d) (map (fun x => ZClkE (fst x) (snd x)) es)) = false). apply IH. unfold asnk_edge. cbn [asnk_run z_task]. rewrite E1. cbn. rewrite E1. auto.
Qed.
Print Assumptions C40_axis_sink_ready_or_stuck.

Example C40_axis_again_nontrivial :
  let bt := {| b_data := 5; b_keep := 1; b_id := 0; b_dest := 0; b_user := 0; b_last := true |} in
  let l := repeat (ZClkE true bt) 4 in
  let run := zev_run abus (asnk_init (-1) 1) in
  zmakes_room abus (run l) (ZOp ZClear) /\ z_ready (run (l ++ [ZOp ZClear; ZClkE true bt; ZClkE true bt])) = false /\
  zstirs (run (l ++ [ZOp ZClear])) (ZOp (ZPause true)) /\ z_ready (run (l ++ [ZOp ZClear; ZOp (ZPause true); ZOp (ZPause false); ZClkE true bt])) = true.
Proof.
  cbv zeta. split; [|split; [reflexivity|split; [|reflexivity]]].
  - split; [now left|]. split; [vm_compute; right; split; reflexivity|vm_compute; intuition discriminate].
  - left. exists true. split; reflexivity.
Qed.
