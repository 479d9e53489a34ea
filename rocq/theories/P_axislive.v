(** Progress of an AXI stream source connected to a sink. *)
From Coq Require Import ZArith Lia List Bool.
From Coq Require Import ZifyBool ZifyNat.
From Verif Require Import Py M_stream M_axisframe M_axis S_axis S_axisrun P_axisframe P_axis P_axischan.
Import ListNotations.
Open Scope Z_scope.

Section Live.
Variable c : scfg.
Hypothesis Hc : cfg_ok c.

(** ** the source: every enabled edge makes progress *)
Definition alive (s : asrc) : Prop := a_task s <> TDead /\ (a_task s = TSleep -> a_q s = [] /\ a_active s = false).
Definition mu (s : asrc) : nat := (2 * length (pend c s) + length (wire s) + length (a_q s))%nat.

Lemma alive_edge s r : asrc_inv s -> alive s -> alive (asrc_edge c s r).
Proof.
  intros (Hv & Hcur & Hq & Ha) [H1 H2]. unfold asrc_edge. destruct (a_task s) eqn:Et; [congruence| |split; [congruence|rewrite Et; exact H2]].
  destruct (_ || _); [|split; [congruence|rewrite Et; discriminate]].
  destruct (fetch_spec c s Hcur Hq) as (s1 & E1 & _). rewrite E1.
  assert (Hh : alive (asrc_hold s1)).
  { unfold alive, asrc_hold. cbn [a_task a_q a_active]. destruct (ftrue (a_cur s1)), (a_q s1); cbn; split; try discriminate; auto. }
  destruct (a_cur s1) as [[[t g] fo]|] eqn:Ec; [|exact Hh]. destruct ((0 <? zlen (f_data g)) && _); [|exact Hh].
  unfold asrc_drive, alive. destruct (drive_beat c g fo) as [[b fo'] fin]. cbn. split; discriminate.
Qed.
Lemma alive_step s o : aquiet o = true -> op_norm o -> asrc_inv s -> alive s -> alive (asrc_step c s o).
Proof.
  intros Ho Hn Hs Hl. destruct o as [t f|b|lb lf| |[|]|r]; try discriminate; cbn [asrc_step]; try exact Hl; [| |now apply alive_edge].
  - destruct (asrc_full s); [exact Hl|]. destruct Hl as [H1 H2]. unfold alive. cbn. destruct (a_task s); split; try discriminate; congruence.
  - destruct Hl as [H1 H2]. unfold alive. cbn. destruct (a_task s); split; try discriminate; try congruence; auto.
Qed.

Lemma edge_progress s r : asrc_inv s -> alive s -> a_pause s = false -> a_valid s = false \/ negb (x_ready c) || r = true ->
  let s' := asrc_edge c s r in a_task s' = TSleep \/ (mu s' < mu s)%nat.
Proof.
  intros (Hv & Hcur & Hq & Ha) [H1 H2] Hp He. cbv zeta. unfold asrc_edge. destruct (a_task s) eqn:Et; [congruence| |left; exact Et].
  assert (Eg : (negb (x_ready c) || r) && a_valid s || negb (a_valid s) = true) by (destruct He as [->| ->]; destruct (a_valid s); cbn; rewrite ?andb_false_r; reflexivity). rewrite Eg. clear Eg.
  destruct (fetch_spec c s Hcur Hq) as (s1 & E1 & Ep & Hc1 & _ & _ & Epa & _). rewrite E1.
  assert (Hlen : (length (a_q s1) <= length (a_q s))%nat /\ (a_q s <> [] -> ftrue (a_cur s) = false -> (length (a_q s1) < length (a_q s))%nat) /\
     (a_q s1 = a_q s -> a_cur s1 = a_cur s)).
  { revert E1. unfold asrc_fetch. destruct (ftrue (a_cur s)); [injection 1 as <-; repeat split; auto; discriminate|].
    destruct (a_q s) as [|[t f] q] eqn:Eq; [injection 1 as <-; rewrite ?Eq; repeat split; auto; congruence|].
    destruct (normalize f); [|discriminate]. injection 1 as <-. cbn. repeat split; intros; try lia. exfalso. clear - H. apply (f_equal (@length _)) in H. cbn in H. lia. }
  assert (Hcs : ftrue (a_cur s1) = false -> a_q s = [] \/ (length (a_q s1) < length (a_q s))%nat).
  { intros Ef. destruct (a_q s) eqn:Eq; auto. right. destruct Hlen as (_ & Hl & _). apply Hl; [discriminate|].
    revert E1 Ef. unfold asrc_fetch. destruct (ftrue (a_cur s)) eqn:E; auto. injection 1 as <-. congruence. }
  assert (Hh : ftrue (a_cur s1) = false -> a_task (asrc_hold s1) = TSleep \/ (mu (asrc_hold s1) < mu s)%nat).
  { intros Ef. destruct (a_q s1) as [|x q] eqn:Eq1.
    - left. unfold asrc_hold. cbn [a_task]. rewrite Ef, Eq1. reflexivity.
    - right. destruct (Hcs Ef) as [Hn|Hl]; [exfalso; rewrite Hn in Hlen; cbn in Hlen; destruct Hlen as [Hlen _]; lia|].
      unfold mu. assert (pend c (asrc_hold s1) = pend c s1) as -> by reflexivity. rewrite Ep. unfold wire at 1. cbn [asrc_hold a_valid a_q]. rewrite Eq1. cbn in *. lia. }
  destruct (a_cur s1) as [[[t g] fo]|] eqn:Ec; [|apply Hh; reflexivity]. cbn [cur_ok ftrue] in *. rewrite Epa, Hp, andb_true_r.
  destruct (0 <? zlen (f_data g)) eqn:Ed; [|apply Hh; reflexivity].
  right. unfold asrc_drive. pose proof (rem_true c Hc t g fo ltac:(lia)) as D. destruct (drive_beat c g fo) as [[b fo'] fin]. destruct D as [D1 _].
  assert (E3 : length (pend c s) = S (length (rem c (if fin then None else Some (t, g, fo')) ++ flat_map (nb c) (a_q s1)))).
  { rewrite <- Ep. unfold pend. rewrite Ec. cbn [rem] in D1 |- *. rewrite D1. reflexivity. }
  unfold mu. rewrite E3. unfold pend, wire at 1. cbn [a_cur a_q a_valid length]. destruct Hlen. lia.
Qed.

(** ** the sink: unlimited and not paused it becomes ready and stays so *)
Definition knolim (k : asnk) : Prop := z_limb k <= 0 /\ z_limf k <= 0 /\ z_pause k = false.
Definition krdy (k : asnk) : Prop :=
  (z_ready k = true /\ match z_task k with KEdge _ true | KDead => False | _ => True end).
Definition kalmost (k : asnk) : Prop :=
  krdy k \/ match z_task k with KEdge _ ps => ps = false | KSleep | KDead => False | _ => True end.

Lemma nofull lb lf x y : lb <= 0 -> lf <= 0 -> occ_full lb lf x y = false.
Proof. intros H1 H2. unfold occ_full. assert (0 <? lb = false) by lia. assert (0 <? lf = false) by lia. now rewrite H, H0. Qed.

Lemma knolim_edge k v b : knolim k -> knolim (asnk_edge c k v b).
Proof.
  intros H. unfold asnk_edge. destruct (z_task (asnk_run k)); try exact H. match goal with |- context [let '(x, y) := ?e in _] => destruct e as [p fs] end. exact H.
Qed.
Lemma krdy_edge k v b : x_ready c = true -> knolim k -> kalmost k -> krdy (asnk_edge c k v b).
Proof.
  intros Hr (L1 & L2 & L3) Hk. destruct k as [q p rq ob of lb lf ps w t r]. cbn [z_limb z_limf z_pause] in *. subst ps.
  assert (Ht : match t with KEdge _ ps => ps = false | KDead => False | KSleep => r = true | _ => True end).
  { destruct Hk as [[K1 K2]|K]; cbn in *; destruct t; auto; try contradiction. destruct ps; [contradiction|reflexivity]. }
  clear Hk. unfold asnk_edge, krdy. destruct t; cbn; try contradiction; try (subst ps); try (subst r; auto); rewrite Hr;
  match goal with |- context [let '(x, y) := ?e in _] => destruct e as [? ?] end; cbn; rewrite (nofull lb lf) by assumption; cbn;
  (split; [reflexivity|]); rewrite ?orb_false_r, ?andb_true_r; match goal with |- context [if ?b then (if ?n then _ else _) else _] => destruct b, n; exact I end.
Qed.
Lemma kalmost_edge k v b : x_ready c = true -> knolim k -> z_task k <> KDead -> zawake k -> kalmost (asnk_edge c k v b).
Proof.
  intros Hr (L1 & L2 & L3) Hd Hw. destruct (z_task k) eqn:Et; try congruence.
  - left. apply krdy_edge; auto; [unfold knolim; auto|]. right. rewrite Et. exact I.
  - left. apply krdy_edge; auto; [unfold knolim; auto|]. right. rewrite Et. exact I.
  - destruct ps.
    + right. unfold asnk_edge. cbn [asnk_run z_task]. rewrite Et. match goal with |- context [let '(x, y) := ?e in _] => destruct e as [p fs] end. cbn. rewrite Hr, L3.
      cbn. rewrite andb_false_r. reflexivity.
    + left. apply krdy_edge; auto; [unfold knolim; auto|]. right. rewrite Et. reflexivity.
  - left. unfold zawake in Hw. rewrite Et in Hw. unfold asnk_full in Hw. rewrite (nofull _ _ _ _ L1 L2), L3 in Hw.
    assert (Er : z_ready k = true) by (destruct (z_ready k); auto; destruct (Hw eq_refl); discriminate).
    apply krdy_edge; auto; [unfold knolim; auto|]. left. unfold krdy. rewrite Et. auto.
Qed.
Lemma krdy_wake k : krdy k -> krdy (asnk_wake k).
Proof. unfold krdy. cbn. intros [H1 H2]. split; auto. destruct (z_task k) as [| | |? [|]|]; auto. Qed.
Lemma kalmost_wake k : kalmost k -> kalmost (asnk_wake k).
Proof. intros [H|H]; [left; now apply krdy_wake|right]. cbn. destruct (z_task k); auto. Qed.

(** ** clocks *)
Definition Lv (h : achan) : Prop :=
  achan_inv c h /\ alive (ac_src h) /\ a_pause (ac_src h) = false /\ knolim (ac_snk h) /\ (x_ready c = true -> zawake (ac_snk h)).

Lemma pause_edge s r : asrc_inv s -> a_pause (asrc_edge c s r) = a_pause s.
Proof.
  intros (Hv & Hcur & Hq & Ha). unfold asrc_edge. destruct (a_task s); auto. destruct (_ || _); auto.
  destruct (fetch_spec c s Hcur Hq) as (s1 & E1 & _ & _ & _ & _ & Epa & _). rewrite E1, <- Epa.
  destruct (a_cur s1) as [[[t g] fo]|]; [|reflexivity]. destruct ((0 <? zlen (f_data g)) && _); [|reflexivity].
  unfold asrc_drive. destruct (drive_beat c g fo) as [[b fo'] fin]. reflexivity.
Qed.
Lemma clk_src h : ac_src (achan_step c h ACClk) = asrc_edge c (ac_src h) (z_ready (ac_snk h)).
Proof. cbn [achan_step]. unfold asettle. cbn [ac_src ac_snk]. destruct (_ || _); reflexivity. Qed.
Lemma clk_snk (P : asnk -> Prop) h : (forall k, P k -> P (asnk_wake k)) -> P (asnk_edge c (ac_snk h) (a_valid (ac_src h)) (a_beat (ac_src h))) ->
  P (ac_snk (achan_step c h ACClk)).
Proof. intros H1 H2. cbn [achan_step]. unfold asettle. cbn [ac_src ac_snk]. destruct (_ || _); cbn; auto. Qed.

Lemma Lv_clk h : Lv h -> Lv (achan_step c h ACClk).
Proof.
  intros (H1 & H2 & H3 & H4 & H5). assert (Hs : asrc_inv (ac_src h)) by apply H1.
  split; [apply achan_step_inv; auto; exact I|]. rewrite clk_src. split; [now apply alive_edge|]. split; [now rewrite pause_edge|].
  split; [apply (clk_snk knolim); [auto|now apply knolim_edge]|]. intros Hr. apply (clk_snk zawake); [intros k; apply zawake_wake|]. apply zawake_edge; auto.
Qed.
Lemma aclocks_S n h : aclocks c (S n) h = aclocks c n (achan_step c h ACClk).
Proof. induction n; [reflexivity|]. cbn [aclocks] in *. now rewrite IHn. Qed.

(** a sleeping source stays idle *)
Lemma sleep_stays n : forall h, Lv h -> a_task (ac_src h) = TSleep -> asrc_is_idle (ac_src (aclocks c n h)) = true.
Proof.
  induction n as [|n IH]; intros h Hl Ht.
  - cbn. destruct Hl as (_ & [_ Ha] & _). destruct (Ha Ht) as [E1 E2]. unfold asrc_is_idle. now rewrite E1, E2.
  - rewrite aclocks_S. apply IH; [now apply Lv_clk|]. rewrite clk_src. unfold asrc_edge. now rewrite Ht.
Qed.
Lemma ready_progress m : forall h, Lv h -> (x_ready c = true -> krdy (ac_snk h)) -> (mu (ac_src h) <= m)%nat ->
  forall n, (m + 1 <= n)%nat -> asrc_is_idle (ac_src (aclocks c n h)) = true.
Proof.
  induction m as [|m IH]; intros h Hl Hk Hm n Hn; (destruct n as [|n]; [lia|]); rewrite aclocks_S;
  (assert (He : a_valid (ac_src h) = false \/ negb (x_ready c) || z_ready (ac_snk h) = true)
     by (right; destruct (x_ready c); [destruct (Hk eq_refl) as [-> _]; reflexivity|reflexivity]));
  pose proof Hl as ((Hs & _) & H2 & H3 & H4 & _);
  pose proof (edge_progress _ (z_ready (ac_snk h)) Hs H2 H3 He) as Pg; rewrite <- clk_src in Pg; cbv zeta in Pg;
  (destruct Pg as [Pg|Pg]; [now apply sleep_stays; [apply Lv_clk|]|]).
  - lia.
  - apply IH; [now apply Lv_clk| |lia|lia]. intros Hr. apply (clk_snk krdy); [apply krdy_wake|]. apply krdy_edge; auto. left. auto.
Qed.
Lemma clocks_deliver h : Lv h -> exists N, forall n, (N <= n)%nat -> asrc_is_idle (ac_src (aclocks c n h)) = true.
Proof.
  intros Hl. set (h1 := achan_step c h ACClk). set (h2 := achan_step c h1 ACClk).
  assert (L1 : Lv h1) by now apply Lv_clk. assert (L2 : Lv h2) by now apply Lv_clk.
  exists (mu (ac_src h2) + 3)%nat. intros n Hn. destruct n as [|[|n]]; [lia|lia|]. rewrite !aclocks_S. fold h1. fold h2.
  apply (ready_progress (mu (ac_src h2))); auto; [|lia]. intros Hr. pose proof Hl as ((_ & Hd & _) & _ & _ & Hk & Hw).
  assert (K1 : kalmost (ac_snk h1)) by (apply (clk_snk kalmost); [apply kalmost_wake|]; apply kalmost_edge; auto).
  apply (clk_snk krdy); [apply krdy_wake|]. apply krdy_edge; auto. apply L1.
Qed.
End Live.
