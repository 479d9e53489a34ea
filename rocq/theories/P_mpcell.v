(** Multi-port memories: one cell (S_mport.v). *)
From Coq Require Import ZArith Lia List Bool.
From Verif Require Import Py S_flat M_axi S_axi P_axislave S_sys T_sysram M_mport S_mport P_mport.
Import ListNotations.
Open Scope Z_scope.

Lemma put_local phi l : forall f g y, f y = g y -> put phi f l y = put phi g l y.
Proof. induction l as [|[a b] l IH]; intros f g y E; [exact E|]. cbn [put]. apply IH. unfold upd. now destruct (y =? phi a). Qed.
Lemma in_concat_nth {X} (ws : list (list X)) : forall a b x, concat ws = a ++ b -> In x b -> exists i c, nth_error ws i = Some c /\ In x c /\ (length a < length (concat (firstn (S i) ws)))%nat.
Proof.
  induction ws as [|w ws IH]; intros a b x E Hx.
  - symmetry in E. apply app_eq_nil in E as [_ ->]. destruct Hx.
  - cbn [concat] in E. destruct (Nat.lt_ge_cases (length a) (length w)) as [Hl|Hl].
    + assert (Hb : b = skipn (length a) w ++ concat ws).
      { apply (f_equal (skipn (length a))) in E. rewrite !skipn_app, skipn_all, Nat.sub_diag in E. replace (length a - length w)%nat with 0%nat in E by lia. cbn in E. congruence. }
      rewrite Hb in Hx. apply in_app_or in Hx as [Hx|Hx].
      * exists 0%nat, w. split; [reflexivity|]. split; [rewrite <- (firstn_skipn (length a) w); apply in_or_app; auto|]. cbn. rewrite app_nil_r. lia.
      * destruct (IH [] (concat ws) x eq_refl Hx) as (i & c & E1 & E2 & E3). exists (S i), c. split; [exact E1|]. split; [exact E2|].
        change (firstn (S (S i)) (w :: ws)) with (w :: firstn (S i) ws). cbn [concat]. rewrite app_length. lia.
    + assert (Ha : exists a', a = w ++ a' /\ concat ws = a' ++ b).
      { exists (skipn (length w) a). assert (E' : firstn (length w) a = w).
        { apply (f_equal (firstn (length w))) in E. rewrite !firstn_app, firstn_all, Nat.sub_diag in E. replace (length w - length a)%nat with 0%nat in E by lia. cbn in E. rewrite !app_nil_r in E. congruence. }
        split; [rewrite <- E' at 1; now rewrite firstn_skipn|]. rewrite <- (firstn_skipn (length w) a), E', <- app_assoc in E. now apply app_inv_head in E. }
      destruct Ha as (a' & -> & E'). destruct (IH a' b x E' Hx) as (i & c & E1 & E2 & E3). exists (S i), c. split; [exact E1|]. split; [exact E2|].
      change (firstn (S (S i)) (w :: ws)) with (w :: firstn (S i) ws). cbn [concat]. rewrite !app_length. lia.
Qed.
Lemma flat_seq_split {X} (f : nat -> list X) k k' : (k <= k')%nat -> flat_map f (seq 0 k') = flat_map f (seq 0 k) ++ flat_map f (seq k (k' - k)).
Proof. intros H. rewrite <- flat_map_app. f_equal. rewrite <- seq_app. f_equal. lia. Qed.

Section Cell.
Variables (N : nat) (m : nat -> flat) (cell : Z).

(** a port none of whose writes to the cell is unfinished at k1 does not change it afterwards *)
Lemma others phi own v k1 : served phi N m own v -> (k1 <= N)%nat ->
  (forall w b, nth_error (pv_writes v N) w = Some b -> on_cell phi cell b -> (w < length (pv_writes v k1))%nat /\ pv_wdone v k1 w) ->
  forall k, (k1 <= k < N)%nat -> own k = true -> m (S k) cell = m k cell.
Proof.
  intros (H0 & bs & mom & H1 & H2 & H3 & H4 & _) Hk1 Hd k Hk Ho. rewrite (H2 k ltac:(lia) Ho). apply put_missed. intros q Hq Hc.
  pose proof (H3 (S k) ltac:(lia)) as P. destruct (H0 (S k) N ltac:(lia)) as [[dw Ew] _].
  assert (P' : is_prefix (flat_map bs (seq 0 (S k))) (concat (pv_writes v N))) by (destruct P as [e Ee]; rewrite Ew, concat_app, Ee, <- app_assoc; now eexists).
  rewrite flat_map_seq_S in P'. destruct P' as [e Ee]. rewrite <- app_assoc in Ee.
  destruct (in_concat_nth _ _ _ q Ee ltac:(apply in_or_app; auto)) as (w & b & E1 & E2 & E3).
  destruct (Hd w b E1 ltac:(exists q; auto)) as [D1 D2]. destruct (H0 k1 N ltac:(lia)) as [Hp _].
  assert (E1' : nth_error (pv_writes v k1) w = Some b).
  { destruct (nth_error (pv_writes v k1) w) as [b'|] eqn:E; [|apply nth_error_None in E; lia]. pose proof (nth_pre _ _ _ _ Hp E). congruence. }
  assert (Hb : b <> []) by (intros ->; destruct E2).
  pose proof (prefix_len _ _ (H4 k1 w b Hk1 E1' Hb D2)) as Hl. rewrite <- (firstn_pre _ _ (S w) Hp) in Hl by lia.
  rewrite (flat_seq_split bs k1 k), app_length in E3 by lia. lia.
Qed.

(** a write that leaves x in the cell, completed at k2, with no other write to the cell after k1 *)
Lemma writer phi own v k1 k2 w b x : served phi N m own v -> (k1 <= k2 <= N)%nat ->
  (forall k, (k1 <= k < N)%nat -> own k = false -> m (S k) cell = m k cell) ->
  nth_error (pv_writes v N) w = Some b -> (length (pv_writes v k1) <= w < length (pv_writes v k2))%nat -> pv_wdone v k2 w -> leaves phi cell b x ->
  (forall w' b', (w < w')%nat -> nth_error (pv_writes v N) w' = Some b' -> ~ on_cell phi cell b') ->
  forall k, (k2 <= k <= N)%nat -> m k cell = x.
Proof.
  intros (H0 & bs & mom & H1 & H2 & H3 & H4 & _) Hk12 Ho Ew Hw Hd (b1 & a & b2 & Eb & Ha & Hb2) Hlater k Hk.
  assert (HB : forall d, (k1 + d <= N)%nat -> m (k1 + d)%nat cell = put phi (m k1) (flat_map bs (seq k1 d)) cell).
  { induction d as [|d IH]; intros Hd'; [rewrite Nat.add_0_r; reflexivity|]. rewrite seq_S, flat_map_app, put_app. cbn [flat_map]. rewrite app_nil_r.
    rewrite Nat.add_succ_r. destruct (own (k1 + d)%nat) eqn:E.
    - rewrite (H2 (k1 + d)%nat ltac:(lia) E). apply put_local. apply IH. lia.
    - rewrite (H1 (k1 + d)%nat ltac:(lia) E). cbn [put]. rewrite Ho by (auto; lia). apply IH. lia. }
  specialize (HB (k - k1)%nat ltac:(lia)). replace (k1 + (k - k1))%nat with k in HB by lia. rewrite HB.
  set (W := pv_writes v N) in *. set (B := flat_map bs (seq k1 (k - k1))) in *.
  (* until k1: part of the writes before w *)
  destruct (H0 k1 N ltac:(lia)) as [Hp1 _]. fold W in Hp1. pose proof (H3 k1 ltac:(lia)) as [e1 E1].
  assert (EC : exists C', concat (firstn w W) = flat_map bs (seq 0 k1) ++ C').
  { destruct Hp1 as [dW EW]. rewrite EW, firstn_app, firstn_all2, concat_app, E1, <- app_assoc by lia. now eexists. }
  destruct EC as [C' EC].
  (* until k2: all of the write *)
  destruct (H0 k2 N ltac:(lia)) as [Hp2 _]. fold W in Hp2.
  assert (E2' : nth_error (pv_writes v k2) w = Some b).
  { destruct (nth_error (pv_writes v k2) w) as [b'|] eqn:E; [|apply nth_error_None in E; lia]. pose proof (nth_pre _ _ _ _ Hp2 E). congruence. }
  assert (Hb : b <> []) by (rewrite Eb; now destruct b1).
  pose proof (H4 k2 w b ltac:(lia) E2' Hb Hd) as [e2 E2]. rewrite <- (firstn_pre _ _ (S w) Hp2) in E2 by lia.
  assert (Esw : concat (firstn (S w) W) = concat (firstn w W) ++ b).
  { assert (K : firstn (S w) W = firstn w W ++ [b]).
    { clear - Ew. revert w Ew. generalize W as l. induction l as [|y l IH]; intros [|w] E; try discriminate; [injection E as ->; reflexivity|]. cbn [nth_error] in E. cbn [firstn app]. f_equal. now apply IH. }
    rewrite K, concat_app. cbn [concat]. now rewrite app_nil_r. }
  (* until k: some of the later ones *)
  pose proof (H3 k ltac:(lia)) as [e3 E3]. destruct (H0 k N ltac:(lia)) as [[dW EW] _]. fold W in EW.
  assert (EN : concat W = flat_map bs (seq 0 k) ++ (e3 ++ concat dW)) by (rewrite EW, concat_app, E3, <- app_assoc; reflexivity).
  rewrite (flat_seq_split bs k2 k), E2, Esw, <- !app_assoc in EN by lia.
  assert (Ebk : flat_map bs (seq 0 k1) ++ B = flat_map bs (seq 0 k1) ++ C' ++ b ++ e2 ++ flat_map bs (seq k2 (k - k2))).
  { unfold B. rewrite <- (flat_seq_split bs k1 k) by lia. rewrite (flat_seq_split bs k2 k), E2, Esw, EC by lia. now rewrite <- !app_assoc. }
  apply app_inv_head in Ebk. rewrite Ebk. set (rest := e2 ++ flat_map bs (seq k2 (k - k2))) in *.
  assert (Hrest : forall q, In q rest -> phi (fst q) <> cell).
  { intros q Hq Hc. assert (Es : concat W = concat (firstn (S w) W) ++ concat (skipn (S w) W)) by (rewrite <- concat_app; now rewrite firstn_skipn).
    rewrite Es, Esw, <- !app_assoc in EN. apply app_inv_head in EN. apply app_inv_head in EN.
    assert (Hin : In q (concat (skipn (S w) W))) by (rewrite EN; unfold rest in Hq; apply in_app_or in Hq; rewrite !in_app_iff; tauto).
    apply in_concat in Hin. destruct Hin as (b' & Hb' & Hq'). apply In_nth_error in Hb'. destruct Hb' as [i Hi].
    assert (Hl : (S w <= length W)%nat) by (assert (nth_error W w <> None) by congruence; apply nth_error_Some in H; lia).
    apply (Hlater (S w + i)%nat b'); [lia| |exists q; auto].
    rewrite <- (firstn_skipn (S w) W), nth_error_app2; rewrite firstn_length_le by lia; [|lia]. now replace (S w + i - S w)%nat with i by lia. }
  rewrite Eb, !put_app. rewrite put_missed by exact Hrest. cbn [put]. rewrite put_missed by exact Hb2. unfold upd. now rewrite Ha, Z.eqb_refl.
Qed.
(** a read issued when the cell holds x for good *)
Lemma reader phi own v k2 j a len d y x : served phi N m own v -> (k2 <= N)%nat -> (forall k, (k2 <= k <= N)%nat -> m k cell = x) ->
  nth_error (pv_reads v N) j = Some (a, len) -> (length (pv_reads v k2) <= j)%nat -> pv_rret v j d -> a <= y < a + len -> phi y = cell ->
  snd d = OKAY /\ nth_error (fst d) (Z.to_nat (y - a)) = Some x.
Proof.
  intros (H0 & bs & mom & _ & _ & _ & _ & _ & H6 & H7 & H8 & _) Hk Hm E Hj Hd Hy Hc. rewrite (H6 j a len d E Hd). cbn [fst snd]. split; [reflexivity|].
  assert (Hin : in_read v N j y) by (exists a, len; auto). pose proof (H7 j y Hin). pose proof (H8 k2 j y Hk Hin Hj).
  rewrite nth_error_map. assert (Ey : nth_error (zrange a (a + len)) (Z.to_nat (y - a)) = Some y).
  { rewrite (zrange_split a y (a + len)) by lia. rewrite nth_error_app2; rewrite zrange_length; [|lia]. rewrite Nat.sub_diag, zrange_cons by lia. reflexivity. }
  rewrite Ey. cbn. rewrite Hc, Hm by lia. reflexivity.
Qed.
End Cell.
