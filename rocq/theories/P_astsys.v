(** Proofs: masters and slaves on a target that stores bytes in part of its addresses. *)
From Coq Require Import ZArith Lia List Bool.
From Coq Require Import ZifyBool ZifyNat.
From Verif Require Import Py S_flat M_sparse S_sparse P_sparse M_memory P_memory M_axi S_axi P_axi P_axislave P_axiop P_axicomp P_axiram
  M_axisframe P_axisframe M_axil S_axil P_axil M_liteeng S_liteeng P_liteeng M_axieng S_axieng P_axieng P_axiattr T_axieng
  M_sys S_sys P_sys P_syswr P_sysrd T_sys T_sysrd M_litesys S_litesys P_litesys P_litewr P_literd T_litesys M_aspace S_aspace S_astgt.
Import ListNotations.
Open Scope Z_scope.

Section Part.
Context {T : Type}.
Variables (L lo hi : Z) (mp : Z -> bool) (phi : Z -> Z) (inv : T -> Prop) (view : T -> flat).
Variable tw : T -> Z -> list Z -> T * res unit.
Variable tr : T -> Z -> Z -> T * res (list Z).
Hypothesis Hpt : part_target L lo hi mp phi inv view tw tr.
Hypothesis HL : 0 < L.
Hypothesis Hmp : of_words L mp.

Notation mpp := (fun p : Z * Z => mp (fst p)) (only parsing).

Lemma mp_word a n : down L a = down L (a + n - 1) -> forall x, a <= x < a + n -> mp x = mp a.
Proof.
  intros Hd x Hx. apply Hmp. unfold down in *. 
  pose proof (Z.mod_pos_bound a L HL). pose proof (Z.mod_pos_bound (a + n - 1) L HL). pose proof (Z.div_mod a L ltac:(lia)).
  pose proof (Z.mod_unique_pos x L (a / L) (x - (a - a mod L)) ltac:(lia) ltac:(lia)). lia.
Qed.

Lemma filter_addressed a d b : (forall x, a <= x < a + zlen d -> mp x = b) ->
  filter mpp (addressed a d) = if b then addressed a d else [].
Proof.
  intros H. assert (K : forall p, In p (addressed a d) -> mp (fst p) = b) by (intros p Hp; apply H; now apply in_addressed).
  revert K. generalize (addressed a d). induction l as [|p l IH]; intros K; [now destruct b|]. cbn [filter]. rewrite (K p (or_introl eq_refl)).
  rewrite IH by (intros; apply K; now right). now destruct b.
Qed.

Lemma replays_part l : forall t t', inv t -> Forall (call_ok L) l -> Forall (fun p => lo <= fst p < hi) (calls_bytes l) -> replays tw t l t' ->
  Forall (fun e => failed e = negb (mp (fst (fst e)))) l /\ inv t' /\ view t' =f put phi (view t) (filter mpp (calls_bytes l)).
Proof.
  induction l as [|[[a d] r] l IH]; intros t t' Hi Hc Hr Hrep.
  - cbn in *. subst t'. split; [constructor|]. auto using feq_refl.
  - inversion Hc as [|? ? Hk Hc']; subst. destruct (Hk : _ /\ _ /\ _) as (H1 & H2 & H3).
    destruct (calls_range lo hi _ a d r (in_eq _ _) H1 Hr) as (Ha & Hb). cbn [replays] in Hrep.
    change (calls_bytes ((a, d, r) :: l)) with (addressed a d ++ calls_bytes l) in *. apply Forall_app in Hr as [_ Hr].
    pose proof (mp_word a (zlen d) H3) as Hw. rewrite filter_app, (filter_addressed a d (mp a) Hw), put_app.
    destruct (mp a) eqn:Em.
    + destruct (pt_write _ _ _ _ _ _ _ _ _ Hpt t a d Hi H2 H1 Ha Hb H3 Hw) as (t1 & E & Hi1 & Hv1). rewrite E in Hrep.
      cbn [fst snd] in Hrep. destruct Hrep as [<- Hrep]. destruct (IH t1 t' Hi1 Hc' Hr Hrep) as (F & Hi' & Hv').
      split; [constructor; [cbn; now rewrite Em|exact F]|]. split; [exact Hi'|]. intros x. rewrite Hv'. now apply put_feq.
    + destruct (pt_refuse _ _ _ _ _ _ _ _ _ Hpt t a d Hi H2 H1 Ha Hb H3 Em) as (t1 & e & E & Hi1 & Hv1). rewrite E in Hrep.
      cbn [fst snd] in Hrep. destruct Hrep as [<- Hrep]. destruct (IH t1 t' Hi1 Hc' Hr Hrep) as (F & Hi' & Hv').
      split; [constructor; [cbn; now rewrite Em|exact F]|]. split; [exact Hi'|]. intros x. rewrite Hv'. now apply put_feq.
Qed.

(** the calls of an operation *)
Lemma op_part A D cs : Forall (fun e => failed e = negb (mp (fst (fst e)))) cs -> Forall (call_ok L) cs ->
  incl (calls_bytes cs) (addressed A D) -> (existsb failed cs = false -> calls_bytes cs = addressed A D) -> spared L cs (addressed A D) ->
  existsb failed cs = negb (forallb mp (zrange A (A + zlen D))) /\ filter mpp (calls_bytes cs) = filter mpp (addressed A D).
Proof.
  intros HF HC HI HA HS. rewrite Forall_forall in HF. split.
  - destruct (forallb mp (zrange A (A + zlen D))) eqn:E; cbn [negb].
    + apply not_true_is_false. intros K. apply existsb_exists in K as ([[a d] r] & He & K). rewrite (HF _ He) in K. cbn [fst] in K.
      rewrite Forall_forall in HC. destruct (HC _ He) as (H1 & _). destruct d as [|b d]; [cbn in H1; lia|].
      assert (Hin : In (a, b) (addressed A D)).
      { apply HI. unfold calls_bytes. apply in_flat_map. exists (a, b :: d, r). split; auto. cbn [fst snd]. rewrite addressed_cons. now left. }
      apply in_addressed in Hin. cbn [fst] in Hin. rewrite forallb_forall in E. rewrite (E a) in K; [discriminate|]. apply in_zrange. lia.
    + apply not_false_is_true. intros K. specialize (HA K).
      assert (Hall : forallb mp (zrange A (A + zlen D)) = true); [|congruence]. apply forallb_forall. intros x Hx. apply in_zrange in Hx.
      assert (Hb : In (x, znth 0 D (x - A)) (calls_bytes cs)).
      { rewrite HA. unfold addressed. rewrite <- (map_id (zrange A (A + zlen D))). 
        assert (Hn : nth_error (combine (map (fun y => y) (zrange A (A + zlen D))) D) (Z.to_nat (x - A)) = Some (x, znth 0 D (x - A))); [|eapply nth_error_In; exact Hn].
        rewrite map_id. assert (Hz : length (zrange A (A + zlen D)) = length D) by (rewrite zrange_length; unfold zlen; lia).
        rewrite (nth_error_nth' _ (0, 0)) by (rewrite combine_length, Hz; unfold zlen in *; lia). rewrite combine_nth by exact Hz.
        f_equal. f_equal. pose proof (znth_zrange0 0 A (A + zlen D) (x - A) ltac:(lia)) as Z0. unfold znth in Z0. lia. }
      unfold calls_bytes in Hb. apply in_flat_map in Hb as ([[a d] r] & He & Hb). cbn [fst snd] in Hb. apply in_addressed in Hb. cbn [fst] in Hb.
      rewrite Forall_forall in HC. destruct (HC _ He) as (H1 & _ & H3). rewrite (mp_word a (zlen d) H3 x) by lia.
      pose proof (HF _ He) as Hf. cbn [fst] in Hf. destruct (mp a); auto. cbn in Hf.
      assert (existsb failed cs = true) by (apply existsb_exists; exists (a, d, r); split; auto). congruence.
  - apply HS; auto. intros e He Hm. rewrite (HF e He), Hm. reflexivity.
Qed.

(** ** reads *)
Definition part_word (m : flat) (e : rcall) : Prop :=
  if mp (fst (fst e)) then word_of L phi m e else exists er, snd e = Err er.

Lemma rreplays_part l : forall t t', inv t ->
  Forall (fun e : rcall => lo <= fst (fst e) /\ fst (fst e) + L <= hi /\ fst (fst e) mod L = 0 /\ snd (fst e) = L) l ->
  rreplays tr t l t' -> Forall (part_word (view t)) l /\ inv t' /\ view t' =f view t.
Proof.
  induction l as [|[[a n] r] l IH]; intros t t' Hi Hr Hrep; [cbn in Hrep; subst t'; split; [constructor|auto using feq_refl]|].
  apply Forall_cons_iff in Hr as [(R1 & R2 & R3 & R4) Hr']. cbn [fst snd] in *. subst n. cbn [rreplays] in Hrep.
  assert (Hw : forall x, a <= x < a + L -> mp x = mp a).
  { apply mp_word. unfold down. rewrite R3. pose proof (Z.div_mod a L ltac:(lia)).
    pose proof (Z.mod_unique_pos (a + L - 1) L (a / L) (L - 1) ltac:(lia) ltac:(lia)). lia. }
  assert (K : exists t1, tr t a L = (t1, r) /\ part_word (view t) (a, L, r) /\ inv t1 /\ view t1 =f view t).
  { unfold part_word. cbn [fst snd]. destruct (mp a) eqn:Em.
    - destruct (pt_read _ _ _ _ _ _ _ _ _ Hpt t a Hi R1 R2 R3 Hw) as (t1 & E & Hi1 & Hv1). exists t1. rewrite E in Hrep. cbn [fst snd] in Hrep.
      destruct Hrep as [<- _]. split; auto. split; auto. eexists. split; [reflexivity|]. split; [|reflexivity].
      apply Forall_forall. intros b Hb. apply in_map_iff in Hb. destruct Hb as (x & <- & _). apply (pt_bytes _ _ _ _ _ _ _ _ _ Hpt). exact Hi.
    - destruct (pt_fail _ _ _ _ _ _ _ _ _ Hpt t a a Hi R1 R2 R3 ltac:(lia) Em) as (t1 & e & E & Hi1 & Hv1). exists t1. rewrite E in Hrep. cbn [fst snd] in Hrep.
      destruct Hrep as [<- _]. split; auto. split; auto. eexists. reflexivity. }
  destruct K as (t1 & E & Hp & Hi1 & Hv1). rewrite E in Hrep. cbn [fst snd] in Hrep. destruct Hrep as [_ Hrep].
  destruct (IH _ _ Hi1 Hr' Hrep) as (I1 & I2 & I3). split; [|split; [exact I2|eapply feq_trans; eauto]]. constructor; [exact Hp|].
  eapply Forall_impl; [|exact I1]. intros e. unfold part_word. destruct (mp (fst (fst e))); auto. intros (d & K1 & K2 & K3). exists d. split; auto. split; auto.
  rewrite K3. apply map_ext. intros x. apply Hv1.
Qed.

Lemma part_ok m cs : Forall (fun e : rcall => snd (fst e) = L) cs -> Forall (part_word m) cs -> Forall rcall_ok cs.
Proof.
  intros H1 H2. rewrite Forall_forall in *. intros e He. specialize (H1 e He). specialize (H2 e He). unfold part_word in H2. unfold rcall_ok.
  destruct (mp (fst (fst e))).
  - destruct H2 as (d & -> & Hb & Hd). split; auto. rewrite H1, Hd. unfold zlen. rewrite map_length, zrange_length. lia.
  - destruct H2 as (er & ->). exact I.
Qed.
Lemma part_failed m e : part_word m e -> rfailed e = negb (mp (fst (fst e))).
Proof. unfold part_word, rfailed. destruct (mp (fst (fst e))); [intros (d & -> & _)|intros (er & ->)]; reflexivity. Qed.
Lemma part_byte m e x : part_word m e -> fst (fst e) <= x < fst (fst e) + L -> fst (fst e) mod L = 0 -> call_byte e x = if mp x then m (phi x) else 0.
Proof.
  intros Hp Hx Hm. assert (E : mp x = mp (fst (fst e))).
  { apply (mp_word _ L); auto. unfold down. rewrite Hm. pose proof (Z.div_mod (fst (fst e)) L ltac:(lia)).
    pose proof (Z.mod_unique_pos (fst (fst e) + L - 1) L (fst (fst e) / L) (L - 1) ltac:(lia) ltac:(lia)). lia. }
  rewrite E. unfold part_word, call_byte in *. destruct (mp (fst (fst e))).
  - destruct Hp as (d & -> & _ & ->). rewrite (znth_map _ 0) by (rewrite zlen_zrange; lia). rewrite znth_zrange0 by lia. f_equal. f_equal. lia.
  - destruct Hp as (er & ->). reflexivity.
Qed.
End Part.

(** ** the calls of a read and the bytes asked for *)
Lemma down_le L x : 0 < L -> down L x <= x < down L x + L.
Proof. intros HL. unfold down. pose proof (Z.mod_pos_bound x L HL). lia. Qed.
Lemma down_down L x : 0 < L -> down L (down L x) = down L x.
Proof. intros HL. apply down_in_word; lia. Qed.
Lemma down_mod L x : 0 < L -> down L x mod L = 0.
Proof. intros HL. rewrite down_eq by lia. rewrite Z.mul_comm. apply Z.mod_mul. lia. Qed.

Lemma read_calls_nth L cmd x : bus_ok L (rc_size cmd) -> 0 <= rc_addr cmd -> 0 <= rc_len cmd -> rc_addr cmd <= x < rc_addr cmd + rc_len cmd ->
  nth_error (read_calls L cmd) (Z.to_nat (x / 2 ^ rc_size cmd - rc_addr cmd / 2 ^ rc_size cmd)) = Some (down L x, L).
Proof.
  intros HG HA Hlen Hx. destruct (bus_ok_facts _ _ HG) as (q & p & Hnb & Hq & HL & Hp & Hs & HL0).
  set (nb := 2 ^ rc_size cmd) in *. set (A := rc_addr cmd) in *. set (len := rc_len cmd) in *.
  assert (Hx1 : nb * (x / nb) <= x < nb * (x / nb) + nb).
  { pose proof (Z.div_mod x nb ltac:(lia)). pose proof (Z.mod_pos_bound x nb Hnb). lia. }
  assert (Hk0 : 0 <= x / nb - A / nb) by (assert (A / nb <= x / nb) by (apply Z.div_le_mono; lia); lia).
  assert (Hk1 : x / nb < (A + len + nb - 1) / nb).
  { assert (H : (x + nb) / nb <= (A + len + nb - 1) / nb) by (apply Z.div_le_mono; lia). replace (x + nb) with (x + 1 * nb) in H by lia. rewrite Z.div_add in H; lia. }
  unfold read_calls. fold nb A len. set (k := Z.to_nat (x / nb - A / nb)).
  rewrite (map_nth_error _ k (zrange (A / nb) ((A + len + nb - 1) / nb)) (d := x / nb)).
  - f_equal. f_equal. rewrite HL. rewrite !(down_within nb q (x / nb)); auto; lia.
  - replace (x / nb) with (A / nb + Z.of_nat k) by (unfold k; lia).
    assert (Hkl : (k < length (zrange (A / nb) ((A + len + nb - 1) / nb)))%nat) by (rewrite zrange_length; unfold k; lia).
    rewrite (nth_error_nth' _ 0 Hkl). f_equal. pose proof (znth_zrange0 0 (A / nb) ((A + len + nb - 1) / nb) (Z.of_nat k) ltac:(unfold k; lia)) as Z0.
    unfold znth in Z0. now rewrite Nat2Z.id in Z0.
Qed.
Lemma read_calls_touch L cmd e : bus_ok L (rc_size cmd) -> 0 <= rc_addr cmd -> 0 < rc_len cmd -> In e (read_calls L cmd) ->
  exists x, rc_addr cmd <= x < rc_addr cmd + rc_len cmd /\ e = (down L x, L).
Proof.
  intros HG HA Hlen He. destruct (bus_ok_facts _ _ HG) as (q & p & Hnb & Hq & HL & Hp & Hs & HL0).
  unfold read_calls in He. apply in_map_iff in He as (k & <- & Hk). apply in_zrange in Hk.
  set (nb := 2 ^ rc_size cmd) in *. set (A := rc_addr cmd) in *. set (len := rc_len cmd) in *.
  assert (Hx : nb * (A / nb) <= A < nb * (A / nb) + nb).
  { pose proof (Z.div_mod A nb ltac:(lia)). pose proof (Z.mod_pos_bound A nb Hnb). lia. }
  assert (Hy : nb * ((A + len + nb - 1) / nb) <= A + len + nb - 1) by (apply Z.mul_div_le; lia).
  assert (Hk1 : nb * (A / nb) <= nb * k) by (apply Z.mul_le_mono_nonneg_l; lia).
  assert (Hk2 : nb * (k + 1) <= nb * ((A + len + nb - 1) / nb)) by (apply Z.mul_le_mono_nonneg_l; lia).
  exists (Z.max A (nb * k)). split; [lia|]. f_equal. rewrite HL.
  assert (Hm : nb * k <= Z.max A (nb * k) < nb * k + nb).
  { split; [lia|]. destruct (Z.le_gt_cases A (nb * k)); [lia|]. assert (k = A / nb); [|subst k; lia].
    assert (k <= A / nb); [|lia]. apply Z.div_le_lower_bound; lia. }
  rewrite !(down_within nb q k); auto; lia.
Qed.
Lemma lread_calls_nth L cmd x : 0 < L -> 0 <= lr_len cmd -> lr_addr cmd <= x < lr_addr cmd + lr_len cmd ->
  nth_error (lite_read_calls L cmd) (Z.to_nat (x / L - lr_addr cmd / L)) = Some (down L x, L).
Proof.
  intros HL Hlen Hx. set (A := lr_addr cmd) in *. set (n := lr_len cmd) in *. unfold lite_read_calls. fold A n.
  assert (Hk0 : 0 <= x / L - A / L) by (assert (A / L <= x / L) by (apply Z.div_le_mono; lia); lia).
  assert (Hk1 : x / L < (A + n + L - 1) / L).
  { assert (H : (x + L) / L <= (A + n + L - 1) / L) by (apply Z.div_le_mono; lia). replace (x + L) with (x + 1 * L) in H by lia. rewrite Z.div_add in H; lia. }
  set (k := Z.to_nat (x / L - A / L)). rewrite (map_nth_error _ k (zrange (A / L) ((A + n + L - 1) / L)) (d := x / L)).
  - f_equal. f_equal. symmetry. apply down_eq. lia.
  - replace (x / L) with (A / L + Z.of_nat k) by (unfold k; lia).
    assert (Hkl : (k < length (zrange (A / L) ((A + n + L - 1) / L)))%nat) by (rewrite zrange_length; unfold k; lia).
    rewrite (nth_error_nth' _ 0 Hkl). f_equal. pose proof (znth_zrange0 0 (A / L) ((A + n + L - 1) / L) (Z.of_nat k) ltac:(unfold k; lia)) as Z0.
    unfold znth in Z0. now rewrite Nat2Z.id in Z0.
Qed.
Lemma lread_calls_touch L cmd e : 0 < L -> 0 < lr_len cmd -> In e (lite_read_calls L cmd) ->
  exists x, lr_addr cmd <= x < lr_addr cmd + lr_len cmd /\ e = (down L x, L).
Proof.
  intros HL Hlen He. unfold lite_read_calls in He. apply in_map_iff in He as (k & <- & Hk). apply in_zrange in Hk.
  set (A := lr_addr cmd) in *. set (n := lr_len cmd) in *.
  assert (Hx : L * (A / L) <= A < L * (A / L) + L).
  { pose proof (Z.div_mod A L ltac:(lia)). pose proof (Z.mod_pos_bound A L HL). lia. }
  assert (Hy : L * ((A + n + L - 1) / L) <= A + n + L - 1) by (apply Z.mul_div_le; lia).
  assert (Hk1 : L * (A / L) <= L * k) by (apply Z.mul_le_mono_nonneg_l; lia).
  assert (Hk2 : L * (k + 1) <= L * ((A + n + L - 1) / L)) by (apply Z.mul_le_mono_nonneg_l; lia).
  exists (Z.max A (L * k)). split; [lia|]. f_equal.
  assert (Hm : L * k <= Z.max A (L * k) < L * k + L).
  { split; [lia|]. destruct (Z.le_gt_cases A (L * k)); [lia|]. assert (k = A / L); [|subst k; lia].
    assert (k <= A / L); [|lia]. apply Z.div_le_lower_bound; lia. }
  unfold down. pose proof (Z.mod_unique_pos (Z.max A (L * k)) L k (Z.max A (L * k) - L * k) ltac:(lia) ltac:(lia)). lia.
Qed.

Section PartRead.
Context {T : Type}.
Variables (L : Z) (mp : Z -> bool) (phi : Z -> Z).
Hypothesis HL : 0 < L.
Hypothesis Hmp : of_words L mp.

Lemma part_reads m cs calls idx A n : map fst cs = calls -> Forall (part_word L mp phi m) cs ->
  (forall x, A <= x < A + n -> 0 <= idx x /\ nth_error calls (Z.to_nat (idx x)) = Some (down L x, L)) ->
  (forall e, In e calls -> exists x, A <= x < A + n /\ e = (down L x, L)) ->
  Forall rcall_ok cs /\ existsb rfailed cs = negb (forallb mp (zrange A (A + n))) /\
  map (fun x => call_byte (znth no_call cs (idx x)) x) (zrange A (A + n)) = part_data mp phi m A n.
Proof.
  intros Hc HW Hidx Htouch.
  assert (Hat : forall e, In e cs -> exists x, A <= x < A + n /\ fst e = (down L x, L)).
  { intros e He. apply Htouch. rewrite <- Hc. now apply in_map. }
  assert (Hmd : forall x, mp (down L x) = mp x) by (intros x; apply Hmp; now apply down_down).
  split; [|split].
  - apply (part_ok L mp phi HL m); auto. apply Forall_forall. intros e He. destruct (Hat e He) as (x & _ & ->). reflexivity.
  - rewrite Forall_forall in HW. destruct (forallb mp (zrange A (A + n))) eqn:E; cbn [negb].
    + apply not_true_is_false. intros K. apply existsb_exists in K as (e & He & K). rewrite (part_failed L mp phi m e (HW e He)) in K.
      destruct (Hat e He) as (x & Hx & Ee). rewrite Ee in K. cbn [fst] in K. rewrite Hmd in K. rewrite forallb_forall in E.
      rewrite E in K; [discriminate|]. apply in_zrange. lia.
    + apply not_false_is_true. intros K. assert (Hall : forallb mp (zrange A (A + n)) = true); [|congruence].
      apply forallb_forall. intros x Hx. apply in_zrange in Hx. destruct (Hidx x Hx) as [_ Hn]. rewrite <- Hc, nth_error_map in Hn.
      destruct (nth_error cs (Z.to_nat (idx x))) as [e|] eqn:Ee; [|discriminate]. injection Hn as Hn. apply nth_error_In in Ee.
      pose proof (part_failed L mp phi m e (HW e Ee)) as Hf. rewrite Hn in Hf. cbn [fst] in Hf. rewrite Hmd in Hf.
      destruct (mp x); auto. assert (existsb rfailed cs = true) by (apply existsb_exists; exists e; split; auto). congruence.
  - apply map_ext_in. intros x Hx. apply in_zrange in Hx. destruct (Hidx x Hx) as [H0 Hn]. rewrite <- Hc, nth_error_map in Hn.
    destruct (nth_error cs (Z.to_nat (idx x))) as [e|] eqn:Ee; [|discriminate]. injection Hn as Hn.
    replace (znth no_call cs (idx x)) with e by (unfold znth; symmetry; now apply nth_error_nth).
    apply (part_byte L mp phi HL Hmp m e x).
    + rewrite Forall_forall in HW. apply HW. eapply nth_error_In; eauto.
    + rewrite Hn. cbn [fst]. now apply down_le.
    + rewrite Hn. cbn [fst]. now apply down_mod.
Qed.
End PartRead.

(** ** operations one after the other (APB) *)
Section PartSeq.
Context {T : Type}.
Variables (L lo hi : Z) (mp : Z -> bool) (phi : Z -> Z) (inv : T -> Prop) (view : T -> flat).
Variable tw : T -> Z -> list Z -> T * res unit.
Variable tr : T -> Z -> Z -> T * res (list Z).
Hypothesis Hpt : part_target L lo hi mp phi inv view tw tr.
Hypothesis HL : 0 < L.
Hypothesis Hmp : of_words L mp.
Hypothesis Hlo : lo mod L = 0.
Hypothesis Hhi : hi mod L = 0.
Notation mpp := (fun p : Z * Z => mp (fst p)) (only parsing).

Lemma perform_unlog ops : forall t log, sw_perform tw t ops = (fst (fst (sw_perform (log_write tw) (t, log) ops)), snd (sw_perform (log_write tw) (t, log) ops)).
Proof.
  induction ops as [|[a d] ops IH]; intros t log; cbn [sw_perform]; [reflexivity|].
  unfold log_write at 1 3. cbn [fst snd]. destruct (tw t a d) as [t1 [[]|e]]; [|reflexivity]. apply IH.
Qed.
Lemma lsw_unlog a w t log : lite_sw tw L true a w t = (fst (fst (lite_sw (log_write tw) L true a w (t, log))), snd (lite_sw (log_write tw) L true a w (t, log))).
Proof.
  unfold lite_sw. destruct (to_bytes _ _ _) as [data|e]; [|reflexivity]. cbv zeta. rewrite (perform_unlog _ t log).
  destruct (sw_perform (log_write tw) (t, log) _) as [[t1 l1] r]. reflexivity.
Qed.
Lemma lsws_log pairs : forall t, Forall (fun p => 0 <= lw_data (snd p) < 256 ^ L) pairs ->
  exists t' ans, lite_slave_write tw L true (map fst pairs) (map snd pairs) t = (t', map (fun x => if existsb failed x then SLVERR else OKAY) ans, Ok ([], [])) /\
    Forall2 (fun p x => lite_calls L true (fst p) (snd p) x) pairs ans /\ Forall (call_ok L) (concat ans) /\ replays tw t (concat ans) t'.
Proof.
  induction pairs as [|[a w] pairs IH]; intros t Hw; cbn [map fst snd lite_slave_write].
  - exists t, []. repeat split; constructor.
  - inversion Hw as [|? ? Hw0 Hw1]; subst. cbn [snd] in Hw0.
    destruct (lite_sw_any tw L HL true a w t [] Hw0) as (t1 & new & E1 & Hc). pose proof (lsw_log tw L HL a w t []) as K. rewrite E1 in K.
    destruct K as (new' & En & K1 & K2). cbn [app] in En. subst new'. rewrite (lsw_unlog a w t []), E1. cbn [fst snd].
    destruct (IH t1 Hw1) as (t2 & ans & E2 & I1 & I2 & I3). rewrite E2. exists t2, (new :: ans). split; [reflexivity|]. split; [constructor; auto|].
    cbn [concat]. split; [now apply Forall_app|]. eapply replays_app; eauto.
Qed.

Lemma lw_part cmd t : are_bytes (lc_data cmd) -> lo <= lc_addr cmd -> lc_addr cmd + zlen (lc_data cmd) <= hi -> inv t ->
  let evs := fst (lite_write L cmd) in
  exists t' bs, lite_slave_write tw L true (law_of evs) (lw_of evs) t = (t', bs, Ok ([], [])) /\ inv t' /\
    view t' =f put phi (view t) (filter mpp (addressed (lc_addr cmd) (lc_data cmd))) /\
    lite_write_resp bs = part_resp mp (lc_addr cmd) (zlen (lc_data cmd)).
Proof.
  destruct cmd as [A D prot]. cbv zeta. cbn [lc_addr lc_data]. intros HD H1 H2 Hi.
  rewrite lite_write_spec by auto. cbn [fst]. rewrite law_of_pairs, lw_of_pairs. pose proof (zlen_nonneg D) as Hn.
  set (pairs := map (fun x => (lw_a L A prot x, lw_w L A D x)) (zrange 0 (lite_cycles L A (zlen D)))).
  assert (E1 : map (lw_a L A prot) (zrange 0 (lite_cycles L A (zlen D))) = map fst pairs) by (unfold pairs; rewrite map_map; reflexivity).
  assert (E2 : map (lw_w L A D) (zrange 0 (lite_cycles L A (zlen D))) = map snd pairs) by (unfold pairs; rewrite map_map; reflexivity).
  pose proof (lite_bytes_spec L A prot D HL HD) as HB. unfold lite_bytes in HB. rewrite E1, E2 in *. clear E1 E2.
  assert (HB' : flat_map (fun p => lite_strobed L (fst p) (snd p)) pairs = addressed A D).
  { rewrite <- HB. clear. induction pairs as [|[a w] l IH]; cbn; congruence. }
  destruct (lsws_log pairs t) as (t' & ans & E & HF & Hc & Hr).
  { apply Forall_forall. intros q Hq. apply in_map_iff in Hq as (k & <- & Hk). apply in_zrange in Hk. apply lw_w_fits; auto. }
  exists t'. eexists. split; [exact E|].
  assert (K : incl (calls_bytes (concat ans)) (addressed A D) /\ (existsb failed (concat ans) = false -> calls_bytes (concat ans) = addressed A D) /\
              spared L (concat ans) (addressed A D)).
  { rewrite <- HB'. clear - HF HL. induction HF as [|p x ws ans ((rest & Hs & Hr) & Hne) HA (I1 & I2 & I3)]; [split; [intros ? []|split; [reflexivity|apply spared_nil]]|].
    cbn [flat_map concat]. rewrite calls_bytes_app. destruct p as [a [d sb]]. cbn [fst snd lw_data lw_strb] in Hs, Hr |- *.
    split; [|split]; [| |apply spared_app; auto; eapply spared_word; eauto; exact (strobed_word L (la_addr a) (lw_wch {| lw_data := d; lw_strb := sb |}) HL)]; rewrite Hs.
    + apply incl_app; intros z Hz; rewrite !in_app_iff; auto.
    + rewrite existsb_app. intros Hf. apply orb_false_iff in Hf as [F1 F2]. rewrite (Hr F1), app_nil_r. f_equal. now apply I2. }
  destruct K as (K1 & K2 & K3).
  destruct (replays_part L lo hi mp phi inv view tw tr Hpt HL Hmp _ t t' Hi Hc) as (F & Hi' & Hv); auto.
  { apply Forall_forall. intros p Hp. apply K1 in Hp. apply in_addressed in Hp. lia. }
  destruct (op_part L mp HL Hmp A D _ F Hc K1 K2 K3) as [P1 P2]. split; [exact Hi'|]. split; [now rewrite <- P2|].
  unfold lite_write_resp, part_resp. rewrite agg_slv.
  - replace (existsb rerr _) with (existsb failed (concat ans)); [rewrite P1; now destruct (forallb mp _)|].
    clear. induction ans as [|x ans IH]; [reflexivity|]. cbn [concat map existsb]. rewrite existsb_app, IH. now destruct (existsb failed x).
  - clear. induction ans; cbn; constructor; auto. destruct (existsb failed a); auto.
Qed.

Lemma lsr_log ars : forall t, exists t' cs, lite_slave_read tr L ars t = (t', map lanswer cs) /\
  map fst cs = map (fun a => (down L (la_addr a), L)) ars /\ rreplays tr t cs t'.
Proof.
  induction ars as [|a ars IH]; intros t; cbn [lite_slave_read].
  - exists t, []. repeat split.
  - unfold lite_sr. rewrite (div_mul_down L (la_addr a)) by lia. destruct (tr t (down L (la_addr a)) L) as [t1 r] eqn:E.
    destruct (IH t1) as (t2 & cs & E2 & H1 & H2). exists t2, ((down L (la_addr a), L, r) :: cs). destruct r as [d|e]; rewrite E2.
    all: split; [cbn [map]; unfold lanswer at 2; cbn [snd]; rewrite ?le_int_zeros; reflexivity|]. all: split; [cbn [map fst]; now rewrite H1|]. all: cbn [rreplays]; rewrite E; auto.
Qed.
Lemma lr_part cmd t : 0 < lr_len cmd -> lo <= lr_addr cmd -> lr_addr cmd + lr_len cmd <= hi -> inv t ->
  exists t' rs, lite_slave_read tr L (lite_read L cmd) t = (t', rs) /\ inv t' /\ view t' =f view t /\
    lite_read_resp L cmd rs = (part_data mp phi (view t) (lr_addr cmd) (lr_len cmd), part_resp mp (lr_addr cmd) (lr_len cmd)).
Proof.
  intros Hn Ha Hb Hi. destruct (lsr_log (lite_read L cmd) t) as (t' & cs & E & Hc & Hr). exists t', (map lanswer cs). split; [exact E|].
  assert (HF : lite_fetched L (0, cmd) (map lanswer cs, cs)).
  { destruct cmd as [A n prot]. cbn [lr_len lr_addr] in *.
    assert (Hw : map fst cs = map (fun j => (L * (A / L) + j * L, L)) (zrange 0 (lite_cycles L A n))).
    { rewrite Hc. unfold lite_read. cbn [lr_addr lr_len]. rewrite map_map. cbn [la_addr]. apply map_ext_in. intros j Hj'. apply in_zrange in Hj'.
      f_equal. apply (lg_cycle L A n HL ltac:(lia) j Hj'). }
    unfold lite_fetched. cbn [snd lr_addr lr_len]. split; [|split].
    + unfold lite_read_calls. cbn [lr_addr lr_len]. rewrite read_words by (auto; lia). exact Hw.
    + unfold lite_read_resp. rewrite lite_read_loop_resp, map_map. rewrite agg_slv.
      * replace (existsb rerr _) with (existsb rfailed cs); [reflexivity|]. clear. induction cs as [|e cs IH]; [reflexivity|].
        cbn [map existsb]. rewrite <- IH. unfold rfailed, lanswer. cbn [lr_resp]. now destruct (is_err (snd e)).
      * rewrite Forall_map. apply Forall_forall. intros e _. unfold lanswer. cbn [lr_resp]. destruct (is_err (snd e)); auto.
    + intros Hcok. apply resp_data; auto; lia. }
  destruct HF as (F1 & F2 & F3). cbn [snd] in *.
  assert (Hrg : Forall (fun e : rcall => lo <= fst (fst e) /\ fst (fst e) + L <= hi /\ fst (fst e) mod L = 0 /\ snd (fst e) = L) cs).
  { pose proof (lite_read_calls_range L cmd lo hi HL ltac:(lia) Hlo Hhi ltac:(lia) Hb) as K. rewrite <- F1, Forall_map in K. exact K. }
  destruct (rreplays_part L lo hi mp phi inv view tw tr Hpt HL Hmp cs t t' Hi Hrg Hr) as (HW & Hi' & Hv).
  split; [exact Hi'|]. split; [exact Hv|].
  destruct (part_reads L mp phi HL Hmp (view t) cs (lite_read_calls L cmd) (fun x => x / L - lr_addr cmd / L) (lr_addr cmd) (lr_len cmd) F1 HW) as (P1 & P2 & P3).
  { intros x Hx. split; [assert (lr_addr cmd / L <= x / L) by (apply Z.div_le_mono; lia); lia|]. apply lread_calls_nth; auto; lia. }
  { intros e He. now apply lread_calls_touch. }
  rewrite (surjective_pairing (lite_read_resp L cmd _)). rewrite F2, (F3 P1), P2, P3. unfold part_resp. now destruct (forallb mp _).
Qed.
End PartSeq.
