(** Invariants of ApbMaster and ApbSlave on one reset. *)
From Coq Require Import ZArith Lia List Bool.
From Coq Require Import ZifyBool ZifyNat.
From Verif Require Import Py S_flat M_axi S_axi P_axi P_axislave P_axiop P_axicomp M_axil S_axil P_axil M_apb S_apb P_apb P_apbsys P_apbmem P_apblife M_rstapb S_rstapb.
Import ListNotations.
Open Scope Z_scope.

Section Rst.
Context {T : Type}.
Variable tw : T -> Z -> list Z -> T * res unit.
Variable tr : T -> Z -> Z -> T * res (list Z).
Variables (L : Z) (ep : bool).
Hypothesis HL : 0 < L.

(** current_command is the operation in work, else the one completed last *)
Definition lastdone (c : option aop) (se : list (aop * option aresp)) : option aop := last (map (fun e => Some (fst e)) se) c.
Definition curinv (m : apb) (se : list (aop * option aresp)) : Prop :=
  match b_task m with
  | APaus r | ASetup r | AAcc r => b_cur m = Some (ru_op r)
  | AKill | ADead => True
  | _ => b_cur m = lastdone None se
  end.
Lemma last_app {A} (a b : list A) d : last (a ++ b) d = last b (last a d).
Proof.
  revert d. induction a as [|x a IH]; intros d; cbn [app]; auto. destruct a as [|y a].
  - cbn [app]. destruct b as [|z b]; [reflexivity|]. change (last (x :: z :: b) d) with (last (z :: b) d). cbn [last].
    assert (K : forall (b : list A) z d d', last (z :: b) d = last (z :: b) d') by (clear; induction b as [|w b IH]; intros; [reflexivity|]; cbn; apply (IH w)). apply (K b z).
  - change (last (x :: (y :: a) ++ b) d) with (last ((y :: a) ++ b) d). rewrite IH. reflexivity.
Qed.
Lemma lastdone_app c a b : lastdone c (a ++ b) = lastdone (lastdone c a) b.
Proof. unfold lastdone. rewrite map_app. apply last_app. Qed.
Lemma lastdone_snoc c a x d : lastdone c (a ++ [(x, d)]) = Some x.
Proof. rewrite lastdone_app. reflexivity. Qed.

Lemma a_beat_cur p s x k off d r : b_cur s = Some x -> curinv (fst (a_beat L p s x k off d r)) (sets (snd (a_beat L p s x k off d r))).
Proof. intros H. unfold a_beat. destruct (a_word _ _ _ _) as [[w o]|]; [|exact I]. destruct p; cbn; exact H. Qed.
Lemma a_loop_cur p q : forall s se, b_cur s = lastdone None se -> curinv (fst (a_loop L p q s)) (se ++ sets (snd (a_loop L p q s))).
Proof.
  induction q as [|x q IH]; intros s se H; cbn [a_loop].
  - cbn. now rewrite app_nil_r.
  - destruct (0 <? _).
    + pose proof (a_beat_cur p (b_set_cur (b_set_q s q) (Some x)) x 0 0 [] OKAY eq_refl) as K. unfold a_beat in *.
      destruct (a_word _ _ _ _) as [[w o]|]; [|exact I]. destruct p; cbn; reflexivity.
    + set (d := a_result _ _ _). specialize (IH (b_complete (b_set_cur (b_set_q s q) (Some x)) x d) (se ++ [(x, Some d)])).
      destruct (a_loop L p q _) as [s2 o]. cbn [fst snd sets] in *. rewrite <- app_assoc in IH. apply IH. cbn. now rewrite lastdone_snoc.
Qed.
Lemma a_edge_cur p pr pd pe m se : curinv m se -> curinv (fst (a_edge L ep p pr pd pe m)) (se ++ sets (snd (a_edge L ep p pr pd pe m))).
Proof.
  unfold curinv at 1. unfold a_edge. destruct (b_task m) as [| | |x|r|r|r|] eqn:Et; intros H; cbn [fst snd sets]; rewrite ?app_nil_r; auto.
  - unfold curinv. rewrite Et. exact I.
  - apply a_loop_cur. exact H.
  - unfold curinv. rewrite Et. exact H.
  - apply (a_loop_cur p (x :: b_q m)). exact H.
  - destruct p; unfold curinv; [rewrite Et; exact H|cbn; exact H].
  - destruct pr; [|cbn; unfold curinv; rewrite Et, ?app_nil_r; exact H]. unfold a_ack. cbv zeta. destruct (_ <? _).
    + unfold a_beat. destruct (a_word _ _ _ _) as [[w o]|]; [|exact I]. destruct p; cbn; exact H.
    + set (d := a_result _ _ _). set (s1 := b_set_sig _ _ _ _). pose proof (a_loop_cur p (b_q s1) (b_complete s1 (ru_op r) d) (se ++ [(ru_op r, Some d)])) as K.
      destruct (a_loop L p _ _) as [s2 o]. cbn [fst snd sets] in *. rewrite <- app_assoc in K. apply K. cbn. rewrite lastdone_snoc. exact H.
  - unfold curinv. rewrite Et. exact I.
Qed.
Lemma k_step_cur (y : asys T) o se : no_reset o -> curinv (k_m y) se -> curinv (k_m (fst (k_step tw tr L ep y o))) (se ++ sets (snd (k_step tw tr L ep y o))).
Proof.
  intros Hn H. destruct o as [[c|c|n| |n|p pr pd pe|b]|mp sp|b]; try destruct Hn; cbn [k_step b_step].
  - cbn. rewrite app_nil_r. exact H.
  - cbn. rewrite app_nil_r. exact H.
  - destruct (nth_error _ _); cbn; rewrite app_nil_r; exact H.
  - unfold curinv in H. destruct (b_task (k_m y)) eqn:Et; try (cbn; rewrite app_nil_r; unfold curinv; rewrite Et; exact H).
    destruct (b_q (k_m y)); cbn; rewrite app_nil_r; unfold curinv; cbn; rewrite ?Et; exact H.
  - destruct (nth_error _ _) as [[x [d|]]|]; cbn; rewrite app_nil_r; exact H.
  - cbn. rewrite app_nil_r. exact H.
  - pose proof (a_edge_cur mp (v_pready (k_s y)) (v_prdata (k_s y)) (v_pslverr (k_s y)) (k_m y) se H) as K.
    destruct (a_edge _ _ _ _ _ _ _) as [m os]. exact K.
Qed.

(** ** since the last time reset was asserted (or since the start), with the target t0 of that moment *)
Definition dead (y : asys T) (t0 : T) (ops : list aop) (se : list (aop * option aresp)) : Prop :=
  b_task (k_m y) = AKill /\ v_task (k_s y) = VKill /\ v_pready (k_s y) = false /\ b_psel (k_m y) = false /\ b_penable (k_m y) = false /\
  b_cur (k_m y) = None /\ b_q (k_m y) = ops /\ se = [] /\ v_t (k_s y) = t0.
Definition yinv (t0 : T) (y : ysys T) (ops : list aop) (se : list (aop * option aresp)) : Prop :=
  if snd y then Forall (fun x => op_ok (snd x)) ops /\ Forall op_ok (b_pend (k_m (fst y))) /\ dead (fst y) t0 ops se
  else sinv L ep tw tr t0 (fst y) ops se /\ curinv (k_m (fst y)) se.


Lemma dead_step (y : asys T) t0 ops o : no_reset o -> kop_ok o -> Forall (fun x => op_ok (snd x)) ops -> Forall op_ok (b_pend (k_m y)) -> dead y t0 ops [] ->
  let '(y', os) := k_step tw tr L ep y o in
  sets os = [] /\ Forall (fun x => op_ok (snd x)) (ops ++ starts os) /\ Forall op_ok (b_pend (k_m y')) /\ dead y' t0 (ops ++ starts os) [].
Proof.
  intros Hn Hk Ho Hp (D1 & D2 & D3 & D4 & D5 & D6 & D7 & _ & D8). unfold dead.
  destruct o as [[c|c|n| |n|p pr pd pe|b]|mp sp|b]; try destruct Hn; cbn [k_step b_step].
  - cbn. rewrite D7. split; [auto|]. split; [apply Forall_app; auto|]. auto 12.
  - cbn. rewrite app_nil_r. split; [auto|]. split; [auto|]. split; [apply Forall_app; auto|]. auto 12.
  - destruct (nth_error (b_pend (k_m y)) n) as [c|] eqn:En; [|cbn; rewrite app_nil_r; auto 12].
    assert (Hc : op_ok c) by (rewrite Forall_forall in Hp; apply Hp; eapply nth_error_In; eauto).
    cbn. rewrite D7. split; [auto|]. split; [apply Forall_app; auto|]. split; [|auto 12].
    apply Forall_app. split; apply Forall_forall; intros z Hz; rewrite Forall_forall in Hp; apply Hp.
    + rewrite <- (firstn_skipn n (b_pend (k_m y))). apply in_or_app. auto.
    + rewrite <- (firstn_skipn (S n) (b_pend (k_m y))). apply in_or_app. auto.
  - rewrite D1. cbn. rewrite app_nil_r. auto 12.
  - destruct (nth_error _ _) as [[x [d|]]|]; cbn; rewrite app_nil_r; auto 12.
  - cbn. rewrite app_nil_r. auto 12.
  - unfold a_edge. rewrite D1. unfold v_edge. rewrite D2. cbn. rewrite app_nil_r. auto 12.
Qed.

Lemma y_step_inv t0 y o ops se : yinv t0 y ops se -> no_assert o -> yop_ok o ->
  let '(y', os) := y_step tw tr L ep y o in yinv t0 y' (ops ++ starts os) (se ++ sets os).
Proof.
  intros Hi Hn Hk. destruct y as [k on]. unfold yinv in Hi. cbn [fst snd] in Hi.
  assert (HK : forall o, no_reset o -> kop_ok o -> let '(k', os) := k_step tw tr L ep k o in yinv t0 (k', on) (ops ++ starts os) (se ++ sets os)).
  { intros o' Hn' Hk'. destruct on.
    - destruct Hi as (H1 & H2 & H3). assert (se = []) as -> by apply H3. pose proof (dead_step k t0 ops o' Hn' Hk' H1 H2 H3) as K.
      destruct (k_step _ _ _ _ _ _) as [k' os]. destruct K as (E & K1 & K2 & K3). rewrite E. unfold yinv. cbn [fst snd]. auto.
    - destruct Hi as [H1 H2]. pose proof (k_step_inv L ep HL tw tr t0 k o' ops se H1 Hn' Hk') as K1. pose proof (k_step_cur k o' se Hn' H2) as K2.
      destruct (k_step _ _ _ _ _ _) as [k' os]. cbn [fst snd] in *. unfold yinv. cbn [fst snd]. auto. }
  destruct o as [o|b].
  - assert (Hsame : yinv t0 (k, on) (ops ++ starts []) (se ++ sets [])) by (cbn [starts sets]; rewrite !app_nil_r; exact Hi).
    cbn [y_step fst snd]. destruct o as [[c|c|n| |n|p pr pd pe|b]|mp sp|b]; try exact Hsame;
      match goal with |- context [k_step tw tr L ep k ?o] => specialize (HK o I Hk); destruct (k_step tw tr L ep k o); exact HK end.
  - destruct b; [destruct Hn|]. cbn [y_step fst snd]. destruct on; cbn [Bool.eqb].
    + cbn [a_reset]. destruct Hi as (H1 & H2 & (D1 & D2 & D3 & D4 & D5 & D6 & D7 & -> & D8)). rewrite D1. cbn [starts sets]. rewrite !app_nil_r.
      unfold yinv. cbn [fst snd]. split; [|cbn; exact D6]. split; [exact H1|]. split; [exact H2|]. left. cbn [k_s k_m]. unfold v_reset. rewrite D2. cbn.
      split; [reflexivity|]. split; [reflexivity|]. exists [], t0. cbn. auto.
    + cbn. rewrite !app_nil_r. exact Hi.
Qed.
Lemma y_run_inv t0 h : forall y ops se, yinv t0 y ops se -> Forall no_assert h -> Forall yop_ok h ->
  let '(y', os) := y_run tw tr L ep y h in yinv t0 y' (ops ++ starts os) (se ++ sets os).
Proof.
  induction h as [|o h IH]; intros y ops se Hi Hn Hk; cbn [y_run].
  - cbn. now rewrite !app_nil_r.
  - apply Forall_cons_iff in Hn as [Hn Hn']. apply Forall_cons_iff in Hk as [Hk Hk'].
    pose proof (y_step_inv t0 y o ops se Hi Hn Hk) as H1. destruct (y_step tw tr L ep y o) as [y1 o1].
    specialize (IH y1 _ _ H1 Hn' Hk'). destruct (y_run tw tr L ep y1 h) as [y2 o2].
    rewrite starts_app, sets_app, !app_assoc. exact IH.
Qed.
Lemma y_init_inv t0 : yinv t0 (y_init t0) [] [].
Proof. unfold yinv, y_init. cbn [fst snd]. split; [apply sys0_inv|reflexivity]. Qed.

(** reset is asserted *)
Lemma y_assert_inv t0 k ops se : yinv t0 (k, false) ops se ->
  let '(y', os) := y_step tw tr L ep (k, false) (YReset true) in
  yinv (v_t (k_s k)) y' [] [] /\ snd y' = true /\ v_t (k_s (fst y')) = v_t (k_s k) /\ b_pend (k_m (fst y')) = b_pend (k_m k) /\ b_is_idle (k_m (fst y')) = true /\ b_idle (k_m (fst y')) = true /\
  starts os = [] /\ sets os = map (fun x => (x, None)) (b_q (k_m k) ++ match b_cur (k_m k) with Some x => [x] | None => [] end).
Proof.
  intros [(H1 & H2 & _) _]. cbn [y_step fst snd Bool.eqb a_reset]. cbn [k_m fst] in *. split; [|split; [reflexivity|split; [reflexivity|split; [reflexivity|split; [reflexivity|split; [reflexivity|]]]]]].
  - unfold yinv. cbn [fst snd]. split; [constructor|]. split; [exact H2|]. unfold dead. cbn. auto 12.
  - split; [apply flush_starts|apply flush_sets].
Qed.

(** whatever happened, there is a moment and a target since which the invariant holds *)
Lemma y_run_reach h : forall t0 y ops se, yinv t0 y ops se -> Forall yop_ok h -> exists t1 ops' se', yinv t1 (fst (y_run tw tr L ep y h)) ops' se'.
Proof.
  induction h as [|o h IH]; intros t0 y ops se Hi Hk; cbn [y_run]; [eauto|].
  apply Forall_cons_iff in Hk as [Ho Hk].
  assert (H1 : exists t1 ops' se', yinv t1 (fst (y_step tw tr L ep y o)) ops' se').
  { assert (Hd : no_assert o \/ o = YReset true) by (destruct o as [|[]]; cbn; auto). destruct Hd as [Hn| ->].
    - pose proof (y_step_inv t0 y o ops se Hi Hn Ho) as K. destruct (y_step tw tr L ep y o). eauto.
    - destruct y as [k [|]]; [exists t0, ops, se; exact Hi|]. pose proof (y_assert_inv t0 k ops se Hi) as K. destruct (y_step tw tr L ep (k, false) (YReset true)). destruct K as (K & _). eauto. }
  destruct H1 as (t1 & ops1 & se1 & H1). destruct (y_step tw tr L ep y o) as [y1 o1]. specialize (IH t1 y1 ops1 se1 H1 Hk).
  destruct (y_run tw tr L ep y1 h). exact IH.
Qed.
Lemma y_run_app h1 : forall h2 y, y_run tw tr L ep y (h1 ++ h2) =
  let '(y1, o1) := y_run tw tr L ep y h1 in let '(y2, o2) := y_run tw tr L ep y1 h2 in (y2, o1 ++ o2).
Proof.
  induction h1 as [|o h1 IH]; intros h2 y; cbn [app y_run].
  - destruct (y_run tw tr L ep y h2). reflexivity.
  - destruct (y_step tw tr L ep y o) as [y1 o1]. rewrite IH. destruct (y_run tw tr L ep y1 h1) as [y2 o2].
    destruct (y_run tw tr L ep y2 h2). now rewrite app_assoc.
Qed.
Lemma y_run_k h : Forall no_reset h -> forall k on, y_run tw tr L ep (k, on) (map YOp h) = let '(k', o) := k_run tw tr L ep k h in ((k', on), o).
Proof.
  induction h as [|o h IH]; intros Hn k on; cbn [map y_run k_run]; auto. apply Forall_cons_iff in Hn as [Hn Hh].
  assert (E : y_step tw tr L ep (k, on) (YOp o) = let '(k', os) := k_step tw tr L ep k o in ((k', on), os)).
  { destruct o as [[]| |]; try destruct Hn; reflexivity. }
  rewrite E. destruct (k_step tw tr L ep k o) as [k1 o1]. rewrite IH by auto. destruct (k_run tw tr L ep k1 h). reflexivity.
Qed.

(** ** what the invariant says about the completed operations *)
Lemma serve_take t0 done rest t1 se : serve_all tw tr L ep t0 done = (t1, se) ->
  length se = length done /\ se = firstn (length done) (snd (serve_all tw tr L ep t0 (done ++ rest))) /\ fst (serve_all tw tr L ep t0 (firstn (length done) (done ++ rest))) = t1 /\
  map fst se = done.
Proof.
  intros E. pose proof (serve_all_len L ep tw tr done t0) as Hl. rewrite E in Hl. cbn [snd] in Hl. split; [exact Hl|].
  rewrite serve_all_app, E. destruct (serve_all tw tr L ep t1 rest) as [t2 rs]. cbn [snd]. rewrite <- Hl.
  split; [now rewrite firstn_app, Nat.sub_diag, firstn_O, app_nil_r, firstn_all|]. split.
  - rewrite Hl, firstn_app, Nat.sub_diag, firstn_O, app_nil_r, firstn_all, E. reflexivity.
  - clear Hl. revert t0 t1 se E. induction done as [|x done IH]; intros t0 t1 se E; cbn [serve_all] in E; [injection E as _ <-; reflexivity|].
    destruct (apb_serve tw tr L ep t0 (snd x)) as [ta r]. destruct (serve_all tw tr L ep ta done) as [tb rs'] eqn:Es. injection E as _ <-. cbn [map fst]. f_equal. eapply IH; eauto.
Qed.

(** the three places where a reset can hit the running master *)
Definition flushed (m : apb) (ops : list aop) (n : nat) : Prop :=
  let again := last_of n ops in
  exists fl, b_q m ++ match b_cur m with Some x => [x] | None => [] end = fl /\
  ((fl = skipn n ops ++ again) \/
   (exists x, skipn n ops = x :: b_q m /\ fl = b_q m ++ [x]) \/
   (exists x, b_task m = AGot x /\ skipn n ops = x :: b_q m /\ fl = b_q m ++ again)).
Lemma last_of_done n (se : list (aop * option aresp)) : length se = n ->
  firstn 1 (skipn (n - 1) (map fst se)) = match lastdone None se with Some x => [x] | None => [] end.
Proof.
  intros <-. destruct se as [|e se] using rev_ind; [reflexivity|]. rewrite map_app, app_length. cbn [length map].
  replace (length se + 1 - 1)%nat with (length (map fst se)) by (rewrite map_length; lia). rewrite skipn_app, skipn_all, Nat.sub_diag. destruct e as [x d]. now rewrite lastdone_snoc.
Qed.
Lemma part_0 t c : apb_part tw tr L t c 0 = t.
Proof. unfold apb_part. destruct c; cbn; auto. Qed.
Lemma sinv_view t0 y ops se : sinv L ep tw tr t0 y ops se -> curinv (k_m y) se ->
  exists n j, (n <= length ops)%nat /\ length se = n /\ se = firstn n (snd (serve_all tw tr L ep t0 ops)) /\
    v_t (k_s y) = match nth_error ops n with
                  | Some x => apb_part tw tr L (fst (serve_all tw tr L ep t0 (firstn n ops))) (snd x) j
                  | None => fst (serve_all tw tr L ep t0 ops)
                  end /\
    flushed (k_m y) ops n.
Proof.
  intros (Hok & _ & Hi) Hc. destruct y as [m v]. cbn [k_m k_s] in *.
  assert (HG : forall done rest t1, serve_all tw tr L ep t0 done = (t1, se) -> ops = done ++ rest ->
    (length done <= length ops)%nat /\ length se = length done /\ se = firstn (length done) (snd (serve_all tw tr L ep t0 ops)) /\
    fst (serve_all tw tr L ep t0 (firstn (length done) ops)) = t1 /\ skipn (length done) ops = rest /\ nth_error ops (length done) = hd_error rest /\ map fst se = firstn (length done) ops).
  { intros done rest t1 E ->. destruct (serve_take t0 done rest t1 se E) as (A & B & C & D). rewrite app_length. repeat (split; [auto; lia|]).
    split; [now rewrite skipn_app, skipn_all, Nat.sub_diag|]. rewrite nth_error_app2, Nat.sub_diag, firstn_app, Nat.sub_diag, firstn_O, app_nil_r, firstn_all by lia.
    split; [destruct rest; reflexivity|exact D]. }
  assert (again_eq : forall done rest t1, serve_all tw tr L ep t0 done = (t1, se) -> ops = done ++ rest ->
    last_of (length done) ops = match lastdone None se with Some x => [x] | None => [] end).
  { intros done rest t1 E1 E2. destruct (HG _ _ _ E1 E2) as (_ & A & _ & _ & _ & _ & E3). unfold last_of. rewrite <- E3. apply last_of_done. lia. }
  assert (At : forall r t1 t, at_word L ep tw tr r t1 t -> apb_part tw tr L t1 (snd (ru_op r)) (Z.to_nat (ru_k r)) = t).
  { intros r t1 t (Hx & Hk & _ & _ & d & rs & Hp & _). eapply prog_part; eauto. lia. }
  destruct Hi as [(H1 & H2 & done & t1 & Hs & Hm)|(done & t1 & r & Hs & Ht & Hops & Hw & Hm)].
  - unfold curinv in Hc. destruct (b_task m) as [| | |x|r|r|r|] eqn:Et; try destruct Hm as [Hm Hm']; try contradiction;
      destruct (HG done _ t1 Hs Hm) as (A & B & C & D & E & F & G); pose proof (again_eq done _ t1 Hs Hm) as Ha.
    + exists (length done), 0%nat. repeat (split; [assumption|]). destruct Hm' as [Hv _]. rewrite D, F, Hv. split.
      * destruct (b_q m) as [|a q'] eqn:Eq; cbn [hd_error].
        -- rewrite app_nil_r in Hm. rewrite Hm, Hs. reflexivity.
        -- symmetry. apply part_0.
      * unfold flushed. rewrite Ha, E, Hc. eauto.
    + exists (length done), 0%nat. repeat (split; [assumption|]). destruct Hm' as [Hv _]. rewrite D, F, Hv. split.
      * destruct (b_q m) as [|a q'] eqn:Eq; cbn [hd_error].
        -- rewrite app_nil_r in Hm. rewrite Hm, Hs. reflexivity.
        -- symmetry. apply part_0.
      * unfold flushed. rewrite Ha, E, Hc. eauto.
    + exists (length done), 0%nat. repeat (split; [assumption|]). destruct Hm' as [Hv _]. rewrite D, F, Hv. split.
      * cbn [hd_error]. symmetry. apply part_0.
      * unfold flushed. rewrite Ha, E, Hc. eexists. split; [reflexivity|]. right. right. exists x. auto.
    + exists (length done), (Z.to_nat (ru_k r)). repeat (split; [assumption|]). rewrite D, F. cbn [hd_error]. destruct Hm' as [Hv _]. split; [symmetry; now apply At|].
      unfold flushed. rewrite Ha, E, Hc. eexists. split; [reflexivity|]. right. left. eauto.
    + exists (length done), (Z.to_nat (ru_k r)). repeat (split; [assumption|]). rewrite D, F. cbn [hd_error]. destruct Hm' as [Hv _]. split; [symmetry; now apply At|].
      unfold flushed. rewrite Ha, E, Hc. eexists. split; [reflexivity|]. right. left. eauto.
  - unfold curinv in Hc. rewrite Ht in Hc. destruct (HG done _ t1 Hs Hops) as (A & B & C & D & E & F & G). pose proof (again_eq done _ t1 Hs Hops) as Ha.
    assert (HF : flushed m ops (length done)) by (unfold flushed; rewrite Ha, E, Hc; eexists; split; [reflexivity|]; right; left; eauto).
    destruct Hm as [(_ & _ & Hat)|(_ & _ & tk & x & e & (Hx & Hk & Hoff & Hwd & d & rs & Hp & _) & Hacc & _)].
    + exists (length done), (Z.to_nat (ru_k r)). repeat (split; [assumption|]). rewrite D, F. cbn [hd_error]. split; [symmetry; now apply At|exact HF].
    + exists (length done), (Z.to_nat (ru_k r + 1)). repeat (split; [assumption|]). rewrite D, F. cbn [hd_error]. split; [|exact HF].
      destruct (prog_S L HL tw tr _ _ _ _ _ _ Hx Hk Hp) as (t2 & x' & e' & Hacc' & Hp' & _). rewrite <- Hwd, Hacc in Hacc'.
      injection Hacc' as <- <- <-. symmetry. eapply prog_part; eauto. lia.
Qed.

(** ** a byte memory as target *)
Section Mem.
Variables (lo hi : Z) (phi : Z -> Z) (inv : T -> Prop) (view : T -> flat).
Hypothesis Hft : flat_target L lo hi phi inv view tw tr.
Hypothesis Hlo : lo mod L = 0.
Hypothesis Hhi : hi mod L = 0.

Lemma flat_map_firstn {A B} (f : A -> list B) j : forall l, exists m, flat_map f (firstn j l) = firstn m (flat_map f l).
Proof.
  induction j as [|j IH]; intros l; [exists 0%nat; reflexivity|]. destruct l as [|x l]; [exists 0%nat; reflexivity|]. cbn [firstn flat_map].
  destruct (IH l) as (m & ->). exists (length (f x) + m)%nat. now rewrite firstn_app_2.
Qed.
Lemma firstn_combine {A B} m : forall (a : list A) (b : list B), firstn m (combine a b) = combine (firstn m a) (firstn m b).
Proof. induction m as [|m IH]; intros [|x a] [|y b]; cbn; auto. now rewrite IH. Qed.
Lemma firstn_addressed a m d : firstn m (addressed a d) = addressed a (firstn m d).
Proof.
  unfold addressed. rewrite firstn_combine. destruct (Nat.le_gt_cases (length d) m) as [Hm|Hm].
  - rewrite !firstn_all2; auto. rewrite zrange_length. unfold zlen. lia.
  - f_equal. unfold zlen. rewrite firstn_length_le by lia. rewrite (zrange_split a (a + Z.of_nat m) (a + Z.of_nat (length d))) by lia.
    rewrite firstn_app. replace (m - length (zrange a (a + Z.of_nat m)))%nat with 0%nat by (rewrite zrange_length; lia). rewrite firstn_O, app_nil_r. apply firstn_all2. rewrite zrange_length. lia.
Qed.
Lemma part_flat c j t : inv t -> op_in lo hi c -> exists m, inv (apb_part tw tr L t c j) /\ view (apb_part tw tr L t c j) =f mem_part phi (view t) c m.
Proof.
  intros Hi Hc. destruct c as [[A D p]|r]; cbn [apb_part mem_part lc_addr lc_data op_in] in *.
  - destruct Hc as (HD & H1 & H2). rewrite lite_write_spec by auto. cbn [fst]. rewrite law_of_pairs, lw_of_pairs.
    set (aws := map (lw_a L A p) _). set (ws := map (lw_w L A D) _).
    assert (Hb : exists m, lite_bytes L (firstn j aws) (firstn j ws) = addressed A (firstn m D)).
    { unfold lite_bytes. rewrite <- firstn_combine. destruct (flat_map_firstn (fun p => lite_strobed L (fst p) (snd p)) j (combine aws ws)) as (m & E). exists m. rewrite E.
      fold (lite_bytes L aws ws). unfold aws, ws. rewrite lite_bytes_spec by auto. apply firstn_addressed. }
    destruct Hb as (m & Hb). exists m. rewrite <- Hb.
    destruct (lite_slave_write_flat L lo hi phi inv view tw tr Hft HL (firstn j aws) (firstn j ws) t) as (t' & E & Hi' & Hv); auto.
    + unfold aws, ws. now rewrite !firstn_length, !map_length.
    + apply Forall_forall. intros w Hw. assert (Hw' : In w ws) by (rewrite <- (firstn_skipn j ws); apply in_or_app; auto).
      apply in_map_iff in Hw' as (k & <- & Hk). apply in_zrange in Hk. now apply lw_w_fits.
    + rewrite Hb. apply addressed_in; auto. rewrite <- (firstn_skipn m D), zlen_app in H2. pose proof (zlen_nonneg (skipn m D)). lia.
    + rewrite E. auto.
  - exists 0%nat. destruct Hc as (H0 & H1 & H2).
    destruct (lite_slave_read_flat L lo hi phi inv view tw tr Hft HL Hlo Hhi (firstn j (lite_read L r)) t Hi) as (t' & E & Hi' & Hv).
    + apply Forall_forall. intros a Ha. assert (Ha' : In a (lite_read L r)) by (rewrite <- (firstn_skipn j (lite_read L r)); apply in_or_app; auto).
      set (A := lr_addr r) in *. set (n := lr_len r) in *. pose proof (lg_facts L A n HL H0) as (Hs & HA & HC & _ & Hc).
      apply in_map_iff in Ha'. destruct Ha' as (k & <- & Hk). apply in_zrange in Hk.
      fold A n in Hk. cbn [la_addr]. fold A. destruct (lg_cycle L A n HL H0 k Hk) as (_ & _ & _ & _ & _ & _ & _ & _ & _ & [->|Ek]).
      * exact H1.
      * destruct (down_range L lo hi HL Hlo Hhi A ltac:(lia)) as (G1 & G2 & G3). rewrite Ek. split; [lia|].
        pose proof (Z.div_mod hi L ltac:(lia)). specialize (Hc ltac:(lia)).
        rewrite down_eq by lia. nia.
    + rewrite E. auto.
Qed.

Lemma serve_inv ops t : inv t -> Forall (fun x => op_in lo hi (snd x)) ops ->
  inv (fst (serve_all tw tr L ep t ops)) /\ view (fst (serve_all tw tr L ep t ops)) =f fst (mem_serve phi (view t) ops) /\ snd (serve_all tw tr L ep t ops) = snd (mem_serve phi (view t) ops).
Proof. intros Hi Ho. destruct (serve_flat L ep lo hi phi inv view tw tr Hft HL Hlo Hhi ops t Hi Ho) as (t' & E & H1 & H2). rewrite E. auto. Qed.

Lemma yinv_mem t0 y ops se : inv t0 -> yinv t0 y ops se -> Forall (fun x => op_in lo hi (snd x)) ops ->
  inv (v_t (k_s (fst y))) /\
  exists n m, (n <= length ops)%nat /\ length se = n /\ se = firstn n (snd (mem_serve phi (view t0) ops)) /\
    view (v_t (k_s (fst y))) =f match nth_error ops n with
                  | Some x => mem_part phi (fst (mem_serve phi (view t0) (firstn n ops))) (snd x) m
                  | None => fst (mem_serve phi (view t0) ops)
                  end.
Proof.
  intros Hi Hy Ho. destruct y as [k on]. unfold yinv in Hy. cbn [fst snd] in *. destruct on.
  - destruct Hy as (_ & _ & (D1 & D2 & D3 & D4 & D5 & D6 & D7 & -> & ->)). split; [exact Hi|]. exists 0%nat, 0%nat. repeat (split; [cbn; auto; lia|]).
    destruct ops as [|x ops]; cbn [nth_error firstn mem_serve fst]; [apply feq_refl|]. destruct (snd x); cbn [mem_part firstn]; [|apply feq_refl].
    unfold addressed. cbn. rewrite Z.add_0_r, zrange_empty by lia. cbn. apply feq_refl.
  - destruct Hy as [Hs Hc]. destruct (sinv_view t0 k ops se Hs Hc) as (n & j & A & B & C & D & _).
    destruct (serve_inv ops t0 Hi Ho) as (S1 & S2 & S3).
    assert (Hf : Forall (fun x => op_in lo hi (snd x)) (firstn n ops)) by (rewrite <- (firstn_skipn n ops) in Ho; now apply Forall_app in Ho).
    destruct (serve_inv (firstn n ops) t0 Hi Hf) as (F1 & F2 & _). rewrite S3 in C.
    destruct (nth_error ops n) as [x|] eqn:En.
    + assert (Hx : op_in lo hi (snd x)) by (rewrite Forall_forall in Ho; apply Ho; eapply nth_error_In; eauto).
      destruct (part_flat (snd x) j _ F1 Hx) as (m & P1 & P2). rewrite D. split; [exact P1|]. exists n, m. repeat (split; [auto|]). rewrite En.
      eapply feq_trans; [exact P2|]. destruct (snd x); cbn [mem_part]; auto. now apply put_feq.
    + rewrite D. split; [exact S1|]. exists n, 0%nat. repeat (split; [auto|]). now rewrite En.
Qed.
Lemma y_reach_mem h : forall t0 y ops se, inv t0 -> yinv t0 y ops se -> Forall (fun x => op_in lo hi (snd x)) ops -> Forall yop_ok h ->
  Forall (fun x => op_in lo hi (snd x)) (starts (snd (y_run tw tr L ep y h))) ->
  exists t1 ops' se', inv t1 /\ yinv t1 (fst (y_run tw tr L ep y h)) ops' se' /\ Forall (fun x => op_in lo hi (snd x)) ops'.
Proof.
  induction h as [|o h IH]; intros t0 y ops se Hi Hy Hops Hk Hst; cbn [y_run] in *; [eauto 10|].
  apply Forall_cons_iff in Hk as [Ho Hk].
  assert (H1 : Forall (fun x => op_in lo hi (snd x)) (starts (snd (y_step tw tr L ep y o))) ->
    exists t1 ops' se', inv t1 /\ yinv t1 (fst (y_step tw tr L ep y o)) ops' se' /\ Forall (fun x => op_in lo hi (snd x)) ops').
  { intros Hs1. assert (Hd : no_assert o \/ o = YReset true) by (destruct o as [|[]]; cbn; auto). destruct Hd as [Hn| ->].
    - pose proof (y_step_inv t0 y o ops se Hy Hn Ho) as K. destruct (y_step tw tr L ep y o). exists t0. eexists. eexists. split; [exact Hi|]. split; [exact K|]. apply Forall_app. auto.
    - destruct y as [k [|]]; [exists t0, ops, se; auto|]. pose proof (y_assert_inv t0 k ops se Hy) as K.
      destruct (yinv_mem t0 (k, false) ops se Hi Hy Hops) as [Hi' _]. destruct (y_step tw tr L ep (k, false) (YReset true)). destruct K as (K & _).
      exists (v_t (k_s k)), [], []. auto. }
  destruct (y_step tw tr L ep y o) as [y1 o1]. cbn [fst snd] in *.
  destruct (y_run tw tr L ep y1 h) as [y2 o2] eqn:E2. cbn [fst snd] in *. rewrite starts_app in Hst. apply Forall_app in Hst as [Hst1 Hst2].
  destruct (H1 Hst1) as (t1 & ops1 & se1 & G1 & G2 & G3). specialize (IH t1 y1 ops1 se1 G1 G2 G3 Hk). rewrite E2 in IH. apply IH. exact Hst2.
Qed.
End Mem.
End Rst.
