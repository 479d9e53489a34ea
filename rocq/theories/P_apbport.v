(** An APB master and slave on a memory that others change: the calls of the slave and their moments (P_mport.v has the general part). *)
From Coq Require Import ZArith Lia List Bool.
From Coq Require Import ZifyBool ZifyNat.
From Verif Require Import Py S_flat M_axi S_axi P_axi P_axislave P_axiop P_axicomp P_axiram M_axil S_axil P_axil
  M_liteeng S_liteeng P_liteeng M_axieng S_axieng P_axieng P_axiattr T_axieng M_sys S_sys P_sys P_syswr P_sysrd T_sys T_sysrd M_axisys S_axisys P_sysram
  M_litesys S_litesys P_litesys P_litewr P_literd T_litesys M_literw S_literw P_literw M_mport S_mport P_mport P_mpaxi
  M_apb S_apb P_apb P_apbsys T_apb M_apbenv S_apbenv P_apbenv P_apblog.
Import ListNotations.
Open Scope Z_scope.

(** ** a target that gives the answers it is told, then always Ok *)
Notation ansT := (list (res unit) * list (res (list Z)))%type.
Definition a_w (a : ansT) (_ : Z) (_ : list Z) : ansT * res unit := ((tl (fst a), snd a), hd (Ok tt) (fst a)).
Definition a_r (a : ansT) (_ _ : Z) : ansT * res (list Z) := ((fst a, tl (snd a)), hd (Ok []) (snd a)).

Lemma a_w_replays nw : forall sw sr l, replays (log_write a_w) ((map snd nw ++ sw, sr), l) nw ((sw, sr), l ++ nw).
Proof. induction nw as [|[[a d] r] nw IH]; intros sw sr l; cbn [replays map snd app]; [now rewrite app_nil_r|]. split; [reflexivity|]. cbn. specialize (IH sw sr (l ++ [(a, d, r)])). now rewrite <- app_assoc in IH. Qed.
Lemma a_r_replays nr : forall sw sr l, rreplays (log_read a_r) ((sw, map snd nr ++ sr), l) nr ((sw, sr), l ++ nr).
Proof. induction nr as [|[[a d] r] nr IH]; intros sw sr l; cbn [rreplays map snd app]; [now rewrite app_nil_r|]. split; [reflexivity|]. cbn. specialize (IH sw sr (l ++ [(a, d, r)])). now rewrite <- app_assoc in IH. Qed.
Lemma a_w_lift nw : forall sw sr (l : list rcall), replays (lift_w a_w) ((map snd nw ++ sw, sr), l) nw ((sw, sr), l).
Proof. induction nw as [|[[a d] r] nw IH]; intros sw sr l; cbn [replays map snd app]; [reflexivity|]. split; [reflexivity|]. apply IH. Qed.
Lemma a_r_lift nr : forall sw sr (l : list call), rreplays (lift_r a_r) ((sw, map snd nr ++ sr), l) nr ((sw, sr), l).
Proof. induction nr as [|[[a d] r] nr IH]; intros sw sr l; cbn [rreplays map snd app]; [reflexivity|]. split; [reflexivity|]. apply IH. Qed.

Definition one_kind (s : script) : Prop := snd s = [] \/ fst s = [] /\ (length (snd s) <= 1)%nat.
Lemma ans_w scr : Forall one_kind scr -> forall l, plays_all (log_write a_w) (lift_r a_r) ((map snd (flat_map fst scr), map snd (flat_map snd scr)), l) scr (([], []), l ++ flat_map fst scr).
Proof.
  induction 1 as [|[nw nr] scr Hs Hr IH]; intros l; cbn [plays_all flat_map map fst snd]; [now rewrite app_nil_r|].
  destruct Hs as [E|[E E']]; cbn [fst snd] in *; subst.
  - exists ((map snd (flat_map fst scr), map snd (flat_map snd scr)), l ++ nw). split; [left; split; [reflexivity|]; cbn [fst snd app]; rewrite map_app; apply a_w_replays|].
    rewrite app_assoc. apply IH.
  - exists ((map snd (flat_map fst scr), map snd (flat_map snd scr)), l). split; [right; split; [reflexivity|]; split; [exact E'|]; cbn [fst snd app]; rewrite map_app; apply a_r_lift|]. apply IH.
Qed.
Lemma ans_r scr : Forall one_kind scr -> forall l, plays_all (lift_w a_w) (log_read a_r) ((map snd (flat_map fst scr), map snd (flat_map snd scr)), l) scr (([], []), l ++ flat_map snd scr).
Proof.
  induction 1 as [|[nw nr] scr Hs Hr IH]; intros l; cbn [plays_all flat_map map fst snd]; [now rewrite app_nil_r|].
  destruct Hs as [E|[E E']]; cbn [fst snd] in *; subst.
  - exists ((map snd (flat_map fst scr), map snd (flat_map snd scr)), l). split; [left; split; [reflexivity|]; cbn [fst snd app]; rewrite map_app; apply a_w_lift|]. apply IH.
  - exists ((map snd (flat_map fst scr), map snd (flat_map snd scr)), l ++ nr). split; [right; split; [reflexivity|]; split; [exact E'|]; cbn [fst snd app]; rewrite map_app; apply a_r_replays|].
    rewrite app_assoc. apply IH.
Qed.
Lemma ans_fine : fine_inv a_w a_r (fun a : ansT => Forall (fun r => is_err r = false) (fst a)).
Proof.
  split.
  - intros [sw sr] a d H. cbn [fst snd a_w] in *. destruct H as [|r sw Hr H]; cbn; [split; [constructor|reflexivity]|auto].
  - intros [sw sr] a d H. exact H.
Qed.

Section Port.
Context {T : Type}.
Variables (lo hi : Z) (phi : Z -> Z) (inv : T -> Prop) (view : T -> flat).
Variable tw : T -> Z -> list Z -> T * res unit.
Variable tr : T -> Z -> Z -> T * res (list Z).
Variable L : Z.
Variable ep : bool.
Hypothesis Hft : flat_target L lo hi phi inv view tw tr.
Hypothesis HL : 0 < L.
Hypothesis Hlo : lo mod L = 0.
Hypothesis Hhi : hi mod L = 0.
Variable t0 : T.
Hypothesis Ht0 : inv t0.
Variable h : list (eop T).
Hypothesis Hh : Forall (eop_ok inv) h.
Local Notation run := (e_run tw tr L ep).
Local Notation n := (length h).
Local Notation Yk := (fun k => fst (run (sys0 t0) (firstn k h))).
Definition alk (k : nat) : list aout := snd (run (sys0 t0) (firstn k h)).
Local Notation lk := alk.
Local Notation tgt := (fun k => v_t (k_s (fst (run (sys0 t0) (firstn k h))))).
Local Notation A := (fun k => awrites (starts (lk k))).
Local Notation B := (fun k => areads (starts (lk k))).
Local Notation own := (is_own h).
Hypothesis HW : Forall (lwrite_in lo hi) (A n).
Hypothesis HR : Forall (lread_in lo hi) (B n).

Lemma e_run_app a : forall y b, run y (a ++ b) = (fst (run (fst (run y a)) b), snd (run y a) ++ snd (run (fst (run y a)) b)).
Proof.
  induction a as [|o a IH]; intros y b; cbn [app e_run fst snd]; [now destruct (run y b)|]. destruct (e_step tw tr L ep y o) as [y1 o1]. rewrite IH.
  destruct (run y1 a) as [y2 o2]. cbn [fst snd]. destruct (run y2 b) as [y3 o3]. cbn [fst snd]. now rewrite app_assoc.
Qed.
Lemma lk_app k k' : (k <= k')%nat -> exists d, lk k' = lk k ++ d.
Proof.
  intros H. assert (E : firstn k' h = firstn k h ++ skipn k (firstn k' h)).
  { rewrite <- (firstn_skipn k (firstn k' h)) at 1. rewrite firstn_firstn. f_equal. f_equal. lia. }
  unfold alk. rewrite E, e_run_app. cbn [snd]. now eexists.
Qed.
Lemma A_pre k k' : (k <= k')%nat -> is_prefix (A k) (A k').
Proof. intros H. cbv beta. destruct (lk_app k k' H) as [d ->]. rewrite starts_app, awrites_app. now eexists. Qed.
Lemma B_pre k k' : (k <= k')%nat -> is_prefix (B k) (B k').
Proof. intros H. cbv beta. destruct (lk_app k k' H) as [d ->]. rewrite starts_app, areads_app. now eexists. Qed.
Lemma AWk k : (k <= n)%nat -> Forall (lwrite_in lo hi) (A k).
Proof. intros H. destruct (A_pre k n H) as [d E]. pose proof HW as K. cbv beta in E, K |- *. rewrite E in K. now apply Forall_app in K. Qed.
Lemma BRk k : (k <= n)%nat -> Forall (lread_in lo hi) (B k).
Proof. intros H. destruct (B_pre k n H) as [d E]. pose proof HR as K. cbv beta in E, K |- *. rewrite E in K. now apply Forall_app in K. Qed.
Lemma ops_ok k : (k <= n)%nat -> Forall (fun o : aop => op_ok (snd o)) (starts (lk k)).
Proof.
  intros H. pose proof (AWk k H) as KW. pose proof (BRk k H) as KR. cbv beta in KW, KR. clear - KW KR. induction (starts (lk k)) as [|[i [w|r]] l IH]; [constructor| |].
  - cbn in KW, KR. inversion KW as [|? ? K1 K2]; subst. constructor; [exact (proj1 K1)|now apply IH].
  - cbn in KW, KR. inversion KR as [|? ? K1 K2]; subst. constructor; [exact (proj1 K1)|now apply IH].
Qed.
Lemma kops_ok k : Forall no_reset (kops (firstn k h)) /\ Forall kop_ok (kops (firstn k h)).
Proof.
  assert (H : Forall (eop_ok inv) (firstn k h)) by (rewrite <- (firstn_skipn k h) in Hh; now apply Forall_app in Hh).
  clear - H. induction H as [|[o|f] l Ho H [I1 I2]]; cbn [kops flat_map app]; [split; constructor| |auto]. destruct Ho as [O1 O2]. split; constructor; auto.
Qed.

(** the calls the slave made until moment k *)
Variable scr : list script.
Hypothesis Hlen : length scr = n.
Hypothesis Hstp : forall k, (k < n)%nat -> exists o s, nth_error h k = Some o /\ nth_error scr k = Some s /\ stp tw tr L (tgt k) o s (tgt (S k)).
Hypothesis Hplay : forall k X (tw' : wt X) tr' x x', (k <= n)%nat -> plays_all tw' tr' x (firstn k scr) x' ->
  k_run tw' tr' L ep (sys0 x) (kops (firstn k h)) = (ylift x' (Yk k), lk k).
Local Notation wl := (fun k => flat_map fst (firstn k scr)).
Local Notation rl := (fun k => flat_map snd (firstn k scr)).

Lemma one_kinds k : Forall one_kind (firstn k scr).
Proof.
  assert (H : Forall one_kind scr).
  { apply Forall_forall. intros s Hs. apply In_nth_error in Hs as [i E]. assert (Hi : (i < n)%nat) by (rewrite <- Hlen; apply nth_error_Some; congruence).
    destruct (Hstp i Hi) as (o & s' & _ & E' & K). rewrite E in E'. injection E' as <-. destruct o as [o|f]; cbn in K; [|destruct K as [-> _]; now left].
    destruct K as [_ [[K _]|(K1 & K2 & _)]]; [now left|right; auto]. }
  rewrite <- (firstn_skipn k scr) in H. now apply Forall_app in H.
Qed.
Lemma scr_S {Y} (f : script -> list Y) k s : nth_error scr k = Some s -> flat_map f (firstn (S k) scr) = flat_map f (firstn k scr) ++ f s.
Proof. intros E. rewrite (P_mpaxi.firstn_snoc _ _ _ E), flat_map_app. cbn. now rewrite app_nil_r. Qed.

Lemma asteps k : (k < n)%nat -> env_step inv tgt wl rl own k \/ w_step L tw tgt wl rl own k \/ r_step tr tgt wl rl own k.
Proof.
  intros Hk. destruct (Hstp k Hk) as (o & s & Eo & Es & K). unfold env_step, w_step, r_step, is_own. rewrite Eo, !(scr_S _ k s Es).
  destruct o as [o|f]; cbn [stp] in K.
  - right. destruct K as [K1 [[K2 K3]|(K2 & K3 & K4)]].
    + left. split; [reflexivity|]. rewrite K2, app_nil_r. split; [reflexivity|]. exists (fst s). auto.
    + right. split; [reflexivity|]. rewrite K2, app_nil_r. split; [reflexivity|]. exists (snd s). auto.
  - left. destruct K as [-> K]. cbn [fst snd]. rewrite !app_nil_r. split; [reflexivity|]. split; [reflexivity|]. split; [reflexivity|]. rewrite K.
    exact (proj1 (Forall_forall _ _) Hh _ (nth_error_In _ _ Eo) _).
Qed.
Lemma astart : inv (tgt 0%nat) /\ wl 0%nat = [] /\ rl 0%nat = [].
Proof. cbn. auto. Qed.

Definition AWmain (k : nat) ex mw : Prop := Forall2 (lite_written L) (A k) ex /\ concat (map snd ex) = wl k ++ mw /\
  (exists m, (m <= length (A k))%nat /\ aw_res (sets (lk k)) = combine (firstn m (A k)) (firstn m (map (wresp ep) ex)) /\ is_prefix (concat (map snd (firstn m ex))) (wl k)) /\
  (existsb failed (wl k) = false -> existsb failed (concat (map snd ex)) = false).
Lemma aw_main k : (k <= n)%nat -> exists ex mw, AWmain k ex mw.
Proof.
  intros Hk. pose proof (Hplay k _ _ _ _ _ Hk (ans_w _ (one_kinds k) [])) as E. destruct (kops_ok k) as [K1 K2].
  pose proof (C35_system _ (log_write a_w) (lift_r a_r) L ep ((map snd (wl k), map snd (rl k)), []) _ HL K1 K2) as M. cbv beta in M. rewrite E in M.
  destruct M as (m0 & j & M1 & M2 & M3). destruct (part_w a_w a_r L ep HL (starts (lk k)) m0 j (map snd (wl k), map snd (rl k)) (ops_ok k Hk) M1) as (ex & mw & m & P1 & P2 & P3 & P4 & P5 & P6).
  cbv beta in *. rewrite <- M3 in P2, P5. cbn [ylift k_s slift v_t snd app] in P2, P5. exists ex, mw. split; [exact P1|]. split; [exact P2|]. split.
  - exists m. split; [exact P3|]. split; [rewrite M2; exact P4|exact P5].
  - intros Hf. apply (P6 _ ans_fine). cbn [fst]. clear - Hf. induction (flat_map fst (firstn k scr)) as [|e l IH]; [constructor|]. cbn [existsb map] in *. apply orb_false_iff in Hf as [F1 F2]. constructor; auto.
Qed.
Definition ARmain (k : nat) er mr : Prop := Forall2 (lite_fetched L) (B k) er /\ concat (map snd er) = rl k ++ mr /\
  (exists m, (m <= length (B k))%nat /\ ar_res (sets (lk k)) = map (rresp L ep) (combine (firstn m (B k)) (firstn m er)) /\ is_prefix (concat (map snd (firstn m er))) (rl k)).
Lemma ar_main k : (k <= n)%nat -> exists er mr, ARmain k er mr.
Proof.
  intros Hk. pose proof (Hplay k _ _ _ _ _ Hk (ans_r _ (one_kinds k) [])) as E. destruct (kops_ok k) as [K1 K2].
  pose proof (C35_system _ (lift_w a_w) (log_read a_r) L ep ((map snd (wl k), map snd (rl k)), []) _ HL K1 K2) as M. cbv beta in M. rewrite E in M.
  destruct M as (m0 & j & M1 & M2 & M3). destruct (part_r a_w a_r L ep HL (starts (lk k)) m0 j (map snd (wl k), map snd (rl k)) (ops_ok k Hk) M1) as (er & mr & m & P1 & P2 & P3 & P4 & P5).
  cbv beta in *. rewrite <- M3 in P2, P5. cbn [ylift k_s slift v_t snd app] in P2, P5. exists er, mr. split; [exact P1|]. split; [exact P2|].
  exists m. split; [exact P3|]. split; [rewrite M2; exact P4|exact P5].
Qed.

Lemma acalls_w : Forall (fun p => lo <= fst p < hi) (calls_bytes (wl n)).
Proof.
  destruct (aw_main n ltac:(lia)) as (ex & mw & M3 & M4 & _). pose proof (lwritten_range L lo hi _ _ M3) as Hrg.
  specialize (Hrg ltac:(eapply Forall_impl; [|exact HW]; intros p (_ & H); exact H)). rewrite M4, calls_bytes_app in Hrg. now apply Forall_app in Hrg.
Qed.
Lemma acalls_r : Forall (rcin L lo hi) (rl n).
Proof. destruct (ar_main n ltac:(lia)) as (er & mr & M3 & M4 & _). pose proof (lfetched_in lo hi L HL Hlo Hhi _ _ HR M3) as K. rewrite M4 in K. now apply Forall_app in K. Qed.
Lemma ainv_k k : (k <= n)%nat -> inv (tgt k).
Proof. exact (inv_at L lo hi phi inv view tw tr Hft n tgt wl rl own astart asteps acalls_w acalls_r k). Qed.
Lemma aw_fine k ex mw : (k <= n)%nat -> AWmain k ex mw -> existsb failed (concat (map snd ex)) = false.
Proof. intros Hk (_ & _ & _ & H). apply H. exact (fine_at L lo hi phi inv view tw tr Hft n tgt wl rl own astart asteps acalls_w acalls_r k Hk). Qed.
Lemma aw_pre_bytes k ex mw i : (k <= n)%nat -> AWmain k ex mw -> calls_bytes (concat (map snd (firstn i ex))) = lite_op_bytes (firstn i (A k)).
Proof.
  intros Hk HM. pose proof (aw_fine k ex mw Hk HM) as F. destruct HM as (M3 & _). apply (lwritten_bytes L); [now apply forall2_firstn|].
  rewrite <- (firstn_skipn i ex), map_app, concat_app, existsb_app in F. now apply orb_false_iff in F.
Qed.

Definition amom_at (er : list (list lrd * list rcall)) (j : nat) (x : Z) : nat :=
  match nth_error (B n) j with
  | Some o => mom_of rl (loff er j + Z.to_nat (x / L - lr_addr (snd o) / L)) n
  | None => 0%nat
  end.
(** a completed read *)
Lemma aret er mr m j o rs cs : ARmain n er mr -> is_prefix (concat (map snd (firstn m er))) (rl n) -> (j < m)%nat -> nth_error (B n) j = Some o -> nth_error er j = Some (rs, cs) ->
  lite_read_resp L (snd o) rs = (map (fun x => view (tgt (amom_at er j x)) (phi x)) (zrange (lr_addr (snd o)) (lr_addr (snd o) + lr_len (snd o))), OKAY).
Proof.
  intros HRM Hpre Hjm Ej Ex. pose proof HRM as (N3 & _).
  destruct (forall2_nth' _ _ _ N3 _ _ Ej) as (x & Ex' & HFx). rewrite Ex in Ex'. injection Ex' as <-.
  pose proof (proj1 (Forall_forall _ _) HR _ (nth_error_In _ _ Ej)) as (Hleg & _).
  rewrite (lfetched_mem L phi o rs cs (fun k => view (tgt (mom_of rl (loff er j + k) n))) HL Hleg HFx).
  - unfold amom_at. cbv beta in Ej |- *. rewrite Ej. reflexivity.
  - intros k e Hk. apply (mom_word L lo hi phi inv view tw tr Hft n tgt wl rl own astart asteps acalls_w acalls_r).
    destruct Hpre as [d Hpre]. cbv beta in Hpre |- *. rewrite Hpre.
    assert (Hsp : concat (map snd (firstn m er)) = concat (map snd (firstn j er)) ++ cs ++ concat (map snd (skipn (S j) (firstn m er)))).
    { rewrite <- (firstn_skipn (S j) (firstn m er)) at 1. rewrite firstn_firstn. replace (Nat.min (S j) m) with (S j) by lia.
      rewrite map_app, concat_app, (nth_concat _ _ _ _ Ex), <- app_assoc. reflexivity. }
    rewrite Hsp, <- app_assoc. rewrite nth_error_app2 by (unfold loff; lia). replace (loff er j + k - length (concat (map snd (firstn j er))))%nat with k by (unfold loff; lia).
    rewrite <- app_assoc, nth_error_app1; auto. apply nth_error_Some. congruence.
Qed.

Lemma wresp_okay ex W : Forall2 (lite_written L) W ex -> existsb failed (concat (map snd ex)) = false -> Forall (fun r => r = OKAY) (map (wresp ep) ex).
Proof.
  intros H. induction H as [|o [rs cs] W ex Ho H IH]; intros F; [constructor|]. cbn [map concat snd] in F. rewrite existsb_app in F. apply orb_false_iff in F as [F1 F2].
  cbn [map]. constructor; [|now apply IH]. unfold wresp. cbn [fst]. destruct ep; [|reflexivity]. destruct Ho as [Ho _]. now rewrite F1 in Ho.
Qed.

Theorem apb_served' : served phi n (fun k => view (tgt k)) own (apb_view L n lk).
Proof.
  destruct (ar_main n ltac:(lia)) as (er & mr & HRM). destruct (aw_main n ltac:(lia)) as (ex & mw & HWM).
  pose proof HRM as (N3 & N4 & (mk & Hmk & N5 & N6)).
  assert (Hlr : length er = length (B n)) by (symmetry; eapply forall2_len; eauto).
  assert (Hrb : forall j x, in_read (apb_view L n lk) n j x -> exists o, nth_error (B n) j = Some o /\
     lr_addr (snd o) <= x < lr_addr (snd o) + lr_len (snd o) /\
     amom_at er j x = mom_of rl (loff er j + Z.to_nat (x / L - lr_addr (snd o) / L)) n /\
     (loff er j + Z.to_nat (x / L - lr_addr (snd o) / L) < loff er (S j))%nat).
  { intros j x (a & len & E & Hx). cbn [pv_reads apb_view] in E. rewrite nth_error_map in E. destruct (nth_error (areads (starts (lk n))) j) as [o|] eqn:Ej; cbn [option_map fst snd] in E; [|discriminate E].
    injection E as <- <-. exists o. split; [reflexivity|]. assert (Hb : lreads_byte (B n) j x) by (exists o; auto).
    split; [exact Hx|]. split; [unfold amom_at; now rewrite Ej|]. exact (loff_read lo hi L HL (B n) er j x HR N3 Hb o Ej). }
  assert (Eop : forall W : list (Z * lwcmd), concat (map (fun o : Z * lwcmd => addressed (lc_addr (snd o)) (lc_data (snd o))) W) = lite_op_bytes W)
    by (intros W; symmetry; apply flat_map_concat_map).
  split.
  { intros k k' Hk. split; apply prefix_map; [apply A_pre|apply B_pre]; lia. }
  exists (bs wl), (amom_at er).
  split; [exact (bs_env L inv tw tr n tgt wl rl own asteps)|].
  split; [exact (bs_own L lo hi phi inv view tw tr Hft n tgt wl rl own astart asteps acalls_w acalls_r)|].
  split.
  { intros k Hk. rewrite (bs_sum L inv tw tr n tgt wl rl own astart asteps k Hk). destruct (aw_main k Hk) as (ex' & mw' & HM). pose proof HM as (M3 & M4 & _).
    cbn [pv_writes apb_view]. rewrite Eop. rewrite <- (lwritten_bytes L _ _ M3 (aw_fine _ _ _ Hk HM)), M4, calls_bytes_app.
    now exists (calls_bytes mw'). }
  split.
  { intros k i b Hk E Hb Hd. rewrite (bs_sum L inv tw tr n tgt wl rl own astart asteps k Hk). cbn [pv_writes pv_wdone apb_view] in E, Hd |- *. rewrite firstn_map', Eop.
    destruct (aw_main k Hk) as (ex' & mw' & HM). rewrite <- (aw_pre_bytes k ex' mw' (S i) Hk HM). destruct HM as (_ & _ & (m & Hm & M5 & [tl Htl]) & _).
    assert (Him : (S i <= m)%nat) by (rewrite M5, combine_length, !firstn_length in Hd; lia).
    rewrite Htl, calls_bytes_app. replace (S i) with (Nat.min (S i) m) by lia. rewrite <- firstn_firstn.
    rewrite <- (firstn_skipn (S i) (firstn m ex')) at 2. rewrite map_app, concat_app, calls_bytes_app, <- app_assoc. now eexists. }
  split.
  { intros i r (o & Ei & Ec). pose proof HWM as (M3 & M4 & (m & Hm & M5 & _) & _). rewrite M5 in Ec. apply nth_combine in Ec as [_ Ec]. apply nth_firstn in Ec.
    pose proof (wresp_okay _ _ M3 (aw_fine n ex mw (le_n _) HWM)) as Hok. rewrite Forall_forall in Hok. apply Hok. eapply nth_error_In; eauto. }
  split.
  { intros j a len d E (o & Ej & Ec). cbn [pv_reads apb_view] in E. rewrite nth_error_map, Ej in E. cbn in E. injection E as <- <-.
    rewrite N5, nth_error_map in Ec. destruct (nth_error (combine (firstn mk (areads (starts (lk n)))) (firstn mk er)) j) as [[o' [rs cs]]|] eqn:Ecc; [|discriminate]. cbn [option_map] in Ec. injection Ec as -> <-.
    assert (Hjm : (j < mk)%nat) by (assert (K : (j < length (combine (firstn mk (areads (starts (lk n)))) (firstn mk er)))%nat) by (apply nth_error_Some; congruence); rewrite combine_length, !firstn_length in K; lia).
    apply nth_combine in Ecc as [_ Ecc]. apply nth_firstn in Ecc. cbn [fst snd]. rewrite (aret er mr mk j o rs cs HRM N6 Hjm Ej Ecc). cbn [fst snd]. now destruct ep. }
  split.
  { intros j x Hx. destruct (Hrb j x Hx) as (o & _ & _ & -> & _). apply mom_le. }
  split.
  { intros k j x Hk Hx Hj. destruct (Hrb j x Hx) as (o & Ej & Hx' & -> & Hlt). apply (mom_ge L inv tw tr n tgt wl rl own asteps); [lia|].
    cbn [pv_reads apb_view] in Hj. rewrite map_length in Hj.
    destruct (ar_main k Hk) as (er' & mr' & N3' & N4' & _). pose proof (P_literw.firstn_le_len er _ _ Hj) as Hm. fold (loff er j) in Hm.
    rewrite (lfetched_len L (B n) er _ N3) in Hm. destruct (B_pre k n Hk) as [d Ed]. cbv beta in *. rewrite Ed, firstn_app_l, firstn_all in Hm by lia.
    pose proof (lfetched_len L _ _ (length (areads (starts (lk k)))) N3') as K. rewrite firstn_all in K. rewrite (forall2_len _ _ _ N3'), firstn_all, N4', app_length in K. nodiv. lia. }
  split.
  { intros k j x Hk Hx Hd. cbn [pv_rdone apb_view] in Hd. destruct (Hrb j x Hx) as (o & Ej & Hx' & -> & Hlt). apply (mom_lt L inv tw tr n tgt wl rl own astart asteps); [lia|].
    destruct (ar_main k Hk) as (er' & mr' & N3' & N4' & (m & Hm & M5 & [tl Htl])). destruct (B_pre k n Hk) as [d Ed]. cbv beta in *.
    assert (Hjm : (S j <= m)%nat) by (rewrite M5, map_length, combine_length, !firstn_length in Hd; lia).
    assert (Hoff : (loff er (S j) <= length (flat_map snd (firstn k scr)))%nat).
    { unfold loff. rewrite (lfetched_len L (B n) er _ N3). cbv beta. rewrite Ed, firstn_app_l by lia. rewrite <- (lfetched_len L _ _ (S j) N3'), Htl, app_length.
      pose proof (P_literw.firstn_le_len er' _ _ Hjm). lia. }
    nodiv. lia. }
  split.
  { intros j x x' Hx Hx' Hwd. destruct (Hrb j x Hx) as (o & Ej & _ & -> & _). destruct (Hrb j x' Hx') as (o' & Ej' & _ & -> & _).
    rewrite Ej in Ej'. injection Ej' as <-. cbn [pv_word apb_view] in Hwd. now rewrite Hwd. }
  intros j x j' x' Hx Hx' Hord. destruct (Hrb j x Hx) as (o & Ej & _ & -> & Hlt). destruct (Hrb j' x' Hx') as (o' & Ej' & _ & -> & Hlt').
  apply (mom_mono L inv tw tr n tgt wl rl own asteps); [lia|]. destruct Hord as [Hj|[<- Hxx]].
  - assert (Hoff : (loff er (S j) <= loff er j')%nat) by (apply P_literw.firstn_le_len; exact Hj). clear - Hlt Hoff. nodiv. lia.
  - rewrite Ej in Ej'. injection Ej' as <-. assert (x / L <= x' / L) by (apply Z.div_le_mono; lia). nodiv. lia.
Qed.
End Port.

Theorem apb_served {T} (lo hi : Z) (phi : Z -> Z) (inv : T -> Prop) (view : T -> flat) tw tr L ep t0 h :
  flat_target L lo hi phi inv view tw tr -> 0 < L -> lo mod L = 0 -> hi mod L = 0 -> inv t0 -> Forall (eop_ok inv) h ->
  Forall (lwrite_in lo hi) (awrites (starts (snd (e_run tw tr L ep (sys0 t0) h)))) ->
  Forall (lread_in lo hi) (areads (starts (snd (e_run tw tr L ep (sys0 t0) h)))) ->
  (forall k, (k <= length h)%nat -> inv (v_t (k_s (fst (e_run tw tr L ep (sys0 t0) (firstn k h)))))) /\
  served phi (length h) (fun k => view (v_t (k_s (fst (e_run tw tr L ep (sys0 t0) (firstn k h)))))) (is_own h)
    (apb_view L (length h) (fun k => snd (e_run tw tr L ep (sys0 t0) (firstn k h)))).
Proof.
  intros Hft HL Hlo Hhi Ht0 Hh HW HR. destruct (run_det tw tr L ep HL h (sys0 t0)) as (scr & S1 & S2 & S3); [exact I|eapply Forall_impl; [|exact Hh]; intros [o|f] Ho; [exact (proj1 Ho)|exact I]|].
  assert (E : firstn (length h) h = h) by apply firstn_all.
  assert (HW' : Forall (lwrite_in lo hi) (awrites (starts (alk tw tr L ep t0 h (length h))))) by (unfold alk; now rewrite E).
  assert (HR' : Forall (lread_in lo hi) (areads (starts (alk tw tr L ep t0 h (length h))))) by (unfold alk; now rewrite E).
  split.
  - exact (ainv_k lo hi phi inv view tw tr L ep Hft HL Hlo Hhi t0 Ht0 h Hh HW' HR' scr S1 S2 S3).
  - exact (apb_served' lo hi phi inv view tw tr L ep Hft HL Hlo Hhi t0 Ht0 h Hh HW' HR' scr S1 S2 S3).
Qed.
