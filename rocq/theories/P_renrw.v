(** Both halves of an AXI system with another numbering of the contexts; fair schedules. *)
From Coq Require Import ZArith Lia List Bool Permutation.
From Coq Require Import ZifyBool ZifyNat.
From Verif Require Import Py M_axi M_liteeng M_axieng P_liteeng P_axitag P_ren M_sys S_sys M_litesys S_litesys M_axisys S_axisys M_literw S_live P_clk P_clkrw P_flat P_clkfair P_renx.
Import ListNotations.
Open Scope Z_scope.
Notation ymgr y := (e_mgr (y_m y)).

Section Rw.
Context {TW TR : Type}.
Variable c : mcfg.
Variables widn ridn : Z.
Variable tw : TW -> Z -> list Z -> TW * res unit.
Variable tr : TR -> Z -> Z -> TR * res (list Z).
Variable w2r : TW -> TR -> TR.
Variable r2w : TR -> TW -> TW.
Hypothesis W1 : forall a b r, w2r b (w2r a r) = w2r b r.
Hypothesis W2 : forall a r, r2w (w2r a r) a = a.
Hypothesis R1 : forall a b w, r2w b (r2w a w) = r2w b w.
Hypothesis R2 : forall a w, w2r (r2w a w) a = a.
Notation axrun := (ax_run c widn ridn tw tr w2r r2w).
Notation axstep := (ax_step c widn ridn tw tr w2r r2w).
Notation sync := (zsync w2r r2w).

(** b is a with another numbering *)
Record zsame (a b : axs TW TR) : Prop := {
  zs_sync : sync a;
  zs_w : z_w b = wmy (z_w a) (ymgr (z_w b)); zs_r : z_r b = wmy (z_r a) (ymgr (z_r b));
  zs_mw : msim (ymgr (z_w a)) (ymgr (z_w b)); zs_mr : msim (ymgr (z_r a)) (ymgr (z_r b)) }.
Definition zren (a b : axs TW TR) (o : aop TW TR) : list (aop TW TR) :=
  match o with BW o => map BW (ren (z_w a) (ymgr (z_w b)) o) | BR o => map BR (ren (z_r a) (ymgr (z_r b)) o) end.
Lemma same_sync a b : zsame a b -> sync b.
Proof. intros H. unfold zsync. rewrite (zs_w _ _ H), (zs_r _ _ H). exact (zs_sync _ _ H). Qed.
Lemma set_s_wmy {C E R S} (y : sys C E R S) m s : set_s (wmy y m) s = wmy (set_s y s) m. Proof. reflexivity. Qed.
Lemma mgr_wmy {C E R S} (y : sys C E R S) m : ymgr (wmy y m) = m. Proof. reflexivity. Qed.

Lemma zren_step a b o : zsame a b -> let '(a', os) := axstep a o in
  exists b', axrun b (zren a b o) = (b', os) /\ zsame a' b' /\
    keeps (ymgr (z_w a)) (ymgr (z_w a')) /\ keeps (ymgr (z_w b)) (ymgr (z_w b')) /\ keeps (ymgr (z_r a)) (ymgr (z_r a')) /\ keeps (ymgr (z_r b)) (ymgr (z_r b')).
Proof.
  intros H. pose proof (same_sync a b H) as Hb. destruct o as [o|o]; cbn [ax_step zren].
  - unfold wsys_step. pose proof (ren_step (w_sends c) w_opens w_epat w_chk b_id op_id widn w_opens ws_act (ws_in tw (m_lanes c) true) (z_w a) (ymgr (z_w b)) o (zs_mw _ _ H)) as K.
    destruct (y_step _ _ _ _ _ _ widn _ _ _ (z_w a) o) as [y' os]. destruct K as (m' & K & K1 & K2 & K3).
    rewrite <- (zs_w _ _ H) in K. rewrite ax_run_w by auto. rewrite K. eexists. split; [reflexivity|]. cbn [z_w z_r]. split; [|split; [exact K2|split; [exact K3|split; apply keeps_refl]]].
    constructor; cbn [z_w z_r]; auto.
    + apply synced_r; auto.
    + rewrite (zs_r _ _ H). reflexivity.
    + apply (zs_mr _ _ H).
  - unfold rsys_step. pose proof (ren_step (r_sends c) r_opens r_epat r_chk r_id op_id ridn r_kind (rs_act tr (m_lanes c)) (rs_in (m_lanes c)) (z_r a) (ymgr (z_r b)) o (zs_mr _ _ H)) as K.
    destruct (y_step _ _ _ _ _ _ ridn _ _ _ (z_r a) o) as [y' os]. destruct K as (m' & K & K1 & K2 & K3).
    rewrite <- (zs_r _ _ H) in K. rewrite ax_run_r by auto. rewrite K. eexists. split; [reflexivity|]. cbn [z_w z_r]. split; [|split; [apply keeps_refl|split; [apply keeps_refl|split; [exact K2|exact K3]]]].
    constructor; cbn [z_w z_r]; auto.
    + apply synced_w; auto.
    + rewrite (zs_w _ _ H). reflexivity.
    + apply (zs_mw _ _ H).
Qed.
Lemma zren_all (P : aop TW TR -> Prop) a b o : (forall o, a_internal o -> P o) -> P o -> Forall P (zren a b o).
Proof. intros HP H. destruct o as [o|o]; cbn [zren]; apply Forall_map; apply ren_all; auto; intros o' Ho; apply HP; exact Ho. Qed.
Lemma zren_submitted a b o : a_wsubmitted (zren a b o) = a_wsubmitted [o] /\ a_rsubmitted (zren a b o) = a_rsubmitted [o].
Proof.
  unfold a_wsubmitted, a_rsubmitted. destruct o as [o|o]; cbn [zren]; rewrite !(flat_map_concat_map _ (map _ _)), !map_map, <- !flat_map_concat_map.
  - replace (flat_map _ (ren (z_w a) (ymgr (z_w b)) o)) with (ren (z_w a) (ymgr (z_w b)) o) by (induction (ren (z_w a) (ymgr (z_w b)) o); cbn; congruence).
    replace (flat_map (fun _ => []) _) with (@nil (yop rop (rslv TR))) by (induction (ren (z_w a) (ymgr (z_w b)) o); cbn; congruence).
    rewrite ren_submitted. auto.
  - replace (flat_map _ (ren (z_r a) (ymgr (z_r b)) o)) with (@nil (yop wop (wslv TW))) by (induction (ren (z_r a) (ymgr (z_r b)) o); cbn; congruence).
    replace (flat_map _ (ren (z_r a) (ymgr (z_r b)) o)) with (ren (z_r a) (ymgr (z_r b)) o) by (induction (ren (z_r a) (ymgr (z_r b)) o); cbn; congruence).
    rewrite ren_submitted. auto.
Qed.
Theorem zren_run h : forall a b, zsame a b -> let '(a', os) := axrun a h in
  exists h' b', axrun b h' = (b', os) /\ zsame a' b' /\ a_wsubmitted h' = a_wsubmitted h /\ a_rsubmitted h' = a_rsubmitted h /\
    forall P : aop TW TR -> Prop, (forall o, a_internal o -> P o) -> Forall P h -> Forall P h'.
Proof.
  induction h as [|o h IH]; intros a b H; cbn [ax_run].
  - exists [], b. auto.
  - pose proof (zren_step a b o H) as K. destruct (axstep a o) as [a1 o1]. destruct K as (b1 & K & H1 & _). specialize (IH a1 b1 H1).
    destruct (axrun a1 h) as [a2 o2]. destruct IH as (h' & b2 & K2 & H2 & S1 & S2 & A). exists (zren a b o ++ h'), b2.
    rewrite axrun_app, K, K2. split; [reflexivity|]. split; [exact H2|]. destruct (zren_submitted a b o) as [Z1 Z2].
    rewrite sub_w_app, sub_r_app, Z1, Z2, S1, S2. change (o :: h) with ([o] ++ h). rewrite sub_w_app, sub_r_app. split; [reflexivity|]. split; [reflexivity|].
    intros P HP Hh. inversion Hh; subst. apply Forall_app. split; [now apply zren_all|now apply A].
Qed.

(** ** fair schedules *)
Definition free {C S} {R' : Type} (m : mgr C R') (n : nat) : list (yop C S) := flat_map (fun k => if mapped m k then [] else [YCGet k; YCResp k]) (seq 0 (1 + n + length (m_ctxs m)))%nat.
Lemma free_in {C S} {R' : Type} (m : mgr C R') n k : mapped m k = false -> (k <= n)%nat -> In (@YCGet C S k) (free m n) /\ In (@YCResp C S k) (free m n).
Proof. intros H Hk. unfold free. split; apply in_flat_map; exists k; rewrite H; (split; [apply in_seq; lia|cbn; auto]). Qed.
Lemma free_int {C S} {R' : Type} (m : mgr C R') n : Forall internal (@free C S R' m n).
Proof. apply Forall_forall. intros o Ho. unfold free in Ho. apply in_flat_map in Ho. destruct Ho as (k & _ & Ho). destruct (mapped m k); [destruct Ho|]. destruct Ho as [<-|[<-|[]]]; exact I. Qed.
Lemma free_ne {C S} {R' : Type} (m : mgr C R') n : mwf m -> @free C S R' m n <> [].
Proof.
  intros W E. assert (H : mapped m (length (m_ctxs m)) = false).
  { destruct (mapped m (length (m_ctxs m))) eqn:Em; auto. apply mapped_in in Em. destruct Em as (t & Ht). pose proof (map_lt m t _ W Ht). lia. }
  assert (In (@YCGet C S (length (m_ctxs m))) (free m n)) as Hi by (unfold free; apply in_flat_map; exists (length (m_ctxs m)); rewrite H; split; [apply in_seq; lia|now left]).
  rewrite E in Hi. destruct Hi.
Qed.
Lemma free_step_w (y : sys wop wev bch (wslv TW)) n : mwf (ymgr y) -> y_run (w_sends c) w_opens w_epat w_chk b_id op_id widn w_opens ws_act (ws_in tw (m_lanes c) true) y (free (ymgr y) n) = (y, []).
Proof.
  intros W. assert (H : forall o, In o (free (ymgr y) n) -> y_step (w_sends c) w_opens w_epat w_chk b_id op_id widn w_opens ws_act (ws_in tw (m_lanes c) true) y o = (y, [])).
  { intros o Ho. unfold free in Ho. apply in_flat_map in Ho. destruct Ho as (k & _ & Ho). destruct (mapped (ymgr y) k) eqn:Em; [destruct Ho|].
    destruct (unmapped_get (w_sends c) w_opens w_epat w_chk b_id op_id widn (y_m y) k W Em) as [U1 U2]. destruct Ho as [<-|[<-|[]]]; cbn [y_step]; unfold m_step; rewrite ?U1, ?U2; destruct y; reflexivity. }
  induction (free (ymgr y) n) as [|o l IH]; [reflexivity|]. cbn [y_run]. rewrite (H o) by now left. rewrite IH by (intros o' Ho'; apply H; now right). reflexivity.
Qed.
Lemma free_step_r (y : sys rop axc rch (rslv TR)) n : mwf (ymgr y) -> y_run (r_sends c) r_opens r_epat r_chk r_id op_id ridn r_kind (rs_act tr (m_lanes c)) (rs_in (m_lanes c)) y (free (ymgr y) n) = (y, []).
Proof.
  intros W. assert (H : forall o, In o (free (ymgr y) n) -> y_step (r_sends c) r_opens r_epat r_chk r_id op_id ridn r_kind (rs_act tr (m_lanes c)) (rs_in (m_lanes c)) y o = (y, [])).
  { intros o Ho. unfold free in Ho. apply in_flat_map in Ho. destruct Ho as (k & _ & Ho). destruct (mapped (ymgr y) k) eqn:Em; [destruct Ho|].
    destruct (unmapped_get (r_sends c) r_opens r_epat r_chk r_id op_id ridn (y_m y) k W Em) as [U1 U2]. destruct Ho as [<-|[<-|[]]]; cbn [y_step]; unfold m_step; rewrite ?U1, ?U2; destruct y; reflexivity. }
  induction (free (ymgr y) n) as [|o l IH]; [reflexivity|]. cbn [y_run]. rewrite (H o) by now left. rewrite IH by (intros o' Ho'; apply H; now right). reflexivity.
Qed.
Definition zfree (b : axs TW TR) (n : nat) : list (aop TW TR) := map BW (free (ymgr (z_w b)) n) ++ map BR (free (ymgr (z_r b)) n).
Lemma zfree_run b n : sync b -> mwf (ymgr (z_w b)) -> mwf (ymgr (z_r b)) -> axrun b (zfree b n) = (b, []).
Proof.
  intros Hs Hw Hr. unfold zfree. rewrite axrun_app. rewrite ax_run_w by auto. rewrite free_step_w by auto. rewrite (told_r w2r r2w _ _ Hs), set_s_id.
  replace {| z_w := z_w b; z_r := z_r b |} with b by (destruct b; reflexivity). rewrite ax_run_r by auto. rewrite free_step_r by auto. rewrite (told_w w2r r2w _ _ Hs), set_s_id. destruct b; reflexivity.
Qed.

Variables a0 b0 : axs TW TR.
Variable sched : nat -> aop TW TR.
Hypothesis H0 : zsame a0 b0.
Definition ast (n : nat) : axs TW TR := fst (axrun a0 (first_steps sched n)).
Lemma ast_S n : ast (S n) = fst (axstep (ast n) (sched n)).
Proof.
  unfold ast. rewrite first_S, axrun_app. destruct (axrun a0 (first_steps sched n)) as [y1 o1]. cbn [ax_run fst]. destruct (axstep y1 (sched n)). reflexivity.
Qed.
Fixpoint bst (n : nat) : axs TW TR := match n with O => b0 | S n' => fst (axrun (bst n') (zren (ast n') (bst n') (sched n'))) end.
Lemma bst_step n : zsame (ast n) (bst n) -> zsame (ast (S n)) (bst (S n)) /\
  axrun (bst n) (zren (ast n) (bst n) (sched n)) = (bst (S n), snd (axstep (ast n) (sched n))) /\
  keeps (ymgr (z_w (ast n))) (ymgr (z_w (ast (S n)))) /\ keeps (ymgr (z_w (bst n))) (ymgr (z_w (bst (S n)))) /\ keeps (ymgr (z_r (ast n))) (ymgr (z_r (ast (S n)))) /\ keeps (ymgr (z_r (bst n))) (ymgr (z_r (bst (S n)))).
Proof.
  intros H. pose proof (zren_step _ _ (sched n) H) as K. rewrite ast_S. cbn [bst]. destruct (axstep (ast n) (sched n)) as [a' os]. destruct K as (b' & -> & K). cbn [fst snd]. tauto.
Qed.
Lemma bst_same n : zsame (ast n) (bst n).
Proof. induction n as [|n IH]; [exact H0|]. now apply bst_step. Qed.
Definition rseg (n : nat) : list (aop TW TR) := zfree (bst n) n ++ zren (ast n) (bst n) (sched n).
Lemma rseg_ne n : rseg n <> [].
Proof.
  unfold rseg, zfree. pose proof (free_ne (S := wslv TW) (ymgr (z_w (bst n))) n (proj1 (proj2 (zs_mw _ _ (bst_same n))))) as H. destruct (free (ymgr (z_w (bst n))) n); [congruence|discriminate].
Qed.
Lemma rseg_run n : axrun b0 (segs rseg n) = (bst n, snd (axrun a0 (first_steps sched n))).
Proof.
  induction n as [|n IH]; [reflexivity|]. rewrite segs_S, axrun_app, IH. unfold rseg. pose proof (bst_same n) as Hn. rewrite axrun_app, zfree_run.
  - destruct (bst_step n Hn) as (_ & -> & _). rewrite first_S, axrun_app. unfold ast. destruct (axrun a0 (first_steps sched n)) as [y1 o1]. cbn [fst snd ax_run]. destruct (axstep y1 (sched n)) as [y2 o2]. cbn [snd app]. now rewrite app_nil_r.
  - exact (same_sync _ _ Hn).
  - apply (zs_mw _ _ Hn).
  - apply (zs_mr _ _ Hn).
Qed.

(** a context of b: its step comes, or it belongs to no tag *)
Section Ctx.
Context {C R' : Type}.
Variables ma mb : nat -> mgr C R'.
Hypothesis Hsim : forall n, msim (ma n) (mb n).
Hypothesis Ha : forall n, keeps (ma n) (ma (S n)).
Hypothesis Hb : forall n, keeps (mb n) (mb (S n)).
Lemma follow k t i n d : In (t, i) (m_map (ma n)) -> In (t, k) (m_map (mb n)) ->
  (exists p, (n <= p)%nat /\ mapped (mb p) k = false) \/ (In (t, i) (m_map (ma (n + d))) /\ In (t, k) (m_map (mb (n + d)))).
Proof using Hsim Ha Hb.
  clear - Hsim Ha Hb. intros Hi Hk. induction d as [|d IH]; [right; now rewrite Nat.add_0_r|]. destruct IH as [IH|(I1 & I2)]; [now left|].
  rewrite Nat.add_succ_r. pose proof (Hsim (n + d)%nat) as (A1 & A2 & _). pose proof (Hsim (S (n + d))) as (B1 & B2 & _ & _ & V).
  pose proof (lookup_nodup _ _ _ (wf_keys _ A1) I1) as L1. pose proof (lookup_nodup _ _ _ (wf_keys _ A2) I2) as L2.
  destruct (Hb _ _ _ L2) as [K2|(K2 & K3)].
  - destruct (Ha _ _ _ L1) as [K1|(K1 & _)].
    + right. split; now apply lookup_in.
    + exfalso. specialize (V t). unfold view in V. rewrite K1, K2 in V. discriminate.
  - left. exists (S (n + d)). split; [lia|]. destruct (mapped (mb (S (n + d))) k) eqn:Em; auto. apply mapped_in in Em. destruct Em as (u & Hu). exfalso. exact (map_not_idle _ u k B2 Hu K3).
Qed.
Lemma ctx_again k n (Q : nat -> nat -> Prop) : (forall i n, exists m, (n <= m)%nat /\ Q i m) ->
  exists m, (n <= m)%nat /\ ((mapped (mb m) k = false /\ (k <= m)%nat) \/ exists t i, Q i m /\ In (t, i) (m_map (ma m)) /\ In (t, k) (m_map (mb m))).
Proof using Hsim Ha Hb.
  clear - Hsim Ha Hb. intros HQ. set (n' := Nat.max n k). destruct (mapped (mb n') k) eqn:Em; [|exists n'; split; [lia|left; split; [auto|lia]]].
  apply mapped_in in Em. destruct Em as (t & Ht). pose proof (Hsim n') as (A1 & A2 & _ & _ & V). pose proof (in_view _ t k A2 Ht) as E. rewrite <- V in E.
  destruct (view_some _ _ _ E) as (i & Hi & _). destruct (HQ i n') as (m & Hm & Hq). destruct (follow k t i n' (m - n') Hi Ht) as [(p & Hp & Ep)|(I1 & I2)].
  - exists p. split; [lia|]. left. split; [auto|lia].
  - replace (n' + (m - n'))%nat with m in * by lia. exists m. split; [lia|]. right. eauto.
Qed.
End Ctx.

Lemma tr_one {C R'} (m1 m2 : mgr C R') t i k : msim m1 m2 -> In (t, i) (m_map m1) -> In (t, k) (m_map m2) -> tr_idx m1 m2 i = [k].
Proof.
  intros H Hi Hk. destruct (tr_mapped m1 m2 t i H Hi) as (j & Hj & _ & ->). destruct H as (_ & B & _).
  pose proof (lookup_nodup _ _ _ (wf_keys _ B) Hj). pose proof (lookup_nodup _ _ _ (wf_keys _ B) Hk). congruence.
Qed.

Theorem ren_fair : fair a_internal sched -> exists sched', fair a_internal sched' /\
  (forall P : aop TW TR -> Prop, (forall o, a_internal o -> P o) -> (forall m, P (sched m)) -> forall m, P (sched' m)) /\
  (forall n, exists k, (n <= k)%nat /\ axrun b0 (first_steps sched' k) = (bst n, snd (axrun a0 (first_steps sched n)))).
Proof.
  intros F. exists (flat (BW YSlave) rseg). split; [|split].
  - intros o Ho n.
    assert (Hin : exists m, (n <= m)%nat /\ In o (rseg m)).
    { assert (Hw : forall n, msim (ymgr (z_w (ast n))) (ymgr (z_w (bst n)))) by (intros n'; apply (zs_mw _ _ (bst_same n'))).
      assert (Hr : forall n, msim (ymgr (z_r (ast n))) (ymgr (z_r (bst n)))) by (intros n'; apply (zs_mr _ _ (bst_same n'))).
      assert (K1 : forall n, keeps (ymgr (z_w (ast n))) (ymgr (z_w (ast (S n))))) by (intros n'; apply (bst_step n' (bst_same n'))).
      assert (K2 : forall n, keeps (ymgr (z_w (bst n))) (ymgr (z_w (bst (S n))))) by (intros n'; apply (bst_step n' (bst_same n'))).
      assert (K3 : forall n, keeps (ymgr (z_r (ast n))) (ymgr (z_r (ast (S n))))) by (intros n'; apply (bst_step n' (bst_same n'))).
      assert (K4 : forall n, keeps (ymgr (z_r (bst n))) (ymgr (z_r (bst (S n))))) by (intros n'; apply (bst_step n' (bst_same n'))).
      assert (Hplain : zren (ast n) (bst n) o = [o] -> (forall m, zren (ast m) (bst m) o = [o]) -> exists m, (n <= m)%nat /\ In o (rseg m)).
      { intros _ Hp. destruct (F o Ho n) as (m & Hm & Em). exists m. split; [exact Hm|]. unfold rseg. rewrite Em, Hp. apply in_or_app. right. now left. }
      destruct o as [o|o].
      - destruct o as [d|d|i| | | |k|k|b|b| | | |f]; try (apply Hplain; intros; reflexivity).
        + destruct (ctx_again _ _ Hw K1 K2 k n (fun i m => sched m = BW (YCGet i))) as (m & Hm & [(E & Hk)|(t & i & E & Hi & Hj)]); [intros i n'; exact (F (BW (YCGet i)) I n')| |]; exists m; (split; [exact Hm|]); unfold rseg; apply in_or_app.
          * left. apply in_or_app. left. apply in_map. now apply free_in.
          * right. rewrite E. cbn [zren ren]. rewrite (tr_one _ _ t i k (Hw m) Hi Hj). now left.
        + destruct (ctx_again _ _ Hw K1 K2 k n (fun i m => sched m = BW (YCResp i))) as (m & Hm & [(E & Hk)|(t & i & E & Hi & Hj)]); [intros i n'; exact (F (BW (YCResp i)) I n')| |]; exists m; (split; [exact Hm|]); unfold rseg; apply in_or_app.
          * left. apply in_or_app. left. apply in_map. now apply free_in.
          * right. rewrite E. cbn [zren ren]. rewrite (tr_one _ _ t i k (Hw m) Hi Hj). now left.
      - destruct o as [d|d|i| | | |k|k|b|b| | | |f]; try (apply Hplain; intros; reflexivity).
        + destruct (ctx_again _ _ Hr K3 K4 k n (fun i m => sched m = BR (YCGet i))) as (m & Hm & [(E & Hk)|(t & i & E & Hi & Hj)]); [intros i n'; exact (F (BR (YCGet i)) I n')| |]; exists m; (split; [exact Hm|]); unfold rseg; apply in_or_app.
          * left. apply in_or_app. right. apply in_map. now apply free_in.
          * right. rewrite E. cbn [zren ren]. rewrite (tr_one _ _ t i k (Hr m) Hi Hj). now left.
        + destruct (ctx_again _ _ Hr K3 K4 k n (fun i m => sched m = BR (YCResp i))) as (m & Hm & [(E & Hk)|(t & i & E & Hi & Hj)]); [intros i n'; exact (F (BR (YCResp i)) I n')| |]; exists m; (split; [exact Hm|]); unfold rseg; apply in_or_app.
          * left. apply in_or_app. right. apply in_map. now apply free_in.
          * right. rewrite E. cbn [zren ren]. rewrite (tr_one _ _ t i k (Hr m) Hi Hj). now left. }
    destruct Hin as (m & Hm & Hin). destruct (flat_in (BW YSlave) rseg rseg_ne o m Hin) as (k & Hk & Ek). exists k. split; [lia|exact Ek].
  - intros P HP Hs m. destruct (flat_from (BW YSlave) rseg rseg_ne m) as (i & Hi). apply in_app_or in Hi. destruct Hi as [Hi|Hi].
    + apply in_app_or in Hi. destruct Hi as [Hi|Hi]; apply in_map_iff in Hi; destruct Hi as (o & <- & Hi); apply HP; exact (proj1 (Forall_forall _ _) (free_int _ _) _ Hi).
    + exact (proj1 (Forall_forall _ _) (zren_all P (ast i) (bst i) (sched i) HP (Hs i)) _ Hi).
  - intros n. exists (length (segs rseg n)). split; [apply segs_len; exact rseg_ne|]. rewrite flat_first by exact rseg_ne. apply rseg_run.
Qed.
End Rw.
