(** A fair clocked schedule of the AXI-Lite systems is a fair schedule of the systems of M_litesys.v and M_literw.v. *)
From Coq Require Import ZArith Lia List Bool.
From Coq Require Import ZifyBool ZifyNat.
From Verif Require Import Py M_stream M_axi M_axil M_liteeng M_axieng M_cchan P_cchan M_sys S_sys M_litesys S_litesys S_live M_axisys S_axisys M_literw S_literw M_clk S_clk
  P_ulive P_cchanlive P_clk P_clku P_clkrw P_clkurw P_flat P_clklive P_clkulive P_clkfair.
Import ListNotations.
Open Scope Z_scope.

Section Ax.
Context {C E R S : Type}.
Variable sends : C -> list E.
Variable need : C -> nat.
Variable kind : E -> bool.
Variable act : S -> sact R S.
Variable sin : S -> E -> S.
Variable dE : E.
Variable dR : R.
Notation hstep := (hu_step sends need kind act sin dE dR).
Notation hrun := (hu_run sends need kind act sin dE dR).
Notation ystep := (u_step sends need kind act sin).
Notation yrun := (u_run sends need kind act sin).

Lemma hurun_app h1 : forall h2 y, hrun y (h1 ++ h2) = let '(y1, o1) := hrun y h1 in let '(y2, o2) := hrun y1 h2 in (y2, o1 ++ o2).
Proof.
  induction h1 as [|o h1 IH]; intros h2 y; cbn [app hu_run].
  - destruct (hrun y h2). reflexivity.
  - destruct (hstep y o) as [y1 o1]. rewrite IH. destruct (hrun y1 h1) as [y2 o2]. destruct (hrun y2 h2) as [y3 o3]. now rewrite app_assoc.
Qed.

(** steps that are not possible *)
Definition uchan_ops : list (uop C S) := [ULoad true; ULoad false; UXfer true; UXfer false; ULoadB; UXferB].
Definition uidles (y : husys C E R S) : list (uop C S) := UStart (length (g_pend (hu_m y))) :: filter (uchan_dis y) uchan_ops.
Lemma uidle_step y o : In o (uidles y) -> ystep (huabs y) o = (huabs y, []).
Proof.
  intros [<-|H].
  - cbn [u_step]. unfold um_step. cbn [eng_step huabs u_m]. rewrite (proj2 (nth_error_None _ _)) by reflexivity. reflexivity.
  - apply filter_In in H. destruct H as [_ H]. destruct o as [c|c|i| | | | |k|k| | | |f]; try discriminate H; cbn [uchan_dis] in H; apply negb_true_iff in H; cbn [u_step].
    + rewrite hufwd_abs, load_dis by exact H. destruct k; reflexivity.
    + rewrite hufwd_abs, xfer_dis by exact H. destruct k; reflexivity.
    + cbn [huabs u_b]. rewrite load_dis by exact H. reflexivity.
    + cbn [huabs u_b]. rewrite xfer_dis by exact H. reflexivity.
Qed.
Lemma uidle_run y l : (forall o, In o l -> ystep (huabs y) o = (huabs y, [])) -> yrun (huabs y) l = (huabs y, []).
Proof.
  induction l as [|o l IH]; intros H; [reflexivity|]. cbn [u_run]. rewrite (H o) by (left; reflexivity). rewrite IH by (intros o' Ho; apply H; right; exact Ho). reflexivity.
Qed.
Lemma uidles_run y : yrun (huabs y) (uidles y) = (huabs y, []). Proof. apply uidle_run. intros o. apply uidle_step. Qed.
Lemma uidles_int y : Forall uinternal (uidles y).
Proof using.
  constructor; [exact I|]. apply Forall_forall. intros o Ho. apply filter_In in Ho. destruct Ho as [Ho _].
  cbn in Ho. repeat (destruct Ho as [<-|Ho]; [exact I|]). destruct Ho.
Qed.
Lemma uidles_dis y o : uchan_dis y o = true -> In o (uidles y).
Proof using.
  intros H. right. apply filter_In. split; [|exact H]. unfold uchan_ops. clear -H. destruct o as [c|c|i| | | | |[|]|[|]| | | |f]; try discriminate H; cbn; clear; tauto.
Qed.

Variable y0 : husys C E R S.
Variable sched : nat -> huop C S.
Hypothesis H0 : hui y0.
Definition ust (n : nat) : husys C E R S := fst (hrun y0 (first_steps sched n)).
Lemma ust_S n : ust (Datatypes.S n) = fst (hstep (ust n) (sched n)).
Proof.
  unfold ust. rewrite first_S, hurun_app. destruct (hrun y0 (first_steps sched n)) as [y1 o1]. cbn [hu_run fst]. destruct (hstep y1 (sched n)). reflexivity.
Qed.
Lemma ust_hi n : hui (ust n).
Proof. induction n as [|n IH]; [exact H0|]. rewrite ust_S. pose proof (hu_sim sends need kind act sin dE dR _ (sched n) IH) as H. destruct (hstep (ust n) (sched n)). apply H. Qed.
Definition useg (n : nat) : list (uop C S) := uidles (ust n) ++ husim act (ust n) (sched n).
Lemma useg_ne n : useg n <> []. Proof. discriminate. Qed.
Lemma useg_run n : yrun (huabs y0) (segs useg n) = (huabs (ust n), snd (hrun y0 (first_steps sched n))).
Proof.
  induction n as [|n IH]; [reflexivity|]. rewrite segs_S, urun_app, IH. unfold useg. rewrite urun_app, uidles_run.
  pose proof (hu_sim sends need kind act sin dE dR _ (sched n) (ust_hi n)) as H. rewrite ust_S, first_S, hurun_app. unfold ust in *.
  destruct (hrun y0 (first_steps sched n)) as [y1 o1]. cbn [fst snd hu_run] in *. destruct (hstep y1 (sched n)) as [y2 o2]. destruct H as [_ ->]. cbn [fst snd app]. now rewrite app_nil_r.
Qed.
Theorem uclk_fair : hu_fair ust sched -> exists sched', fair uinternal sched' /\
  (forall P : uop C S -> Prop, (forall o, uinternal o -> P o) -> (forall m, Forall P (utasks [sched m])) -> forall m, P (sched' m)) /\
  (forall n, exists k, (n <= k)%nat /\ yrun (huabs y0) (first_steps sched' k) = (huabs (ust n), snd (hrun y0 (first_steps sched n)))).
Proof.
  intros [F1 F2]. exists (flat USlave useg). split; [|split].
  - intros o Ho n. destruct (uagain sends need kind act sin dE dR ust (fun t => Some (sched t))) with (o := o) (n := n) as (m & Hm & D); auto.
    + intros t. rewrite ust_S. split; [|split]; reflexivity.
    + intros o' Ho' n'. destruct (F1 o' Ho' n') as (m & Hm & Em). exists m. split; [exact Hm|]. now rewrite Em.
    + intros i n'. destruct (F2 i n') as (m1 & m2 & m3 & Hm & E1 & E2 & E3 & Hc). exists m1, m2, m3. rewrite E1, E2, E3. auto.
    + assert (Hin : In o (useg m)). { apply in_or_app. destruct D as [(op & Ep & D)|D]; [right; injection Ep as <-; exact D|left; now apply uidles_dis]. }
      destruct (flat_in USlave useg useg_ne o m Hin) as (k & Hk & Ek). exists k. split; [lia|exact Ek].
  - intros P HP Hs m. destruct (flat_from USlave useg useg_ne m) as (i & Hi). apply in_app_or in Hi. destruct Hi as [Hi|Hi].
    + apply HP. exact (proj1 (Forall_forall _ _) (uidles_int _) _ Hi).
    + exact (proj1 (Forall_forall _ _) (husim_all act P (ust i) (sched i) HP (Hs i)) _ Hi).
  - intros n. exists (length (segs useg n)). split; [apply segs_len; exact useg_ne|]. rewrite flat_first by exact useg_ne. apply useg_run.
Qed.
End Ax.

Section Rw.
Context {TW TR : Type}.
Variable L : Z.
Variable tw : TW -> Z -> list Z -> TW * res unit.
Variable tr : TR -> Z -> Z -> TR * res (list Z).
Variable w2r : TW -> TR -> TR.
Variable r2w : TR -> TW -> TW.
Variables (dW : lev) (dB : resp_t) (dA : lax) (dRd : lrd).
Hypothesis W1 : forall a b r, w2r b (w2r a r) = w2r b r.
Hypothesis W2 : forall a r, r2w (w2r a r) a = a.
Hypothesis R1 : forall a b w, r2w b (r2w a w) = r2w b w.
Hypothesis R2 : forall a w, w2r (r2w a w) a = a.
Notation axrun := (lx_run L tw tr w2r r2w).
Notation axstep := (lx_step L tw tr w2r r2w).
Notation haxstep := (hlx_step L tw tr w2r r2w dW dB dA dRd).
Notation haxrun := (hlx_run L tw tr w2r r2w dW dB dA dRd).
Notation ract := (lrs_act tr L).

Lemma hlxrun_app h1 : forall h2 y, haxrun y (h1 ++ h2) = let '(y1, o1) := haxrun y h1 in let '(y2, o2) := haxrun y1 h2 in (y2, o1 ++ o2).
Proof.
  induction h1 as [|o h1 IH]; intros h2 y; cbn [app hlx_run].
  - destruct (haxrun y h2). reflexivity.
  - destruct (haxstep y o) as [y1 o1]. rewrite IH. destruct (haxrun y1 h1) as [y2 o2]. destruct (haxrun y2 h2) as [y3 o3]. now rewrite app_assoc.
Qed.
Definition vidles (z : hlxs TW TR) : list (lxop TW TR) := map VW (uidles (hv_w z)) ++ map VR (uidles (hv_r z)).
Lemma vidles_run z : vi w2r r2w z -> axrun (vabs z) (vidles z) = (vabs z, []).
Proof.
  intros (H1 & H2 & H3). unfold vidles. rewrite lxrun_app. rewrite (lx_run_w L tw tr w2r r2w) by assumption. cbn [vabs v_w v_r].
  rewrite uidles_run. change (u_s (huabs ?y)) with (hu_s y). unfold vsync in H3. cbn in H3.
  rewrite (utold_r w2r r2w _ _ H3). change (uset_s (huabs (hv_r z)) (hu_s (hv_r z))) with (huabs (hv_r z)). 
  rewrite (lx_run_r L tw tr w2r r2w) by assumption. cbn [vabs v_w v_r]. rewrite uidles_run.  change (u_s (huabs ?y)) with (hu_s y).
  rewrite (utold_w w2r r2w _ _ H3). reflexivity.
Qed.

Variable z0 : hlxs TW TR.
Variable sched : nat -> hlxop TW TR.
Hypothesis H0 : vi w2r r2w z0.
Definition vst (n : nat) : hlxs TW TR := fst (haxrun z0 (first_steps sched n)).
Lemma vst_S n : vst (S n) = fst (haxstep (vst n) (sched n)).
Proof.
  unfold vst. rewrite first_S, hlxrun_app. destruct (haxrun z0 (first_steps sched n)) as [y1 o1]. cbn [hlx_run fst]. destruct (haxstep y1 (sched n)). reflexivity.
Qed.
Lemma vst_zi n : vi w2r r2w (vst n).
Proof.
  induction n as [|n IH]; [exact H0|]. rewrite vst_S. pose proof (v_sim L tw tr w2r r2w dW dB dA dRd W1 W2 R1 R2 _ (sched n) IH) as H.
  destruct (haxstep (vst n) (sched n)). apply H.
Qed.
Definition vseg (n : nat) : list (lxop TW TR) := vidles (vst n) ++ vsim L tr (vst n) (sched n).
Lemma vseg_ne n : vseg n <> []. Proof. discriminate. Qed.
Lemma vseg_run n : axrun (vabs z0) (segs vseg n) = (vabs (vst n), snd (haxrun z0 (first_steps sched n))).
Proof.
  induction n as [|n IH]; [reflexivity|]. rewrite segs_S, lxrun_app, IH. unfold vseg. rewrite lxrun_app, vidles_run by apply vst_zi.
  pose proof (v_sim L tw tr w2r r2w dW dB dA dRd W1 W2 R1 R2 _ (sched n) (vst_zi n)) as H. rewrite vst_S, first_S, hlxrun_app. unfold vst in *.
  destruct (haxrun z0 (first_steps sched n)) as [y1 o1]. cbn [fst snd hlx_run] in *. destruct (haxstep y1 (sched n)) as [y2 o2]. destruct H as [_ ->]. cbn [fst snd app]. now rewrite app_nil_r.
Qed.
Theorem vclk_fair : hlx_fair vst sched -> exists sched', fair lx_internal sched' /\
  (forall P : lxop TW TR -> Prop, (forall o, lx_internal o -> P o) -> (forall m, Forall P (vtasks [sched m])) -> forall m, P (sched' m)) /\
  (forall n, exists k, (n <= k)%nat /\ axrun (vabs z0) (first_steps sched' k) = (vabs (vst n), snd (haxrun z0 (first_steps sched n)))).
Proof.
  intros (F1 & F2 & F3 & F4). exists (flat (VW USlave) vseg). split; [|split].
  - intros o Ho n. destruct o as [o|o].
    + destruct (uagain (lite_w_sends L) (lite_w_need L) lw_kind lws_act (lws_in tw L true) dW dB (fun t => hv_w (vst t))
         (fun t => match sched t with QW o => Some o | QR _ => None end)) with (o := o) (n := n) as (m & Hm & D); auto.
      * apply H0.
      * intros t. rewrite vst_S. destruct (sched t) as [o'|o']; cbn [hlx_step].
        -- unfold lwhsys_step. destruct (hu_step _ _ _ _ _ _ _ _ _) as [w os]. split; [|split]; reflexivity.
        -- unfold lrhsys_step. destruct (hu_step _ _ _ _ _ _ _ _ _) as [w os]. split; [|split]; reflexivity.
      * intros o' Ho' n'. destruct (F1 o' Ho' n') as (m & Hm & Em). exists m. split; [exact Hm|]. now rewrite Em.
      * intros i n'. destruct (F3 i n') as (m1 & m2 & m3 & Hm & E1 & E2 & E3 & Hc). exists m1, m2, m3. rewrite E1, E2, E3. auto.
      * assert (Hin : In (VW o) (vseg m)).
        { apply in_or_app. destruct D as [(op & Ep & D)|D].
          - right. destruct (sched m) as [o'|o']; [|discriminate]. injection Ep as ->. cbn [vsim]. apply in_map. exact D.
          - left. apply in_or_app. left. apply in_map. apply uidles_dis. exact D. }
        destruct (flat_in (VW USlave) vseg vseg_ne (VW o) m Hin) as (k & Hk & Ek). exists k. split; [lia|exact Ek].
    + destruct (uagain (lite_r_sends L) (lite_r_need L) lr_kind ract lrs_in dA dRd (fun t => hv_r (vst t))
         (fun t => match sched t with QW _ => None | QR o => Some o end)) with (o := o) (n := n) as (m & Hm & D); auto.
      * apply H0.
      * intros t. rewrite vst_S. destruct (sched t) as [o'|o']; cbn [hlx_step].
        -- unfold lwhsys_step. destruct (hu_step _ _ _ _ _ _ _ _ _) as [w os]. split; [|split]; reflexivity.
        -- unfold lrhsys_step. destruct (hu_step _ _ _ _ _ _ _ _ _) as [w os]. split; [|split]; reflexivity.
      * intros o' Ho' n'. destruct (F2 o' Ho' n') as (m & Hm & Em). exists m. split; [exact Hm|]. now rewrite Em.
      * intros i n'. destruct (F4 i n') as (m1 & m2 & m3 & Hm & E1 & E2 & E3 & Hc). exists m1, m2, m3. rewrite E1, E2, E3. auto.
      * assert (Hin : In (VR o) (vseg m)).
        { apply in_or_app. destruct D as [(op & Ep & D)|D].
          - right. destruct (sched m) as [o'|o']; [discriminate|]. injection Ep as ->. cbn [vsim]. apply in_map. exact D.
          - left. apply in_or_app. right. apply in_map. apply uidles_dis. exact D. }
        destruct (flat_in (VW USlave) vseg vseg_ne (VR o) m Hin) as (k & Hk & Ek). exists k. split; [lia|exact Ek].
  - intros P HP Hs m. destruct (flat_from (VW USlave) vseg vseg_ne m) as (i & Hi). apply in_app_or in Hi. destruct Hi as [Hi|Hi].
    + apply in_app_or in Hi. destruct Hi as [Hi|Hi]; apply in_map_iff in Hi; destruct Hi as (o & <- & Hi); apply HP; cbn; exact (proj1 (Forall_forall _ _) (uidles_int _) _ Hi).
    + exact (proj1 (Forall_forall _ _) (vsim_all L tr P (vst i) (sched i) HP (Hs i)) _ Hi).
  - intros n. exists (length (segs vseg n)). split; [apply segs_len; exact vseg_ne|]. rewrite flat_first by exact vseg_ne. apply vseg_run.
Qed.
End Rw.
