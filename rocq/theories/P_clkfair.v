(** A fair clocked schedule of the AXI systems is a fair schedule of the systems of M_sys.v and M_axisys.v. *)
From Coq Require Import ZArith Lia List Bool.
From Coq Require Import ZifyBool ZifyNat.
From Verif Require Import Py M_stream M_axi M_axil M_liteeng M_axieng M_cchan P_cchan M_sys S_sys M_litesys S_litesys S_live M_axisys S_axisys M_literw S_literw M_clk S_clk
  P_ulive P_cchanlive P_clk P_clkrw P_flat P_clklive.
Import ListNotations.
Open Scope Z_scope.

Lemma first_S {O} (sched : nat -> O) n : first_steps sched (S n) = first_steps sched n ++ [sched n].
Proof. unfold first_steps. now rewrite seq_S, map_app. Qed.

Section Ax.
Context {C E R S : Type}.
Variable sends : C -> Z -> list E.
Variable opens : E -> bool.
Variable epat : E -> list bool.
Variable chk : bool -> R -> bool.
Variable rtag : R -> Z.
Variable ask : C -> option Z.
Variable idn : Z.
Variable kind : E -> bool.
Variable act : S -> sact R S.
Variable sin : S -> E -> S.
Variable dE : E.
Variable dR : R.
Notation hstep := (h_step sends opens epat chk rtag ask idn kind act sin dE dR).
Notation hrun := (h_run sends opens epat chk rtag ask idn kind act sin dE dR).
Notation ystep := (y_step sends opens epat chk rtag ask idn kind act sin).
Notation yrun := (y_run sends opens epat chk rtag ask idn kind act sin).

Lemma hrun_app h1 : forall h2 y, hrun y (h1 ++ h2) = let '(y1, o1) := hrun y h1 in let '(y2, o2) := hrun y1 h2 in (y2, o1 ++ o2).
Proof.
  induction h1 as [|o h1 IH]; intros h2 y; cbn [app h_run].
  - destruct (hrun y h2). reflexivity.
  - destruct (hstep y o) as [y1 o1]. rewrite IH. destruct (hrun y1 h1) as [y2 o2]. destruct (hrun y2 h2) as [y3 o3]. now rewrite app_assoc.
Qed.

(** steps that are not possible *)
Definition chan_ops : list (yop C S) := [YLoad true; YLoad false; YXfer true; YXfer false; YLoadB; YXferB].
Definition idles (y : hsys C E R S) : list (yop C S) := YStart (length (e_pend (h_m y))) :: filter (chan_dis y) chan_ops.
Lemma load_dis {A} (c : chan A) : can_load c = false -> ch_load c = c.
Proof. unfold can_load, ch_load. destruct (ch_reg c), (ch_src c); try discriminate; reflexivity. Qed.
Lemma xfer_dis {A} (c : chan A) : can_xfer c = false -> ch_xfer c = c.
Proof. unfold can_xfer, ch_xfer. destruct (ch_reg c); [intros ->; reflexivity|reflexivity]. Qed.
Lemma idle_step y o : In o (idles y) -> ystep (habs y) o = (habs y, []).
Proof.
  intros [<-|H].
  - cbn [y_step]. unfold m_step. cbn [x_step habs y_m]. rewrite (proj2 (nth_error_None _ _)) by reflexivity. reflexivity.
  - apply filter_In in H. destruct H as [_ H]. destruct o as [c|c|i| | | |i|i|k|k| | | |f]; try discriminate H; cbn [chan_dis] in H; apply negb_true_iff in H; cbn [y_step].
    + rewrite hfwd_abs, load_dis by exact H. destruct k; reflexivity.
    + rewrite hfwd_abs, xfer_dis by exact H. destruct k; reflexivity.
    + cbn [habs y_b]. rewrite load_dis by exact H. reflexivity.
    + cbn [habs y_b]. rewrite xfer_dis by exact H. reflexivity.
Qed.
Lemma idle_run y l : (forall o, In o l -> ystep (habs y) o = (habs y, [])) -> yrun (habs y) l = (habs y, []).
Proof.
  induction l as [|o l IH]; intros H; [reflexivity|]. cbn [y_run]. rewrite (H o) by (left; reflexivity). rewrite IH by (intros o' Ho; apply H; right; exact Ho). reflexivity.
Qed.
Lemma idles_run y : yrun (habs y) (idles y) = (habs y, []). Proof. apply idle_run. intros o. apply idle_step. Qed.
Lemma idles_int y : Forall internal (idles y).
Proof using.
  constructor; [exact I|]. apply Forall_forall. intros o Ho. apply filter_In in Ho. destruct Ho as [Ho _].
  cbn in Ho. repeat (destruct Ho as [<-|Ho]; [exact I|]). destruct Ho.
Qed.
Lemma idles_dis y o : chan_dis y o = true -> In o (idles y).
Proof using.
  intros H. right. apply filter_In. split; [|exact H]. unfold chan_ops. clear -H. destruct o as [c|c|i| | | |i|i|[|]|[|]| | | |f]; try discriminate H; cbn; clear; tauto.
Qed.

Variable y0 : hsys C E R S.
Variable sched : nat -> hop C S.
Hypothesis H0 : hi y0.
Definition st (n : nat) : hsys C E R S := fst (hrun y0 (first_steps sched n)).
Lemma st_S n : st (Datatypes.S n) = fst (hstep (st n) (sched n)).
Proof.
  unfold st. rewrite first_S, hrun_app. destruct (hrun y0 (first_steps sched n)) as [y1 o1]. cbn [h_run fst]. destruct (hstep y1 (sched n)). reflexivity.
Qed.
Lemma st_hi n : hi (st n).
Proof. induction n as [|n IH]; [exact H0|]. rewrite st_S. pose proof (h_sim sends opens epat chk rtag ask idn kind act sin dE dR _ (sched n) IH) as H. destruct (hstep (st n) (sched n)). apply H. Qed.
Definition seg (n : nat) : list (yop C S) := idles (st n) ++ hsim act (st n) (sched n).
Lemma seg_ne n : seg n <> []. Proof. discriminate. Qed.
Lemma seg_run n : yrun (habs y0) (segs seg n) = (habs (st n), snd (hrun y0 (first_steps sched n))).
Proof.
  induction n as [|n IH]; [reflexivity|]. rewrite segs_S, yrun_app, IH. unfold seg. rewrite yrun_app, idles_run.
  pose proof (h_sim sends opens epat chk rtag ask idn kind act sin dE dR _ (sched n) (st_hi n)) as H. rewrite st_S, first_S, hrun_app. unfold st in *.
  destruct (hrun y0 (first_steps sched n)) as [y1 o1]. cbn [fst snd h_run] in *. destruct (hstep y1 (sched n)) as [y2 o2]. destruct H as [_ ->]. cbn [fst snd app]. now rewrite app_nil_r.
Qed.
Theorem clk_fair : h_fair st sched -> exists sched', fair internal sched' /\
  (forall P : yop C S -> Prop, (forall o, internal o -> P o) -> (forall m, Forall P (tasks [sched m])) -> forall m, P (sched' m)) /\
  (forall n, exists k, (n <= k)%nat /\ yrun (habs y0) (first_steps sched' k) = (habs (st n), snd (hrun y0 (first_steps sched n)))).
Proof.
  intros [F1 F2]. exists (flat YSlave seg). split; [|split].
  - intros o Ho n. destruct (again sends opens epat chk rtag ask idn kind act sin dE dR st (fun t => Some (sched t))) with (o := o) (n := n) as (m & Hm & D); auto.
    + intros t. rewrite st_S. split; [|split]; reflexivity.
    + intros o' Ho' n'. destruct (F1 o' Ho' n') as (m & Hm & Em). exists m. split; [exact Hm|]. now rewrite Em.
    + intros i n'. destruct (F2 i n') as (m1 & m2 & m3 & Hm & E1 & E2 & E3 & Hc). exists m1, m2, m3. rewrite E1, E2, E3. auto.
    + assert (Hin : In o (seg m)). { apply in_or_app. destruct D as [(op & Ep & D)|D]; [right; injection Ep as <-; exact D|left; now apply idles_dis]. }
      destruct (flat_in YSlave seg seg_ne o m Hin) as (k & Hk & Ek). exists k. split; [lia|exact Ek].
  - intros P HP Hs m. destruct (flat_from YSlave seg seg_ne m) as (i & Hi). apply in_app_or in Hi. destruct Hi as [Hi|Hi].
    + apply HP. exact (proj1 (Forall_forall _ _) (idles_int _) _ Hi).
    + exact (proj1 (Forall_forall _ _) (hsim_all act P (st i) (sched i) HP (Hs i)) _ Hi).
  - intros n. exists (length (segs seg n)). split; [apply segs_len; exact seg_ne|]. rewrite flat_first by exact seg_ne. apply seg_run.
Qed.
End Ax.

Section Rw.
Context {TW TR : Type}.
Variable c : mcfg.
Variables widn ridn : Z.
Variable tw : TW -> Z -> list Z -> TW * res unit.
Variable tr : TR -> Z -> Z -> TR * res (list Z).
Variable w2r : TW -> TR -> TR.
Variable r2w : TR -> TW -> TW.
Variables (dW : wev) (dB : bch) (dA : axc) (dRd : rch).
Hypothesis W1 : forall a b r, w2r b (w2r a r) = w2r b r.
Hypothesis W2 : forall a r, r2w (w2r a r) a = a.
Hypothesis R1 : forall a b w, r2w b (r2w a w) = r2w b w.
Hypothesis R2 : forall a w, w2r (r2w a w) a = a.
Notation axrun := (ax_run c widn ridn tw tr w2r r2w).
Notation axstep := (ax_step c widn ridn tw tr w2r r2w).
Notation haxstep := (hax_step c widn ridn tw tr w2r r2w dW dB dA dRd).
Notation haxrun := (hax_run c widn ridn tw tr w2r r2w dW dB dA dRd).
Notation ract := (rs_act tr (m_lanes c)).

Lemma haxrun_app h1 : forall h2 y, haxrun y (h1 ++ h2) = let '(y1, o1) := haxrun y h1 in let '(y2, o2) := haxrun y1 h2 in (y2, o1 ++ o2).
Proof.
  induction h1 as [|o h1 IH]; intros h2 y; cbn [app hax_run].
  - destruct (haxrun y h2). reflexivity.
  - destruct (haxstep y o) as [y1 o1]. rewrite IH. destruct (haxrun y1 h1) as [y2 o2]. destruct (haxrun y2 h2) as [y3 o3]. now rewrite app_assoc.
Qed.
Definition zidles (z : haxs TW TR) : list (aop TW TR) := map BW (idles (hz_w z)) ++ map BR (idles (hz_r z)).
Lemma zidles_run z : zi w2r r2w z -> axrun (zabs z) (zidles z) = (zabs z, []).
Proof.
  intros (H1 & H2 & H3). unfold zidles. rewrite axrun_app. rewrite (ax_run_w c widn ridn tw tr w2r r2w) by assumption. cbn [zabs z_w z_r].
  rewrite idles_run. change (y_s (habs ?y)) with (h_s y). unfold zsync in H3. cbn in H3.
  rewrite (told_r w2r r2w _ _ H3). change (set_s (habs (hz_r z)) (h_s (hz_r z))) with (habs (hz_r z)). 
  rewrite (ax_run_r c widn ridn tw tr w2r r2w) by assumption. cbn [zabs z_w z_r]. rewrite idles_run.  change (y_s (habs ?y)) with (h_s y).
  rewrite (told_w w2r r2w _ _ H3). reflexivity.
Qed.

Variable z0 : haxs TW TR.
Variable sched : nat -> haop TW TR.
Hypothesis H0 : zi w2r r2w z0.
Definition zst (n : nat) : haxs TW TR := fst (haxrun z0 (first_steps sched n)).
Lemma zst_S n : zst (S n) = fst (haxstep (zst n) (sched n)).
Proof.
  unfold zst. rewrite first_S, haxrun_app. destruct (haxrun z0 (first_steps sched n)) as [y1 o1]. cbn [hax_run fst]. destruct (haxstep y1 (sched n)). reflexivity.
Qed.
Lemma zst_zi n : zi w2r r2w (zst n).
Proof.
  induction n as [|n IH]; [exact H0|]. rewrite zst_S. pose proof (z_sim c widn ridn tw tr w2r r2w dW dB dA dRd W1 W2 R1 R2 _ (sched n) IH) as H.
  destruct (haxstep (zst n) (sched n)). apply H.
Qed.
Definition zseg (n : nat) : list (aop TW TR) := zidles (zst n) ++ zsim c tr (zst n) (sched n).
Lemma zseg_ne n : zseg n <> []. Proof. discriminate. Qed.
Lemma zseg_run n : axrun (zabs z0) (segs zseg n) = (zabs (zst n), snd (haxrun z0 (first_steps sched n))).
Proof.
  induction n as [|n IH]; [reflexivity|]. rewrite segs_S, axrun_app, IH. unfold zseg. rewrite axrun_app, zidles_run by apply zst_zi.
  pose proof (z_sim c widn ridn tw tr w2r r2w dW dB dA dRd W1 W2 R1 R2 _ (sched n) (zst_zi n)) as H. rewrite zst_S, first_S, haxrun_app. unfold zst in *.
  destruct (haxrun z0 (first_steps sched n)) as [y1 o1]. cbn [fst snd hax_run] in *. destruct (haxstep y1 (sched n)) as [y2 o2]. destruct H as [_ ->]. cbn [fst snd app]. now rewrite app_nil_r.
Qed.
Theorem zclk_fair : hax_fair zst sched -> exists sched', fair a_internal sched' /\
  (forall P : aop TW TR -> Prop, (forall o, a_internal o -> P o) -> (forall m, Forall P (ztasks [sched m])) -> forall m, P (sched' m)) /\
  (forall n, exists k, (n <= k)%nat /\ axrun (zabs z0) (first_steps sched' k) = (zabs (zst n), snd (haxrun z0 (first_steps sched n)))).
Proof.
  intros (F1 & F2 & F3 & F4). exists (flat (BW YSlave) zseg). split; [|split].
  - intros o Ho n. destruct o as [o|o].
    + destruct (again (w_sends c) w_opens w_epat w_chk b_id op_id widn w_opens ws_act (ws_in tw (m_lanes c) true) dW dB (fun t => hz_w (zst t))
         (fun t => match sched t with KW o => Some o | KR _ => None end)) with (o := o) (n := n) as (m & Hm & D); auto.
      * apply H0.
      * intros t. rewrite zst_S. destruct (sched t) as [o'|o']; cbn [hax_step].
        -- unfold whsys_step. destruct (h_step _ _ _ _ _ _ _ _ _ _ _ _ _ _) as [w os]. split; [|split]; reflexivity.
        -- unfold rhsys_step. destruct (h_step _ _ _ _ _ _ _ _ _ _ _ _ _ _) as [w os]. split; [|split]; reflexivity.
      * intros o' Ho' n'. destruct (F1 o' Ho' n') as (m & Hm & Em). exists m. split; [exact Hm|]. now rewrite Em.
      * intros i n'. destruct (F3 i n') as (m1 & m2 & m3 & Hm & E1 & E2 & E3 & Hc). exists m1, m2, m3. rewrite E1, E2, E3. auto.
      * assert (Hin : In (BW o) (zseg m)).
        { apply in_or_app. destruct D as [(op & Ep & D)|D].
          - right. destruct (sched m) as [o'|o']; [|discriminate]. injection Ep as ->. cbn [zsim]. apply in_map. exact D.
          - left. apply in_or_app. left. apply in_map. apply idles_dis. exact D. }
        destruct (flat_in (BW YSlave) zseg zseg_ne (BW o) m Hin) as (k & Hk & Ek). exists k. split; [lia|exact Ek].
    + destruct (again (r_sends c) r_opens r_epat r_chk r_id op_id ridn r_kind ract (rs_in (m_lanes c)) dA dRd (fun t => hz_r (zst t))
         (fun t => match sched t with KW _ => None | KR o => Some o end)) with (o := o) (n := n) as (m & Hm & D); auto.
      * apply H0.
      * intros t. rewrite zst_S. destruct (sched t) as [o'|o']; cbn [hax_step].
        -- unfold whsys_step. destruct (h_step _ _ _ _ _ _ _ _ _ _ _ _ _ _) as [w os]. split; [|split]; reflexivity.
        -- unfold rhsys_step. destruct (h_step _ _ _ _ _ _ _ _ _ _ _ _ _ _) as [w os]. split; [|split]; reflexivity.
      * intros o' Ho' n'. destruct (F2 o' Ho' n') as (m & Hm & Em). exists m. split; [exact Hm|]. now rewrite Em.
      * intros i n'. destruct (F4 i n') as (m1 & m2 & m3 & Hm & E1 & E2 & E3 & Hc). exists m1, m2, m3. rewrite E1, E2, E3. auto.
      * assert (Hin : In (BR o) (zseg m)).
        { apply in_or_app. destruct D as [(op & Ep & D)|D].
          - right. destruct (sched m) as [o'|o']; [discriminate|]. injection Ep as ->. cbn [zsim]. apply in_map. exact D.
          - left. apply in_or_app. right. apply in_map. apply idles_dis. exact D. }
        destruct (flat_in (BW YSlave) zseg zseg_ne (BR o) m Hin) as (k & Hk & Ek). exists k. split; [lia|exact Ek].
  - intros P HP Hs m. destruct (flat_from (BW YSlave) zseg zseg_ne m) as (i & Hi). apply in_app_or in Hi. destruct Hi as [Hi|Hi].
    + apply in_app_or in Hi. destruct Hi as [Hi|Hi]; apply in_map_iff in Hi; destruct Hi as (o & <- & Hi); apply HP; cbn; exact (proj1 (Forall_forall _ _) (idles_int _) _ Hi).
    + exact (proj1 (Forall_forall _ _) (zsim_all c tr P (zst i) (sched i) HP (Hs i)) _ Hi).
  - intros n. exists (length (segs zseg n)). split; [apply segs_len; exact zseg_ne|]. rewrite flat_first by exact zseg_ne. apply zseg_run.
Qed.
End Rw.
