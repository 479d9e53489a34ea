(** Proofs about AXI stream links with resets. *)
From Coq Require Import ZArith Lia List Bool.
From Coq Require Import ZifyBool ZifyNat.
From Verif Require Import Py M_stream M_axisframe M_axis M_axislink S_axis S_axisrun S_axislink P_axisframe P_axis P_axischan P_axislive.
Import ListNotations.
Open Scope Z_scope.

Section P.
Variable c : scfg.
Hypothesis Hc : cfg_ok c.
Hypothesis Hl : x_last c = true.

(** ** beats of a frame *)
Lemma beats_last g : forall n fo, 0 <= fo < zlen (f_data g) -> zlen (f_data g) - fo <= Z.of_nat n ->
  exists l b, beats_from c g n fo = l ++ [b] /\ Forall (fun x => b_last x = false) l /\ b_last b = true.
Proof.
  induction n as [|n IH]; intros fo H1 H2; [lia|]. cbn [beats_from].
  pose proof (drive_beat_spec c Hc g fo H1) as D. destruct (drive_beat c g fo) as [[b fo'] fin]. destruct D as (E1 & E2 & E3 & _).
  destruct fin.
  - exists [], b. auto.
  - destruct Hc as [HL _]. destruct (IH fo' ltac:(lia) ltac:(lia)) as (l & b' & E & F & G). exists (b :: l), b'. rewrite E. repeat split; auto.
Qed.

Lemma reassemble_open l : forall p, Forall (fun x => b_last x = false) l -> snd (reassemble c p l) = [].
Proof.
  induction l as [|b l IH]; intros p H; [reflexivity|]. inversion H; subst. cbn [reassemble]. unfold rx_beat. rewrite Hl, H2. cbn [negb orb].
  match goal with |- context [reassemble c ?q l] => specialize (IH q H3); destruct (reassemble c q l) as [p' fs] end. exact IH.
Qed.

Lemma prefix_open g b1 b2 : f_data g <> [] -> frame_beats c g = b1 ++ b2 -> b2 <> [] -> snd (reassemble c None b1) = [].
Proof.
  intros Hd E Hb. unfold frame_beats in E. apply nonempty_pos in Hd.
  destruct (beats_last g (length (f_data g)) 0) as (l & b & El & Fl & _); [lia|unfold zlen; lia|].
  rewrite E in El. apply reassemble_open. destruct (exists_last Hb) as (b2' & x & ->). rewrite app_assoc in El.
  apply app_inj_tail in El. destruct El as [El _]. rewrite <- El in Fl. apply Forall_app in Fl. tauto.
Qed.

Lemma norm_data f g : normalize f = Ok g -> f_data g = f_data f.
Proof.
  intros Hg. unfold normalize in Hg. destruct (match f_keep f with Some l => _ | None => _ end); [|discriminate]. cbn [bind] in Hg.
  destruct (fit_sb _ (f_id f)); [|discriminate]. cbn [bind] in Hg. destruct (fit_sb _ (f_dest f)); [|discriminate]. cbn [bind] in Hg.
  destruct (fit_sb _ (f_user f)); [|discriminate]. cbn [bind] in Hg. now injection Hg as <-.
Qed.

(** ** the frame in flight *)
Definition olist (o : option frame) : list frame := match o with Some f => [f] | None => [] end.
Definition queued (s : asrc) : list frame := filter nonempty (map snd (a_q s)).

Definition infl (w r : list beat) (p : option frame) (o : option frame) : Prop :=
  match o with
  | None => w ++ r = [] /\ p = None
  | Some f => nonempty f = true /\ exists g b1, normalize f = Ok g /\ frame_beats c g = b1 ++ w ++ r /\ w ++ r <> [] /\ reassemble c None b1 = (p, [])
  end.

Definition sinfl (s : asrc) (p : option frame) (o : option frame) : Prop :=
  infl (wire s) (rem c (a_cur s)) p o /\ a_active s = match o with Some _ => true | None => false end.

(** the beat on the wires is accepted *)
Lemma infl_accept w r p o : infl w r p o -> 
  let '(p', fs) := reassemble c p w in
  exists fin o', Forall2 (received_as c) fin fs /\ olist o = fin ++ olist o' /\ infl [] r p' o' /\ (o' = None -> r = []).
Proof.
  intros H. destruct o as [f|].
  - destruct H as (Hn & g & b1 & Hg & Eb & Hne & Er).
    assert (Hd : f_data g <> []) by (rewrite (norm_data f g Hg); unfold nonempty in Hn; intros E; rewrite E in Hn; discriminate).
    destruct r as [|x r].
    + rewrite app_nil_r in Eb, Hne. pose proof (frame_beats_reassemble c Hc g Hl Hd) as HR. rewrite Eb, reassemble_app, Er in HR.
      destruct (reassemble c p w) as [p' fs]. cbn [app] in HR. injection HR as -> ->.
      exists [f], None. split; [|cbn; auto]. constructor; [|constructor]. exists g. split; [exact Hg|]. rewrite (frame_beats_reassemble c Hc g Hl Hd). reflexivity.
    + rewrite app_assoc in Eb. pose proof (prefix_open g (b1 ++ w) (x :: r) Hd Eb ltac:(discriminate)) as HO.
      rewrite reassemble_app, Er in HO. destruct (reassemble c p w) as [p' fs] eqn:Ep. cbn [snd app] in HO. subst fs.
      exists [], (Some f). split; [constructor|]. split; [reflexivity|]. split; [|discriminate]. split; [exact Hn|]. exists g, (b1 ++ w).
      split; [exact Hg|]. split; [exact Eb|]. split; [discriminate|]. rewrite reassemble_app, Er, Ep. reflexivity.
  - destruct H as [H ->]. apply app_eq_nil in H. destruct H as [-> ->]. cbn. exists [], None. cbn. repeat split; auto.
Qed.

Lemma rem_ftrue t g fo : 0 <= fo < zlen (f_data g) -> rem c (Some (t, g, fo)) <> [].
Proof. intros H. pose proof (rem_true c Hc t g fo H) as D. destruct (drive_beat c g fo) as [[b fo'] fin]. destruct D as [-> _]. discriminate. Qed.

(** fetch, then drive or hold *)
Lemma infl_next s p o : cur_ok (a_cur s) -> Forall norm_ok (a_q s) -> infl [] (rem c (a_cur s)) p o ->
  (o <> None -> a_active s = true) ->
  exists s1, asrc_fetch s = Ok s1 /\
   let s2 := match a_cur s1 with
            | Some ((t, f), fo) => if (0 <? zlen (f_data f)) && negb (a_pause s1) then asrc_drive c s1 t f fo else asrc_hold s1
            | None => asrc_hold s1 end in
   exists o', sinfl s2 p o' /\ olist o ++ queued s = olist o' ++ queued s2.
Proof.
  intros Hcur Hq Hi Ha.
  assert (Hrun : forall s1 o1, cur_ok (a_cur s1) -> infl [] (rem c (a_cur s1)) p o1 -> (o1 <> None -> a_active s1 = true) ->
    let s2 := match a_cur s1 with
            | Some ((t, f), fo) => if (0 <? zlen (f_data f)) && negb (a_pause s1) then asrc_drive c s1 t f fo else asrc_hold s1
            | None => asrc_hold s1 end in
    sinfl s2 p o1 /\ queued s2 = queued s1).
  { clear s o Hcur Hq Hi Ha. intros s o Hcur Hi Ha. cbv zeta.
    assert (Hh : sinfl (asrc_hold s) p o /\ queued (asrc_hold s) = queued s).
    { split; [|reflexivity]. split; [exact Hi|]. cbn [asrc_hold a_active]. destruct o as [f|].
      - destruct Hi as (_ & g & b1 & _ & _ & Hne & _). cbn [app] in Hne. destruct (ftrue (a_cur s)) eqn:Ef; [reflexivity|].
        now rewrite (rem_false c _ Hcur Ef) in Hne.
      - destruct Hi as [Hr _]. cbn [app] in Hr. destruct (a_cur s) as [[[t g] fo]|]; [|reflexivity]. cbn [ftrue cur_ok] in *.
        destruct (0 <? zlen (f_data g)) eqn:E; [|reflexivity]. exfalso. revert Hr. apply rem_ftrue. lia. }
    destruct (a_cur s) as [[[t g] fo]|] eqn:Ec; [|exact Hh]. destruct ((0 <? zlen (f_data g)) && negb (a_pause s)) eqn:Ed; [|exact Hh].
    clear Hh. apply andb_true_iff in Ed. destruct Ed as [Ed _]. cbn [cur_ok] in Hcur. unfold asrc_drive.
    pose proof (rem_true c Hc t g fo ltac:(lia)) as D. destruct (drive_beat c g fo) as [[b fo'] fin]. destruct D as [D1 D2].
    split; [|reflexivity]. unfold sinfl. cbn [wire a_valid a_beat a_cur a_active].
    destruct o as [f|].
    - split; [|apply Ha; discriminate]. destruct Hi as (Hn & g' & b1 & Hg & Eb & Hne & Er). split; [exact Hn|]. exists g', b1.
      split; [exact Hg|]. split; [exact (eq_trans Eb (f_equal (fun l => b1 ++ l) D1))|]. split; [discriminate|exact Er].
    - exfalso. destruct Hi as [Hr _]. cbn [app] in Hr. revert Hr. apply rem_ftrue. lia. }
  unfold asrc_fetch. destruct (ftrue (a_cur s)) eqn:Ef.
  - exists s. split; [reflexivity|]. exists o. destruct (Hrun s o Hcur Hi Ha) as [R1 R2]. cbv zeta in *. split; [exact R1|]. now rewrite R2.
  - assert (Ho : o = None /\ p = None).
    { rewrite (rem_false c _ Hcur Ef) in Hi. destruct o as [f|]; [|destruct Hi; auto]. destruct Hi as (_ & g & b1 & _ & _ & Hne & _). now cbn in Hne. }
    destruct Ho as [-> ->]. destruct (a_q s) as [|[t f] q] eqn:Eq.
    + exists s. split; [reflexivity|]. exists None. destruct (Hrun s None Hcur Hi Ha) as [R1 R2]. cbv zeta in *. split; [exact R1|]. now rewrite R2.
    + inversion Hq as [|? ? [g Hg] Hq']; subst x l. cbn [snd] in Hg. rewrite Hg. cbn [bind]. eexists. split; [reflexivity|].
      match goal with |- context [a_cur ?x] => set (s1 := x) end.
      pose proof (norm_data f g Hg) as Ed.
      assert (Hcur1 : cur_ok (a_cur s1)) by (cbn; pose proof (zlen_nonneg (f_data g)); lia).
      assert (Er1 : rem c (a_cur s1) = frame_beats c g).
      { cbn [s1 a_cur rem]. rewrite Z.sub_0_r. unfold frame_beats, zlen. now rewrite Nat2Z.id. }
      exists (if nonempty f then Some f else None).
      destruct (Hrun s1 (if nonempty f then Some f else None) Hcur1) as [R1 R2].
      * rewrite Er1. unfold nonempty. destruct (0 <? zlen (f_data f)) eqn:E0; cbn [infl app].
        -- split; [exact E0|]. exists g, []. split; [exact Hg|]. split; [reflexivity|]. split; [|reflexivity].
           rewrite <- Er1. apply rem_ftrue. rewrite Ed. lia.
        -- split; [|reflexivity]. unfold frame_beats. rewrite Ed. assert (E : f_data f = []) by (destruct (f_data f); [reflexivity|rewrite zlen_cons in E0; pose proof (zlen_nonneg l); lia]).
           now rewrite E.
      * reflexivity.
      * cbv zeta in *. split; [exact R1|]. rewrite R2. unfold queued. rewrite Eq. cbn [s1 a_q map snd filter olist app]. now destruct (nonempty f).
Qed.

Lemma infl_edge s p o r : asrc_inv s -> sinfl s p o ->
  let '(p', fs) := reassemble c p (if a_valid s && (negb (x_ready c) || r) then [a_beat s] else []) in
  exists fin o', Forall2 (received_as c) fin fs /\ sinfl (asrc_edge c s r) p' o' /\ olist o ++ queued s = fin ++ olist o' ++ queued (asrc_edge c s r).
Proof.
  intros (Hv & Hcur & Hq & Ha) [Hi Hact].
  assert (Hstay : let '(p', fs) := reassemble c p [] in
     exists fin o', Forall2 (received_as c) fin fs /\ sinfl s p' o' /\ olist o ++ queued s = fin ++ olist o' ++ queued s).
  { cbn. exists [], o. split; [constructor|]. split; [split; auto|reflexivity]. }
  unfold asrc_edge. destruct (a_task s) eqn:Et.
  - assert (Ev : a_valid s = false) by (destruct (a_valid s); [specialize (Hv eq_refl); discriminate|reflexivity]). rewrite Ev. exact Hstay.
  - destruct ((negb (x_ready c) || r) && a_valid s || negb (a_valid s)) eqn:Eg.
    + assert (Eacc : (if a_valid s && (negb (x_ready c) || r) then [a_beat s] else []) = wire s).
      { unfold wire. destruct (a_valid s); [|reflexivity]. rewrite andb_true_r, orb_false_r in Eg. now rewrite Eg. }
      rewrite Eacc. clear Eacc. pose proof (infl_accept _ _ _ _ Hi) as A. destruct (reassemble c p (wire s)) as [p' fs].
      destruct A as (fin & o1 & A1 & A2 & A3 & A4).
      destruct (infl_next s p' o1 Hcur Hq A3) as (s1 & E1 & o' & B1 & B2).
      { intros Hn. rewrite Hact. destruct o; [reflexivity|]. destruct o1; [|congruence]. destruct fin; discriminate. }
      rewrite E1. exists fin, o'. split; [exact A1|]. split; [exact B1|]. rewrite A2, <- app_assoc. f_equal. exact B2.
    + assert (Ev : a_valid s = true) by (destruct (a_valid s); [reflexivity|rewrite orb_true_r in Eg; discriminate]).
      rewrite Ev in *. rewrite andb_true_r, orb_false_r in Eg. rewrite Eg. exact Hstay.
  - assert (Ev : a_valid s = false) by (destruct (a_valid s); [specialize (Hv eq_refl); discriminate|reflexivity]). rewrite Ev. exact Hstay.
Qed.

(** ** the link *)
Definition snk_ok (h : achan) : Prop :=
  (z_task (ac_snk h) = KStart \/ z_task (ac_snk h) = KDead -> z_part (ac_snk h) = None) /\
  (z_task (ac_snk h) = KSleep -> a_valid (ac_src h) && (negb (x_ready c) || z_ready (ac_snk h)) = false).
Definition mon_ok (h : achan) (m : amon) : Prop :=
  n_valid m = a_valid (ac_src h) /\ n_ready m = z_ready (ac_snk h) /\ n_beat m = a_beat (ac_src h) /\
  (n_task m = MStart \/ n_task m = MDead -> n_part m = None) /\
  (n_task m = MSleep -> n_valid m && (negb (x_ready c) || n_ready m) = false).

(** under reset everything is dead and the source's signals are low *)
Definition rst_ok (hi : bool) (h : achan) (m : amon) : Prop :=
  if hi then a_task (ac_src h) = TDead /\ a_valid (ac_src h) = false /\ z_task (ac_snk h) = KDead /\ n_task m = MDead
  else alive (ac_src h) /\ z_task (ac_snk h) <> KDead /\ n_task m <> MDead.

Record linv (hi : bool) (l : alink) : Prop := {
  li_src : asrc_inv (ac_src (k_ch l));
  li_snk : snk_ok (k_ch l);
  li_mon : mon_ok (k_ch l) (k_mon l);
  li_rst : rst_ok hi (k_ch l) (k_mon l) }.

Definition lop_norm (o : lop) : Prop := match o with LSrc o => op_norm o | _ => True end.
Definition shared (o : lop) : bool := match o with LSrc (AReset _) | LSnk (ZReset _) | LMon (NReset _) => false | _ => true end.
Definition next_hi (hi : bool) (o : lop) : bool := match o with LRst b => b | _ => hi end.

Lemma lk_shared o : lk_ok o -> shared o = true /\ lop_norm o.
Proof.
  intros (H1 & H2 & H3 & H4). split.
  - destruct o as [[]|[]|[]| |]; cbn; try reflexivity; exfalso; [eapply H1|eapply H2|eapply H3]; reflexivity.
  - destruct o as [[]| | | |]; cbn; auto. destruct (normalize_spec f (H4 tag f eq_refl)) as (g & E & _). eauto.
Qed.

(** new signals *)
Lemma sig_ok h h' m : mon_ok h m -> mon_ok h' (lsig c h' m).
Proof.
  intros (E1 & E2 & E3 & H1 & H2). unfold mon_ok, lsig. cbn. repeat split; auto.
  - intros X. apply H1. destruct (n_task m); auto. destruct (rises (n_valid m) (a_valid (ac_src h')) || x_ready c && rises (n_ready m) (z_ready (ac_snk h'))); destruct X; discriminate.
  - destruct (n_task m) eqn:Et; try discriminate. specialize (H2 eq_refl).
    destruct (rises (n_valid m) (a_valid (ac_src h')) || x_ready c && rises (n_ready m) (z_ready (ac_snk h'))) eqn:E; [discriminate|]. intros _.
    unfold rises in E. destruct (x_ready c), (n_valid m), (n_ready m), (a_valid (ac_src h')), (z_ready (ac_snk h')); cbn in *; congruence.
Qed.
Lemma sig_dead h m : n_task (lsig c h m) = MDead <-> n_task m = MDead.
Proof. unfold lsig. cbn. destruct (n_task m); try tauto; try (split; discriminate). destruct (_ || _); split; discriminate. Qed.
Lemma sig_rst hi h h' m : rst_ok hi h m -> rst_ok hi h (lsig c h' m).
Proof. pose proof (sig_dead h' m). unfold rst_ok. destruct hi; tauto. Qed.
Lemma sig_q h m : n_q (lsig c h m) = n_q m /\ n_part (lsig c h m) = n_part m.
Proof. split; reflexivity. Qed.

Lemma alive_any s o : op_norm o -> asrc_inv s -> (forall b, o <> AReset b) -> alive s -> alive (asrc_step c s o).
Proof.
  intros Hn Hs Hr Ha. destruct (aquiet o) eqn:E; [now apply alive_step|].
  destruct o as [| | | |b|]; try discriminate; [|now destruct (Hr b)].
  destruct Ha as [A1 A2]. split; cbn; auto. intros Et. destruct (A2 Et). auto.
Qed.
Lemma inv_any s o : op_norm o -> asrc_inv s -> asrc_inv (asrc_step c s o).
Proof.
  intros Hn Hs. destruct (aquiet o) eqn:E; [now apply asrc_step_inv|]. destruct Hs as (Hv & Hcur & Hq & Ha).
  destruct o as [| | | |[|]|]; try discriminate; cbn [asrc_step].
  - split; [exact Hv|]. split; [exact Hcur|]. split; [constructor|exact Ha].
  - split; [discriminate|]. split; [exact I|]. split; [exact Hq|]. auto.
Qed.
Lemma src_op_fields s o : (forall r, o <> AEdge r) -> (forall b, o <> AReset b) ->
  a_valid (asrc_step c s o) = a_valid s /\ a_beat (asrc_step c s o) = a_beat s /\ a_active (asrc_step c s o) = a_active s /\
  a_cur (asrc_step c s o) = a_cur s /\ (a_task s = TDead -> a_task (asrc_step c s o) = TDead).
Proof.
  intros H1 H2. destruct o as [t f|b|lb lf| |b|r]; cbn [asrc_step]; auto 6.
  - destruct (asrc_full s); cbn; auto 6. repeat split; auto. intros ->. reflexivity.
  - now destruct (H2 b).
  - now destruct (H1 r).
Qed.
Lemma src_op_h h o : (forall r, o <> AEdge r) -> achan_step c h (ACSrc o) = {| ac_src := asrc_step c (ac_src h) o; ac_snk := ac_snk h |}.
Proof. intros H. destruct o; try reflexivity. now destruct (H ready). Qed.

Lemma snk_op k o : (forall b, o <> ZReset b) -> (z_task k = KStart \/ z_task k = KDead -> z_part k = None) ->
  let k' := asnk_step c k o in
  z_part k' = z_part k /\ z_ready k' = z_ready k /\ (z_task k' = KStart -> z_task k = KStart) /\ (z_task k' = KSleep -> z_task k = KSleep) /\
  (z_task k' = KDead <-> z_task k = KDead).
Proof.
  intros Hr Hs. cbv zeta. destruct o as [b|lb lf|r| |b|]; cbn [asnk_step].
  - destruct (Bool.eqb _ _); cbn; [tauto|]. destruct (z_task k); repeat split; auto; discriminate.
  - cbn. tauto.
  - destruct (recv_task k r) as [E ->]. destruct (recv_fields k r) as (_ & -> & _). split; [reflexivity|]. split; [reflexivity|].
    destruct E as [[-> _]| ->]; [tauto|]. destruct (z_task k); repeat split; auto; discriminate.
  - cbn. tauto.
  - now destruct (Hr b).
  - cbn. destruct (z_task k); repeat split; auto; try discriminate. symmetry. auto.
Qed.

(** clock edges *)
Lemma snk_edge_task k v b : (z_task (asnk_edge c k v b) = KDead <-> z_task k = KDead) /\ z_task (asnk_edge c k v b) <> KStart.
Proof.
  destruct k as [q p rq ob of lb lf ps w t r]. unfold asnk_edge. destruct t; cbn; try (split; [tauto|discriminate]);
  match goal with |- context [let '(x, y) := ?e in _] => destruct e as [? ?] end; cbn;
  match goal with |- context [if ?b then (if ?n then _ else KSleep) else _] => destruct b, n; (split; [split; discriminate|discriminate]) end.
Qed.
Lemma clk_dead h : z_task (ac_snk (achan_step c h ACClk)) = KDead <-> z_task (ac_snk h) = KDead.
Proof.
  destruct (snk_edge_task (ac_snk h) (a_valid (ac_src h)) (a_beat (ac_src h))) as [E _]. rewrite <- E. clear E.
  cbn [achan_step]. unfold asettle. cbn [ac_src ac_snk].
  match goal with |- context [if ?b then _ else _] => destruct b end; [|tauto]. cbn [ac_snk asnk_wake z_task].
  destruct (z_task (asnk_edge _ _ _ _)); split; auto; discriminate.
Qed.
Lemma snk_edge_dead_part k v b : z_task k = KDead -> asnk_edge c k v b = k.
Proof. destruct k as [q p rq ob of lb lf ps w t r]. cbn. intros ->. reflexivity. Qed.

Lemma clk_snk_ok h : asrc_inv (ac_src h) -> snk_ok h -> snk_ok (achan_step c h ACClk).
Proof.
  intros Hs [K1 K2]. destruct h as [s k]. cbn [ac_src ac_snk] in *. cbn [achan_step ac_src ac_snk]. unfold asettle. cbn [ac_src ac_snk].
  destruct (snk_edge_task k (a_valid s) (a_beat s)) as [E1 E2].
  assert (E3 : z_task (asnk_edge c k (a_valid s) (a_beat s)) = KDead -> z_part (asnk_edge c k (a_valid s) (a_beat s)) = None).
  { intros E. apply E1 in E. rewrite (snk_edge_dead_part _ _ _ E). auto. }
  pose proof (asnk_edge_sleep c k (a_valid s) (a_beat s)) as E4.
  set (s' := asrc_edge c s (z_ready k)) in *. set (k' := asnk_edge c k (a_valid s) (a_beat s)) in *.
  destruct (rises (a_valid s) (a_valid s') || (x_ready c && rises (z_ready k) (z_ready k'))) eqn:Er; unfold snk_ok; cbn [ac_src ac_snk].
  - cbn. clearbody k'. destruct (z_task k'); split; auto; intuition discriminate.
  - split; [intros [X|X]; [congruence|auto]|]. intros Ek. apply orb_false_iff in Er. destruct Er as [Er1 Er2]. unfold rises in *.
    destruct (E4 Ek) as [[H1 H2]|[H1|[H1 H2]]].
    + specialize (K2 H1). rewrite H2. clearbody s' k'. destruct (x_ready c), (a_valid s), (a_valid s'), (z_ready k); cbn in *; congruence.
    + rewrite H1 in Er1. cbn in Er1. now rewrite Er1.
    + rewrite H1, H2. apply andb_false_r.
Qed.

Lemma mon_edge_dead m : n_task (amon_edge c m) = MDead <-> n_task m = MDead.
Proof.
  destruct m as [q p rq ob of w t v r b]. unfold amon_edge. destruct t; cbn; try tauto;
  (destruct (_ && _); [destruct (rx_beat _ _ _) as [? ?]|]); cbn; try (split; discriminate);
  match goal with |- context [if ?b then _ else MSleep] => destruct b; split; discriminate end.
Qed.
Lemma mon_edge_ok h m : mon_ok h m -> mon_ok h (amon_edge c m).
Proof.
  intros (E1 & E2 & E3 & H1 & H2). unfold mon_ok. destruct m as [q p rq ob of w t v r b]. cbn in *. unfold amon_edge. destruct t; cbn; auto;
  (destruct ((negb (x_ready c) || r) && v) eqn:Ef; [destruct (rx_beat _ _ _) as [? ?]|]); cbn; repeat split; auto;
  try (intuition discriminate); rewrite andb_comm in Ef; auto;
  try (match goal with |- context [if ?b then _ else MSleep] => destruct b end; intuition discriminate).
Qed.

Lemma linv_step hi l o : shared o = true -> lop_norm o -> linv hi l -> linv (next_hi hi o) (lstep c l o).
Proof.
  intros Ho Hn [Hs Hk Hm Hr]. destruct l as [h m]. cbn [k_ch k_mon] in *. destruct o as [o|o|o|b|]; cbn [next_hi].
  - cbn [lop_norm] in Hn. destruct (match o with AEdge _ => true | _ => false end) eqn:Ee.
    + destruct o as [| | | | |r]; try discriminate. change (lstep c _ _) with {| k_ch := h; k_mon := lsig c h m |}. constructor; cbn [k_ch k_mon]; auto.
      * now apply (sig_ok h).
      * now apply sig_rst.
    + assert (He : forall r, o <> AEdge r) by (intros r ->; discriminate).
      assert (Hb : forall b, o <> AReset b) by (intros b ->; discriminate).
      cbn [lstep k_ch k_mon]. rewrite (src_op_h h o He). destruct (src_op_fields (ac_src h) o He Hb) as (E1 & E2 & E3 & E4 & E5).
      set (h' := {| ac_src := asrc_step c (ac_src h) o; ac_snk := ac_snk h |}).
      constructor; cbn [k_ch k_mon].
      * apply inv_any; auto.
      * unfold snk_ok in *. cbn. rewrite E1. exact Hk.
      * now apply (sig_ok h).
      * apply sig_rst. unfold rst_ok in *. cbn [h' ac_src ac_snk]. rewrite E1. destruct hi.
        -- destruct Hr as (R1 & R2 & R3 & R4). auto.
        -- destruct Hr as (R1 & R2 & R3). split; [|auto]. now apply alive_any.
  - assert (Hb : forall b, o <> ZReset b) by (intros b ->; discriminate).
    destruct Hk as [K1 K2]. pose proof (snk_op (ac_snk h) o Hb K1) as (E1 & E2 & E3 & E4 & E5).
    cbn [lstep k_ch k_mon achan_step]. set (h' := {| ac_src := ac_src h; ac_snk := asnk_step c (ac_snk h) o |}).
    constructor; cbn [k_ch k_mon]; auto.
    + unfold snk_ok. cbn [h' ac_src ac_snk]. rewrite E1, E2. split; [intros X; apply K1; tauto|auto].
    + now apply (sig_ok h).
    + apply sig_rst. unfold rst_ok in *. cbn [h' ac_src ac_snk]. destruct hi; tauto.
  - assert (Hid : linv hi {| k_ch := h; k_mon := m |}) by (constructor; auto).
    destruct o as [v r b|r| |b| |]; cbn [lstep k_ch k_mon]; auto; try discriminate.
    + constructor; cbn [k_ch k_mon]; auto; cbn [amon_step]; destruct (mrecv_task m r) as (T1 & T2 & T3 & T4 & T5).
      * unfold mon_ok in *. rewrite T1, T2, T3, T4, T5. exact Hm.
      * unfold rst_ok in *. rewrite T1. exact Hr.
    + constructor; cbn [k_ch k_mon]; auto.
    + destruct Hm as (E1 & E2 & E3 & H1 & H2). constructor; cbn [k_ch k_mon]; auto.
      * unfold mon_ok. cbn. repeat split; auto; destruct (n_task m); auto; intros; try discriminate; intuition discriminate.
      * unfold rst_ok in *. cbn. destruct hi.
        -- destruct Hr as (R1 & R2 & R3 & R4). rewrite R4. auto.
        -- destruct Hr as (R1 & R2 & R3). split; [auto|]. split; [auto|]. destruct (n_task m); congruence.
  - destruct Hm as (E1 & E2 & E3 & H1 & H2).
    assert (Hs' : asrc_inv (asrc_step c (ac_src h) (AReset b))) by (apply inv_any; [exact I|exact Hs]).
    cbn [lstep k_ch k_mon achan_step ac_src ac_snk].
    set (h' := {| ac_src := asrc_step c (ac_src h) (AReset b); ac_snk := asnk_step c (ac_snk h) (ZReset b) |}).
    assert (Hm1 : mon_ok h (amon_step c m (NReset b))).
    { unfold mon_ok. destruct b; cbn.
      - repeat split; auto; discriminate.
      - repeat split; auto; destruct (n_task m) eqn:Et; auto; discriminate. }
    constructor; cbn [k_ch k_mon]; auto.
    + unfold snk_ok. destruct b; cbn [h' ac_src ac_snk asnk_step asrc_step z_task z_part z_ready a_valid].
      * split; [auto|discriminate].
      * destruct Hk as [K1 K2]. split; destruct (z_task (ac_snk h)) eqn:Et; auto; try discriminate.
    + now apply (sig_ok h).
    + apply sig_rst. unfold rst_ok in *. destruct b; cbn [h' ac_src ac_snk asnk_step asrc_step z_task a_task a_valid amon_step n_task].
      * auto.
      * split; [|split; [destruct (z_task (ac_snk h))|destruct (n_task m)]; discriminate].
        unfold alive. cbn. destruct hi; [destruct Hr as (-> & _); split; discriminate|]. destruct Hr as ([A1 A2] & _).
        destruct (a_task (ac_src h)); split; try discriminate; auto; congruence.
  - cbn [lstep k_ch k_mon]. constructor; cbn [k_ch k_mon].
    + rewrite clk_src. now apply asrc_edge_spec.
    + now apply clk_snk_ok.
    + apply (sig_ok h). now apply mon_edge_ok.
    + apply sig_rst. unfold rst_ok in *. rewrite clk_src. pose proof (clk_dead h) as D. pose proof (mon_edge_dead m) as Dm. destruct hi.
      * destruct Hr as (R1 & R2 & R3 & R4). assert (E : asrc_edge c (ac_src h) (z_ready (ac_snk h)) = ac_src h) by (unfold asrc_edge; now rewrite R1).
        rewrite E. tauto.
      * destruct Hr as (R1 & R2 & R3). split; [now apply alive_edge|tauto].
Qed.

(** ** the ledger *)
Lemma led_send s a n p x : ledger s a n p -> ledger (s ++ x) a n (p ++ x).
Proof using. clear c Hc Hl.
  intros (d & e & -> & H1 & H2 & H3). exists d, (e ++ map (fun f => (f, true)) x).
  assert (E : forall y : list frame, map fst (map (fun f => (f, true)) y) = y /\ filter snd (map (fun f => (f, true)) y) = map (fun f => (f, true)) y /\
     filter (fun z => negb (snd z)) (map (fun f => (f, true)) y) = []).
  { induction y as [|f y (I1 & I2 & I3)]; cbn; rewrite ?I1, ?I2, ?I3; auto. }
  destruct (E x) as (E1 & E2 & E3). rewrite !filter_app, !map_app, E1, E2, E3, E1, app_nil_r. rewrite app_assoc. repeat split; auto. now rewrite H2.
Qed.

Lemma split_true (e : list (frame * bool)) f p : map fst (filter snd e) = f :: p ->
  exists e1 e2, e = e1 ++ (f, true) :: e2 /\ filter snd e1 = [] /\ map fst (filter snd e2) = p.
Proof using. clear c Hc Hl.
  induction e as [|[g [|]] e IH]; cbn; intros H; [discriminate| |].
  - injection H as -> H. exists [], e. auto.
  - destruct (IH H) as (e1 & e2 & -> & H1 & H2). exists ((g, false) :: e1), e2. auto.
Qed.

Lemma led_arrive s a n f p : ledger s a n (f :: p) -> ledger s (a ++ [f]) n p.
Proof using. clear c Hc Hl.
  intros (d & e & -> & <- & H2 & <-). destruct (split_true e f p H2) as (e1 & e2 & -> & E1 & E2).
  exists (d ++ e1 ++ [(f, true)]), e2. rewrite !filter_app, !map_app, E1. cbn. rewrite <- !app_assoc. cbn. repeat split; auto.
  rewrite ?filter_app, ?app_length. cbn. lia.
Qed.

Lemma split_at (e : list (frame * bool)) p q : map fst (filter snd e) = p ++ q ->
  exists e1 e2, e = e1 ++ e2 /\ map fst (filter snd e1) = p /\ map fst (filter snd e2) = q.
Proof using. clear c Hc Hl.
  revert e. induction p as [|f p IH]; intros e H.
  - exists [], e. auto.
  - destruct (split_true e f (p ++ q) H) as (e1 & e2 & -> & E1 & E2). destruct (IH e2 E2) as (e3 & e4 & -> & E3 & E4).
    exists (e1 ++ (f, true) :: e3), e4. rewrite <- app_assoc. cbn. rewrite filter_app, map_app, E1. cbn. rewrite E3. auto.
Qed.

Lemma led_drop s a n p x q : ledger s a n (p ++ x ++ q) -> ledger s a (n + length x) (p ++ q).
Proof using. clear c Hc Hl.
  intros (d & e & -> & <- & H2 & <-). destruct (split_at e p (x ++ q) H2) as (e1 & e2 & -> & <- & E2).
  destruct (split_at e2 x q E2) as (e3 & e4 & -> & <- & <-).
  exists d, (e1 ++ map (fun y => (fst y, false)) e3 ++ e4).
  assert (E : forall y : list (frame * bool), map fst (map (fun z => (fst z, false)) y) = map fst y /\ filter snd (map (fun z => (fst z, false)) y) = [] /\
     length (filter (fun z => negb (snd z)) (map (fun z => (fst z, false)) y)) = (length (filter (fun z => negb (snd z)) y) + length (filter snd y))%nat).
  { induction y as [|[f [|]] y (I1 & I2 & I3)]; cbn; rewrite ?I1, ?I2, ?I3; repeat split; auto; lia. }
  destruct (E e3) as (E1 & E3 & E4). rewrite !filter_app, !map_app, E1, E3. cbn. repeat split; auto.
  rewrite ?filter_app, ?app_length, E4, map_length. lia.
Qed.

Record G (e : lseen) (hi : bool) (l : alink) : Prop := {
  g_inv : linv hi l;
  g_part : n_part (k_mon l) = z_part (ac_snk (k_ch l));
  g_mon : e_mon e ++ n_q (k_mon l) = e_got e ++ z_q (ac_snk (k_ch l));
  g_led : exists o arr, sinfl (ac_src (k_ch l)) (z_part (ac_snk (k_ch l))) o /\
     ledger (filter nonempty (map snd (e_sent e))) arr (e_lost e) (olist o ++ queued (ac_src (k_ch l))) /\
     Forall2 (received_as c) arr (e_got e ++ z_q (ac_snk (k_ch l))) }.

(** what a clock edge brings *)
Lemma snk_clk hi l : linv hi l ->
  let h := k_ch l in let h' := achan_step c h ACClk in
  let acc := if a_valid (ac_src h) && (negb (x_ready c) || z_ready (ac_snk h)) then [a_beat (ac_src h)] else [] in
  let '(p, fs) := reassemble c (z_part (ac_snk h)) acc in
  z_part (ac_snk h') = p /\ z_q (ac_snk h') = z_q (ac_snk h) ++ fs.
Proof.
  intros [Hs [K1 K2] Hm Hr]. destruct l as [[s k] m]. cbn [k_ch k_mon ac_src ac_snk] in *. cbv zeta.
  set (k' := asnk_edge c k (a_valid s) (a_beat s)).
  assert (G : let '(p, fs) := reassemble c (z_part k) (if a_valid s && (negb (x_ready c) || z_ready k) then [a_beat s] else []) in
     z_part k' = p /\ z_q k' = z_q k ++ fs).
  { destruct (z_task k) eqn:Et.
    1: { unfold k'. rewrite (snk_edge_dead_part _ _ _ Et). assert (Ev : a_valid s = false) by (destruct hi; cbn in Hr; tauto).
      rewrite Ev. cbn. now rewrite app_nil_r. }
    4: { rewrite (K2 eq_refl). cbn [reassemble]. rewrite app_nil_r. unfold k', asnk_edge. cbn [asnk_run z_task]. rewrite Et. cbn. rewrite Et. auto. }
    all: pose proof (asnk_edge_q c k (a_valid s) (a_beat s) ltac:(congruence) ltac:(congruence) ltac:(rewrite Et; intros; apply K1; auto)) as Q; fold k' in Q;
      rewrite andb_comm in Q; destruct (a_valid s && (negb (x_ready c) || z_ready k)); cbn [reassemble];
      [destruct (rx_beat c (z_part k) (a_beat s)) as [p fs]; injection Q as -> ->; now rewrite app_nil_r|
       injection Q as -> ->; now rewrite app_nil_r]. }
  cbn [achan_step ac_src ac_snk]. unfold asettle. cbn [ac_src ac_snk]. fold k'.
  destruct (reassemble c (z_part k) (if a_valid s && (negb (x_ready c) || z_ready k) then [a_beat s] else [])) as [p fs].
  match goal with |- context [if ?b then _ else _] => destruct b end; exact G.
Qed.

Lemma mon_clk hi l : linv hi l ->
  let h := k_ch l in let m := k_mon l in
  let acc := if a_valid (ac_src h) && (negb (x_ready c) || z_ready (ac_snk h)) then [a_beat (ac_src h)] else [] in
  let '(p, fs) := reassemble c (n_part m) acc in
  n_part (amon_edge c m) = p /\ n_q (amon_edge c m) = n_q m ++ fs.
Proof.
  intros [Hs Hk (E1 & E2 & E3 & H1 & H2) Hr]. destruct l as [[s k] m]. cbn [k_ch k_mon ac_src ac_snk] in *. cbv zeta.
  rewrite <- E1, <- E2, <- E3.
  assert (Ez : match n_task m with MStart => None | _ => n_part m end = n_part m) by (destruct (n_task m); auto; now rewrite H1 by auto).
  unfold amon_edge. cbn [amon_start n_task n_part n_q n_ready n_valid n_beat]. rewrite Ez. destruct (n_task m) eqn:Et.
  - assert (Ev : n_valid m = false) by (rewrite E1; destruct hi; cbn in Hr; tauto). rewrite Ev. cbn. rewrite Et, app_nil_r. auto.
  - rewrite (andb_comm _ (n_valid m)). destruct (n_valid m && (negb (x_ready c) || n_ready m)); cbn [reassemble].
    + destruct (rx_beat c (n_part m) (n_beat m)) as [p fs]. cbn. now rewrite app_nil_r.
    + cbn. now rewrite app_nil_r.
  - rewrite (andb_comm _ (n_valid m)). destruct (n_valid m && (negb (x_ready c) || n_ready m)); cbn [reassemble].
    + destruct (rx_beat c (n_part m) (n_beat m)) as [p fs]. cbn. now rewrite app_nil_r.
    + cbn. now rewrite app_nil_r.
  - rewrite (H2 eq_refl). cbn. rewrite Et, app_nil_r. auto.
Qed.

Lemma snk_op_q k o : (forall b, o <> ZReset b) ->
  match o with ZRecv r => taken r (z_readq k) (z_q k) | ZClear => z_q k | _ => [] end ++ z_q (asnk_step c k o) = z_q k.
Proof.
  intros Hr. destruct o as [b|lb lf|r| |b|]; cbn [asnk_step]; auto.
  - destruct (Bool.eqb _ _); reflexivity.
  - apply recv_taken.
  - cbn. apply app_nil_r.
  - now destruct (Hr b).
Qed.

Lemma G_step e hi l o : shared o = true -> lop_norm o -> G e hi l -> G (ljoin e (lsee l o)) (next_hi hi o) (lstep c l o).
Proof.
  intros Ho Hn [Gi Gp Gm (fl & arr & Gs & Gl & Ga)]. pose proof (linv_step hi l o Ho Hn Gi) as Gi'.
  destruct o as [o|o|o|b|].
  - destruct (match o with AEdge _ => true | _ => false end) eqn:Ee.
    + destruct o as [| | | | |r]; try discriminate. constructor; auto; cbn; rewrite ?app_nil_r; auto. exists fl, arr. rewrite Nat.add_0_r. auto.
    + assert (He : forall r, o <> AEdge r) by (intros r ->; discriminate).
      assert (Hb : forall b, o <> AReset b) by (intros b ->; discriminate).
      destruct (src_op_fields (ac_src (k_ch l)) o He Hb) as (E1 & E2 & E3 & E4 & E5).
      constructor; auto; cbn [lstep k_ch k_mon ljoin lsee e_sent e_got e_mon e_lost]; rewrite (src_op_h (k_ch l) o He); cbn [ac_src ac_snk].
      * exact Gp.
      * rewrite !app_nil_r. exact Gm.
      * assert (Gs' : sinfl (asrc_step c (ac_src (k_ch l)) o) (z_part (ac_snk (k_ch l))) fl).
        { unfold sinfl, wire in *. rewrite E1, E2, E3, E4. exact Gs. }
        exists fl, arr. split; [exact Gs'|]. rewrite app_nil_r. split; [|exact Ga].
        destruct o as [t f|b|lb lf| |b|r]; cbn [asrc_step]; try discriminate; rewrite ?app_nil_r, ?Nat.add_0_r; auto.
        -- destruct (asrc_full (ac_src (k_ch l))); rewrite ?app_nil_r; auto. rewrite map_app, filter_app.
           unfold queued. cbn [a_q]. rewrite map_app, filter_app, app_assoc. now apply led_send.
        -- rewrite <- (app_nil_r (olist fl)). apply led_drop. rewrite app_nil_r. exact Gl.
  - assert (Hb : forall b, o <> ZReset b) by (intros b ->; discriminate).
    destruct Gi as [Hs [K1 K2] Hm Hr]. pose proof (snk_op (ac_snk (k_ch l)) o Hb K1) as (E1 & _).
    pose proof (snk_op_q (ac_snk (k_ch l)) o Hb) as Eq.
    constructor; auto; cbn [lstep k_ch k_mon achan_step ac_src ac_snk ljoin lsee e_sent e_got e_mon e_lost] in *; rewrite ?E1, ?app_nil_r; auto.
    + rewrite <- app_assoc, Eq. exact Gm.
    + exists fl, arr. split; [exact Gs|]. rewrite Nat.add_0_r, <- app_assoc, Eq. auto.
  - assert (Hsnk : forall m', n_part m' = n_part (k_mon l) -> match o with NRecv r => taken r (n_readq (k_mon l)) (n_q (k_mon l)) | NClear => n_q (k_mon l) | _ => [] end ++ n_q m' = n_q (k_mon l) ->
       linv hi {| k_ch := k_ch l; k_mon := m' |} -> G (ljoin e (lsee l (LMon o))) hi {| k_ch := k_ch l; k_mon := m' |}).
    { intros m' Ep Eq Hi. constructor; auto; cbn [k_ch k_mon ljoin lsee e_sent e_got e_mon e_lost].
      - now rewrite Ep.
      - rewrite <- app_assoc, Eq, app_nil_r. exact Gm.
      - exists fl, arr. rewrite !app_nil_r, Nat.add_0_r. auto. }
    destruct l as [h m]. cbn [k_ch k_mon] in *.
    destruct o as [v r b|r| |b| |]; try discriminate; cbn [lstep k_ch k_mon next_hi] in *; apply Hsnk; auto.
    + apply mrecv_task.
    + apply mrecv_taken.
    + cbn. apply app_nil_r.
    + cbn. destruct Gi as [_ _ (_ & _ & _ & H1 & _) _]. cbn [k_mon] in H1. destruct (n_task m); auto. now rewrite H1 by auto.
  - constructor; auto; cbn [lstep k_ch k_mon achan_step ac_src ac_snk ljoin lsee e_sent e_got e_mon e_lost]; rewrite ?app_nil_r.
    + destruct b; cbn; auto.
    + destruct b; exact Gm.
    + destruct b.
      * exists None, arr. cbn [asrc_step asnk_step]. split; [split; [split; reflexivity|reflexivity]|].
        split; [|exact Ga]. destruct Gs as [_ ->]. unfold queued at 1. cbn [a_q olist app].
        destruct fl as [f|]; cbn [b2n olist app] in *; [|now rewrite Nat.add_0_r].
        exact (led_drop _ _ _ [] [f] _ Gl).
      * exists fl, arr. rewrite Nat.add_0_r. auto.
  - pose proof (snk_clk hi l Gi) as S1. pose proof (mon_clk hi l Gi) as M1. cbv zeta in S1, M1. rewrite Gp in M1.
    pose proof (infl_edge (ac_src (k_ch l)) (z_part (ac_snk (k_ch l))) fl (z_ready (ac_snk (k_ch l))) (li_src _ _ Gi) Gs) as I1.
    destruct (reassemble c (z_part (ac_snk (k_ch l))) _) as [p fs]. destruct S1 as [S1 S2], M1 as [M1 M2]. destruct I1 as (fin & o' & I1 & I2 & I3).
    constructor; auto; cbn [lstep k_ch k_mon ljoin lsee e_sent e_got e_mon e_lost]; rewrite ?app_nil_r, ?clk_src, ?S1, ?S2; cbn [lsig amon_step n_part n_q].
    + exact M1.
    + rewrite M2, !app_assoc. f_equal. exact Gm.
    + exists o', (arr ++ fin). split; [exact I2|]. split; [|rewrite app_assoc; now apply Forall2_app].
      rewrite Nat.add_0_r. rewrite I3 in Gl. clear -Gl. revert arr Gl. induction fin as [|f fin IH]; intros arr Gl; [now rewrite app_nil_r|].
      cbn [app] in Gl. apply led_arrive in Gl. apply IH in Gl. now rewrite <- app_assoc in Gl.
Qed.

Lemma ljoin_assoc a b d : ljoin (ljoin a b) d = ljoin a (ljoin b d).
Proof using. clear c Hc Hl. unfold ljoin. cbn. f_equal; [symmetry; apply app_assoc..|lia]. Qed.
Lemma ljoin_none a : ljoin a lnone = a.
Proof using. clear c Hc Hl. destruct a. unfold ljoin. cbn. now rewrite !app_nil_r, Nat.add_0_r. Qed.
Lemma none_ljoin a : ljoin lnone a = a.
Proof using. clear c Hc Hl. now destruct a. Qed.

Lemma held_cons hi o ops : held hi (o :: ops) = held (next_hi hi o) ops.
Proof using. clear c Hc Hl. now destruct o. Qed.

Lemma G_trace ops : forall e hi l, Forall lk_ok ops -> G e hi l ->
  let '(e', l') := ltrace c l ops in G (ljoin e e') (held hi ops) l'.
Proof.
  induction ops as [|o ops IH]; intros e hi l H HG; cbn [ltrace].
  - now rewrite ljoin_none.
  - inversion H as [|? ? Ho H']; subst. destruct (lk_shared o Ho) as [K1 K2].
    specialize (IH _ _ _ H' (G_step e hi l o K1 K2 HG)). rewrite held_cons. destruct (ltrace c (lstep c l o) ops) as [e' l'].
    now rewrite <- ljoin_assoc.
Qed.

Lemma G_init slb slf klb klf : G lnone false (alink_init slb slf klb klf).
Proof.
  constructor; cbn; auto.
  - constructor; cbn.
    + split; [discriminate|]. split; [exact I|]. split; [constructor|]. auto.
    + split; [auto|discriminate].
    + repeat split; auto; discriminate.
    + repeat split; discriminate.
  - exists None, []. split; [split; [split; reflexivity|reflexivity]|]. split; [|constructor]. exists [], []. auto.
Qed.

(** ** recovery *)
Definition lwake (l : alink) : Prop := z_limb (ac_snk (k_ch l)) <= 0 /\ z_limf (ac_snk (k_ch l)) <= 0 /\ (x_ready c = true -> zawake (ac_snk (k_ch l))).
Lemma lwake_step l o : (forall a b, o <> LSnk (ZLimits a b)) -> o <> LSnk ZClear -> lwake l -> lwake (lstep c l o).
Proof.
  intros H1 H2 (W1 & W2 & W3). unfold lwake. destruct o as [o|o|o|b|].
  - assert (E : ac_snk (k_ch (lstep c l (LSrc o))) = ac_snk (k_ch l)) by now destruct o. rewrite E. auto.
  - assert (Hz : forall a b, o <> ZLimits a b) by (intros a b ->; now apply (H1 a b)).
    assert (Hk : o <> ZClear) by (intros ->; now apply H2).
    cbn [lstep k_ch achan_step ac_snk].
    assert (E : z_limb (asnk_step c (ac_snk (k_ch l)) o) = z_limb (ac_snk (k_ch l)) /\ z_limf (asnk_step c (ac_snk (k_ch l)) o) = z_limf (ac_snk (k_ch l))).
    { destruct o as [b|lb lf|r| |b|]; cbn [asnk_step]; auto.
      - now destruct (Bool.eqb _ _).
      - now destruct (Hz lb lf).
      - destruct (recv_fields (ac_snk (k_ch l)) r) as (-> & _ & _ & ->). auto.
      - now destruct b. }
    destruct E as [-> ->]. split; [exact W1|]. split; [exact W2|]. intros Hr. apply zawake_step; auto.
  - assert (E : k_ch (lstep c l (LMon o)) = k_ch l) by now destruct o. rewrite E. auto.
  - cbn [lstep k_ch achan_step ac_snk ac_src]. destruct b; cbn [asnk_step z_limb z_limf]; (split; [exact W1|]); (split; [exact W2|]); intros Hr.
    + exact I.
    + specialize (W3 Hr). unfold zawake in *. cbn. destruct (z_task (ac_snk (k_ch l))); auto.
  - cbn [lstep k_ch]. split; [|split].
    + apply (clk_snk c (fun k => z_limb k <= 0)); auto. unfold asnk_edge. destruct (z_task (asnk_run _)); auto.
      match goal with |- context [let '(x, y) := ?e in _] => destruct e as [p fs] end. exact W1.
    + apply (clk_snk c (fun k => z_limf k <= 0)); auto. unfold asnk_edge. destruct (z_task (asnk_run _)); auto.
      match goal with |- context [let '(x, y) := ?e in _] => destruct e as [p fs] end. exact W2.
    + intros Hr. apply (clk_snk c zawake); [intros k; apply zawake_wake|]. apply zawake_edge; auto.
Qed.
Lemma lwake_trace ops : forall l, (forall a b, ~ In (LSnk (ZLimits a b)) ops) -> ~ In (LSnk ZClear) ops -> lwake l -> lwake (snd (ltrace c l ops)).
Proof.
  induction ops as [|o ops IH]; intros l H1 H2 W; cbn [ltrace]; [exact W|].
  assert (W' : lwake (lstep c l o)) by (apply lwake_step; auto; [intros a b ->; apply (H1 a b); now left|intros ->; apply H2; now left]).
  specialize (IH _ (fun a b Hi => H1 a b (or_intror Hi)) (fun Hi => H2 (or_intror Hi)) W'). destruct (ltrace c (lstep c l o) ops). exact IH.
Qed.
Lemma lclocks_ch n l : k_ch (lclocks c n l) = aclocks c n (k_ch l).
Proof. induction n as [|n IH]; [reflexivity|]. cbn [lclocks aclocks lstep k_ch]. now rewrite IH. Qed.
Lemma lclocks_trace n : forall l, ltrace c l (repeat LClk n) = (lnone, lclocks c n l).
Proof.
  induction n as [|n IH]; intros l; [reflexivity|]. cbn [repeat ltrace]. rewrite IH. 
  assert (E : lclocks c n (lstep c l LClk) = lclocks c (S n) l) by (clear IH; induction n as [|n IH]; [reflexivity|]; cbn [lclocks] in *; now rewrite IH).
  rewrite E. reflexivity.
Qed.
End P.
