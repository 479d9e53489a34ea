(** Proofs about the time stamps of AXI stream frames. *)
From Coq Require Import ZArith Lia List Bool.
From Coq Require Import ZifyBool ZifyNat.
From Verif Require Import Py M_stream M_axisframe M_axis M_axislink M_axistime S_axis S_axisrun S_axislink S_axistime P_axisframe P_axis P_axischan P_axislive P_axislink.
Import ListNotations.
Open Scope Z_scope.

Lemma Forall2_rev_ {A B} (R : A -> B -> Prop) l m : Forall2 R l m -> Forall2 R (rev l) (rev m).
Proof. induction 1; cbn; auto. apply Forall2_app; auto. Qed.

Lemma Forall2_len_ {A B} (R : A -> B -> Prop) l m : Forall2 R l m -> length l = length m.
Proof. induction 1; cbn; auto. Qed.

Section P.
Variable c : scfg.
Hypothesis Hc : cfg_ok c.

(** ** receivers *)
Record RI (xs : list (option (Z * beat))) (got : list (frame * (Z * Z))) (part : option frame) (q : list frame) (r : rstamp) : Prop := {
  ri_len : length (rs_q r) = length q;
  ri_all : Forall2 (stamped c) (fst (rx_groups c xs)) (got ++ combine q (rs_q r));
  ri_open : match snd (rx_groups c xs) with
            | [] => part = None
            | x :: _ => rs_part r = fst x /\ reassemble c None (map snd (snd (rx_groups c xs))) = (part, []) /\ exists f, part = Some f /\ 0 < zlen (f_data f)
            end }.

Lemma groups_snoc xs e : groups (xs ++ [e]) = gstep (groups xs) e.
Proof. unfold groups. now rewrite fold_left_app. Qed.
Lemma rx_groups_snoc xs e : rx_groups c (xs ++ [e]) = rx_gstep c (rx_groups c xs) e.
Proof. unfold rx_groups. now rewrite fold_left_app. Qed.
Lemma rx_groups_last xs : x_last c = true -> rx_groups c xs = groups xs.
Proof.
  intros Hl. unfold rx_groups, groups. generalize (@nil (list (Z * beat)), @nil (Z * beat)) as g. induction xs as [|e xs IH]; intros g; [reflexivity|]. cbn [fold_left]. rewrite IH. f_equal.
  destruct e as [x|]; [|reflexivity]. cbn [rx_gstep gstep]. rewrite Hl. destruct (b_last (snd x)); reflexivity.
Qed.
Lemma reassemble_snoc l b : forall p, reassemble c p (l ++ [b]) = let '(p1, f1) := reassemble c p l in let '(p2, f2) := rx_beat c p1 b in (p2, f1 ++ f2).
Proof.
  induction l as [|a l IH]; intros p; cbn [app reassemble].
  - destruct (rx_beat c p b) as [p2 f2]. cbn. now rewrite app_nil_r.
  - destruct (rx_beat c p a) as [p1 f1]. rewrite IH. destruct (reassemble c p1 l) as [p2 f2]. destruct (rx_beat c p2 b) as [p3 f3]. now rewrite app_assoc.
Qed.
Lemma rx_lanes_len b n : forall o f, zlen (f_data (rx_lanes c b n o f)) = zlen (f_data f) + Z.of_nat n.
Proof. induction n as [|n IH]; intros o f; cbn [rx_lanes]; [lia|]. rewrite IH. cbn [f_data]. unfold zlen. rewrite app_length. cbn. lia. Qed.
Lemma rx_beat_cases part b : let '(p, fs) := rx_beat c part b in
  if x_last c && negb (b_last b) then fs = [] /\ exists f, p = Some f /\ 0 < zlen (f_data f) else p = None /\ exists f, fs = [f].
Proof.
  unfold rx_beat. set (f := rx_lanes _ _ _ _ _). assert (Hf : 0 < zlen (f_data f)).
  { unfold f. rewrite rx_lanes_len. destruct Hc as [H _]. unfold zlen. lia. }
  destruct (x_last c), (b_last b); cbn; eauto.
Qed.

Lemma last_snoc {A} (l : list A) x d : last (l ++ [x]) d = x.
Proof. induction l as [|a l IH]; [reflexivity|]. cbn [app last]. destruct (l ++ [x]) eqn:E; [now destruct l|]. exact IH. Qed.

Lemma combine_app {A B} (l1 l2 : list A) (m1 m2 : list B) : length l1 = length m1 -> combine (l1 ++ l2) (m1 ++ m2) = combine l1 m1 ++ combine l2 m2.
Proof. revert m1. induction l1 as [|a l1 IH]; intros [|b m1] H; try discriminate; [reflexivity|]. cbn. f_equal. apply IH. now injection H. Qed.

Lemma combine_cut {A B} (l l' : list A) : forall m : list B, (length l <= length m)%nat -> combine (l ++ l') m = combine l m ++ combine l' (skipn (length l) m).
Proof. induction l as [|a l IH]; intros [|b m] H; cbn in *; try lia; auto. f_equal. apply IH. lia. Qed.

Lemma ri_xfer xs got part q r t b : RI xs got part q r ->
  let '(p, fs) := rx_beat c part b in RI (xs ++ [Some (t, b)]) got p (q ++ fs) (rx_stamp c part b t r).
Proof.
  intros [A B C]. pose proof (rx_beat_cases part b) as HB. destruct (rx_beat c part b) as [p fs] eqn:Er.
  destruct (rx_groups c xs) as [gs op] eqn:Eg. cbn [fst snd] in *.
  assert (Hre : reassemble c None (map snd (op ++ [(t, b)])) = (p, fs)).
  { rewrite map_app. cbn [map snd]. rewrite reassemble_snoc. destruct op as [|x op].
    - subst part. cbn [map reassemble]. now rewrite Er.
    - destruct C as (_ & E & _). rewrite E, Er. reflexivity. }
  assert (Hst : rs_part (rx_stamp c part b t r) = first_time (op ++ [(t, b)])).
  { unfold rx_stamp. cbn [rs_part]. destruct op as [|x op]; [subst part; reflexivity|]. destruct C as (E & _ & f & -> & Hf). replace (0 <? zlen (f_data f)) with true by lia. exact E. }
  unfold rx_stamp in *. cbn [rs_part rs_q] in Hst |- *. set (s := match part with Some f => _ | None => _ end) in *. clearbody s. replace (negb (x_last c) || b_last b) with (negb (x_last c && negb (b_last b))) by (destruct (x_last c), (b_last b); reflexivity).
  destruct (x_last c && negb (b_last b)) eqn:Eb; cbn [negb].
  - destruct HB as [-> (f & -> & Hf)]. constructor; cbn [rs_q rs_part]; rewrite ?rx_groups_snoc, ?Eg; unfold rx_gstep; cbn [snd fst]; rewrite ?Eb; cbn [fst snd]; rewrite ?app_nil_r; auto.
    destruct (op ++ [(t, b)]) as [|x l] eqn:Eo; [now destruct op|]. split; [exact Hst|]. split; [exact Hre|]. eauto.
  - destruct HB as [-> [f ->]]. constructor; cbn [rs_q]; rewrite ?rx_groups_snoc, ?Eg; unfold rx_gstep; cbn [snd fst]; rewrite ?Eb; cbn [fst snd].
    + rewrite !app_length, A. reflexivity.
    + rewrite combine_app by auto. rewrite app_assoc. apply Forall2_app; [exact B|]. cbn [combine]. constructor; [|constructor]. split; [exact Hre|]. cbn [snd]. f_equal; [exact Hst|].
      unfold last_time. now rewrite last_snoc.
    + reflexivity.
Qed.
Lemma ri_rst xs got part q r : RI xs got part q r -> RI (xs ++ [None]) got None q r.
Proof. intros [A B C]. constructor; auto; rewrite rx_groups_snoc; destruct (rx_groups c xs); cbn in *; auto. Qed.
Lemma ri_take xs got part q r tk q' r' : RI xs got part q r -> tk ++ q' = q -> rs_q r' = skipn (length tk) (rs_q r) -> rs_part r' = rs_part r ->
  RI xs (got ++ combine tk (rs_q r)) part q' r'.
Proof.
  intros [A B C] E1 E2 E3. assert (Hle : (length tk <= length (rs_q r))%nat) by (rewrite A, <- E1, app_length; lia). constructor.
  - rewrite E2, skipn_length, A, <- E1, app_length. lia.
  - rewrite <- app_assoc. replace (combine tk (rs_q r) ++ combine q' (rs_q r')) with (combine q (rs_q r)); [exact B|].
    rewrite <- E1, E2. now apply combine_cut.
  - now rewrite E3.
Qed.
Lemma rx_take_skip o readq (q : list frame) r : length (rs_q r) = length q ->
  rs_q (rx_take o readq r) = skipn (length (taken o readq q)) (rs_q r) /\ rs_part (rx_take o readq r) = rs_part r.
Proof.
  intros H. destruct o as [cp| |n]; cbn [rx_take taken]; [|destruct readq|]; split; try reflexivity.
  - destruct q, (rs_q r) eqn:E; try discriminate; reflexivity.
  - cbn. destruct q, (rs_q r) eqn:E; try discriminate; reflexivity.
  - cbn. now rewrite <- H, skipn_all.
Qed.
Lemma clear_skip (q : list frame) r : length (rs_q r) = length q -> rs_q (rx_clear r) = skipn (length q) (rs_q r) /\ rs_part (rx_clear r) = rs_part r.
Proof. intros H. cbn. now rewrite <- H, skipn_all. Qed.

(** the receivers of a link at a clock edge *)
Lemma snk_edge_stamp_ok hi l t r : linv c hi l ->
  let s := ac_src (k_ch l) in let k := ac_snk (k_ch l) in
  snk_edge_stamp c k (a_valid s) (a_beat s) t r = if a_valid s && (negb (x_ready c) || z_ready k) then rx_stamp c (z_part k) (a_beat s) t r else r.
Proof.
  intros [Hs [K1 K2] Hm Hr]. destruct l as [[s k] m]. cbn [k_ch k_mon ac_src ac_snk] in *. cbv zeta. unfold snk_edge_stamp. cbn [asnk_run z_task z_part z_ready].
  destruct (z_task k) eqn:Et; cbn [z_task]; try (now rewrite (andb_comm _ (a_valid s)));
    try (now rewrite K2); try (rewrite K1 by auto; now rewrite (andb_comm _ (a_valid s))).
  assert (Ev : a_valid s = false) by (destruct hi; cbn in Hr; rewrite ?Et in Hr; tauto). now rewrite Ev.
Qed.
Lemma mon_edge_stamp_ok hi l t r : linv c hi l ->
  let s := ac_src (k_ch l) in let k := ac_snk (k_ch l) in
  mon_edge_stamp c (k_mon l) t r = if a_valid s && (negb (x_ready c) || z_ready k) then rx_stamp c (n_part (k_mon l)) (a_beat s) t r else r.
Proof.
  intros [Hs Hk (E1 & E2 & E3 & H1 & H2) Hr]. destruct l as [[s k] m]. cbn [k_ch k_mon ac_src ac_snk] in *. cbv zeta. rewrite <- E1, <- E2, <- E3.
  unfold mon_edge_stamp. cbn [amon_start n_task n_part n_ready n_valid n_beat]. destruct (n_task m) eqn:Et; cbn [n_task]; try (now rewrite (andb_comm _ (n_valid m)));
    try (now rewrite H2); try (rewrite H1 by auto; now rewrite (andb_comm _ (n_valid m))).
  assert (Ev : n_valid m = false) by (rewrite E1; destruct hi; cbn in Hr; rewrite ?Et in Hr; tauto). now rewrite Ev.
Qed.

Lemma xfers_app a b : xfers (a ++ b) = xfers a ++ xfers b. Proof. apply flat_map_app. Qed.
Lemma puts_app a b : puts (a ++ b) = puts a ++ puts b. Proof. apply flat_map_app. Qed.

Definition top_hi (hi : bool) (o : top) : bool := match o with TOp _ o => next_hi hi o | TClk _ => hi end.
Lemma tstep_l x o : t_l (tstep c x o) = match o with TClk _ => lstep c (t_l x) LClk | TOp _ LClk => t_l x | TOp _ o => lstep c (t_l x) o end.
Proof. destruct o as [st [| | | |]|t]; reflexivity. Qed.
Lemma linv_tstep hi x o : top_ok o -> linv c hi (t_l x) -> linv c (top_hi hi o) (t_l (tstep c x o)).
Proof.
  intros Ho Hi. rewrite tstep_l. destruct o as [st o|t]; cbn [top_hi].
  - destruct o as [o|o|o|b|]; try (destruct (lk_shared _ Ho); eapply linv_step; eauto). exact Hi.
  - apply (linv_step c Hc hi (t_l x) LClk); auto.
Qed.

Definition RZ (e : tseen) (x : tlink) : Prop := let k := ac_snk (k_ch (t_l x)) in RI (xfers (ev e)) (zgot e) (z_part k) (z_q k) (t_z x).
Definition RM (e : tseen) (x : tlink) : Prop := let m := k_mon (t_l x) in RI (xfers (ev e)) (mgot e) (n_part m) (n_q m) (t_m x).
Definition tjoin (a b : tseen) : tseen := {| ev := ev a ++ ev b; zgot := zgot a ++ zgot b; mgot := mgot a ++ mgot b |}.
Definition tsee (x : tlink) (o : top) : tseen := {| ev := wire_ev c (t_l x) (t_l (tstep c x o)) o; zgot := z_pop x o; mgot := m_pop x o |}.

Lemma clk_xfers l l' t : xfers (wire_ev c l l' (TClk t)) =
  if a_valid (ac_src (k_ch l)) && (negb (x_ready c) || z_ready (ac_snk (k_ch l))) then [Some (t, a_beat (ac_src (k_ch l)))] else [].
Proof. unfold wire_ev. rewrite xfers_app. destruct (a_valid _ && _); cbn; destruct (_ && _); reflexivity. Qed.

Lemma RZ_step hi e x o : top_ok o -> linv c hi (t_l x) -> RZ e x -> RZ (tjoin e (tsee x o)) (tstep c x o).
Proof.
  intros Ho Hi HR. unfold RZ in *. cbn [tjoin tsee ev zgot] in *. destruct o as [st o|t].
  - destruct o as [o|o|o|b|]; cbn [wire_ev z_pop]; rewrite ?app_nil_r.
    + cbn [tstep t_l t_z lstep k_ch]. destruct o; exact HR.
    + assert (Hb : forall b, o <> ZReset b) by (intros b ->; destruct Ho as (_ & H & _); now apply (H b)).
      destruct Hi as [Hs [K1 K2] Hm Hr]. pose proof (snk_op c (ac_snk (k_ch (t_l x))) o Hb K1) as (E1 & _). pose proof (snk_op_q c (ac_snk (k_ch (t_l x))) o Hb) as Eq.
      cbn [tstep t_l t_z lstep k_ch achan_step ac_snk]. rewrite E1. set (k := ac_snk (k_ch (t_l x))) in *.
      destruct o as [b|lb lf|r| |b|]; cbn [snk_stamp] in *; rewrite ?app_nil_r;
        try (rewrite <- (app_nil_r (zgot e)); apply (ri_take _ _ _ (z_q k) (t_z x) [] _ _ HR); auto; fail).
      * destruct (rx_take_skip r (z_readq k) (z_q k) (t_z x) (ri_len _ _ _ _ _ HR)) as [F1 F2]. now apply (ri_take _ _ _ (z_q k) (t_z x) _ _ _ HR).
      * destruct (clear_skip (z_q k) (t_z x) (ri_len _ _ _ _ _ HR)) as [F1 F2]. now apply (ri_take _ _ _ (z_q k) (t_z x) _ _ _ HR).
    + cbn [tstep t_l t_z]. destruct o; exact HR.
    + destruct b; cbn [tstep t_l t_z lstep k_ch achan_step ac_snk asnk_step z_part z_q]; rewrite ?app_nil_r; [|exact HR]. rewrite xfers_app. cbn [xfers flat_map app]. now apply (ri_rst _ _ (z_part (ac_snk (k_ch (t_l x))))).
    + exact HR.
  - rewrite xfers_app, clk_xfers. cbn [z_pop]. rewrite app_nil_r. pose proof (snk_clk c hi (t_l x) Hi) as S1. cbv zeta in S1. cbn [tstep t_l t_z lstep k_ch].
    rewrite (snk_edge_stamp_ok hi (t_l x) t (t_z x) Hi). destruct (a_valid _ && _).
    + cbn [reassemble] in S1. pose proof (ri_xfer _ _ _ _ _ t (a_beat (ac_src (k_ch (t_l x)))) HR) as X. destruct (rx_beat c _ _) as [p fs]. destruct S1 as [-> ->]. rewrite app_nil_r. exact X.
    + cbn [reassemble] in S1. destruct S1 as [-> ->]. rewrite !app_nil_r. exact HR.
Qed.
Lemma RM_step hi e x o : top_ok o -> linv c hi (t_l x) -> RM e x -> RM (tjoin e (tsee x o)) (tstep c x o).
Proof.
  intros Ho Hi HR. unfold RM in *. cbn [tjoin tsee ev mgot] in *. destruct o as [st o|t].
  - destruct o as [o|o|o|b|]; cbn [wire_ev m_pop]; rewrite ?app_nil_r.
    + cbn [tstep t_l t_m lstep k_mon]. destruct (sig_q c (achan_step c (k_ch (t_l x)) (ACSrc o)) (k_mon (t_l x))) as [-> ->]. exact HR.
    + cbn [tstep t_l t_m lstep k_mon]. destruct (sig_q c (achan_step c (k_ch (t_l x)) (ACSnk o)) (k_mon (t_l x))) as [-> ->]. exact HR.
    + assert (Hb : forall b, o <> NReset b) by (intros b ->; destruct Ho as (_ & _ & H & _); now apply (H b)).
      destruct o as [v r b|r| |b| |]; cbn [tstep t_l t_m lstep k_mon mon_stamp]; rewrite ?app_nil_r; try exact HR.
      * cbn [amon_step]. pose proof (mrecv_taken (k_mon (t_l x)) r) as Eq. pose proof (mrecv_task (k_mon (t_l x)) r) as Ep. 
        destruct (rx_take_skip r (n_readq (k_mon (t_l x))) (n_q (k_mon (t_l x))) (t_m x) (ri_len _ _ _ _ _ HR)) as [F1 F2].
        assert (Ep' : n_part (fst (amon_recv (k_mon (t_l x)) r)) = n_part (k_mon (t_l x))) by apply Ep. rewrite Ep'. now apply (ri_take _ _ _ (n_q (k_mon (t_l x))) (t_m x) _ _ _ HR).
      * cbn [amon_step n_part n_q]. destruct (clear_skip (n_q (k_mon (t_l x))) (t_m x) (ri_len _ _ _ _ _ HR)) as [F1 F2].
        apply (ri_take _ _ _ (n_q (k_mon (t_l x))) (t_m x) _ _ _ HR); auto. apply app_nil_r.
      * now destruct (Hb b).
      * cbn [amon_step amon_start n_part n_q]. destruct Hi as [_ _ (_ & _ & _ & H1 & _) _]. destruct (n_task (k_mon (t_l x))); auto. rewrite H1 in HR by auto. exact HR.
    + cbn [tstep t_l t_m lstep k_mon]. set (h := achan_step c (achan_step c _ _) _). destruct (sig_q c h (amon_step c (k_mon (t_l x)) (NReset b))) as [-> ->].
      destruct b; cbn [amon_step n_part n_q]; rewrite ?app_nil_r; [|exact HR]. rewrite xfers_app. cbn [xfers flat_map app]. now apply (ri_rst _ _ (n_part (k_mon (t_l x)))).
    + exact HR.
  - rewrite xfers_app, clk_xfers. cbn [m_pop]. rewrite app_nil_r. pose proof (mon_clk c hi (t_l x) Hi) as S1. cbv zeta in S1. cbn [tstep t_l t_m lstep k_mon].
    destruct (sig_q c (achan_step c (k_ch (t_l x)) ACClk) (amon_edge c (k_mon (t_l x)))) as [-> ->].
    rewrite (mon_edge_stamp_ok hi (t_l x) t (t_m x) Hi). destruct (a_valid _ && _).
    + cbn [reassemble] in S1. pose proof (ri_xfer _ _ _ _ _ t (a_beat (ac_src (k_ch (t_l x)))) HR) as X. destruct (rx_beat c _ _) as [p fs]. destruct S1 as [-> ->]. rewrite app_nil_r. exact X.
    + cbn [reassemble] in S1. destruct S1 as [-> ->]. rewrite !app_nil_r. exact HR.
Qed.

(** ** the source *)
Definition fetched (x : sstamp) (t : Z) : sstamp := {| ss_q := tl (ss_q x); ss_cur := Some t; ss_done := ss_done x |}.
Definition src_put (s s' : asrc) (r : bool) (t : Z) : list (option (Z * beat)) :=
  if a_valid s' && (negb (a_valid s) || a_valid s && (negb (x_ready c) || r)) then [Some (t, a_beat s')] else [].
Lemma src_edge_cases s r t x : asrc_inv s -> let s' := asrc_edge c s r in let x' := src_edge_stamp c s r t x in
  a_pause s' = a_pause s /\
  ((src_put s s' r t = [] /\ a_done s' = a_done s /\ ss_done x' = ss_done x /\
    (a_cur s' = a_cur s /\ x' = x \/ ftrue (a_cur s) = false /\ x' = fetched x t /\ (ftrue (a_cur s') = true -> a_pause s = true))) \/
   (exists tg, src_put s s' r t = [Some (t, a_beat s')] /\ ftrue (a_cur s') = negb (b_last (a_beat s')) /\
    let x1 := if ftrue (a_cur s) then x else fetched x t in
    a_done s' = a_done s ++ (if b_last (a_beat s') then [tg] else []) /\
    ss_cur x' = ss_cur x1 /\ ss_done x' = ss_done x ++ (if b_last (a_beat s') then [(ss_cur x1, Some t)] else []))).
Proof.
  intros Hs. destruct Hs as (Hv & Hcur & Hq & Ha). cbv zeta. unfold asrc_edge, src_edge_stamp, src_put.
  assert (HN : a_task s <> TEdge -> a_valid s = false) by (intros H; destruct (a_valid s); auto; now destruct H; auto).
  destruct (a_task s) eqn:Et; try (rewrite HN by congruence; cbn; split; [auto|]; left; auto 6; fail).
  destruct ((negb (x_ready c) || r) && a_valid s || negb (a_valid s)) eqn:Eg.
  2: { split; [auto|]. left. apply orb_false_iff in Eg. destruct Eg as [E1 E2]. rewrite E2, (andb_comm (a_valid s) (negb (x_ready c) || r)), E1. cbn. rewrite andb_false_r. auto 6. }
  assert (Eg' : negb (a_valid s) || a_valid s && (negb (x_ready c) || r) = true) by (rewrite (andb_comm (a_valid s) (negb (x_ready c) || r)), orb_comm; exact Eg). rewrite Eg'.
  unfold fetches. destruct (ftrue (a_cur s)) eqn:Ef.
  - assert (Eft : asrc_fetch s = Ok s) by (unfold asrc_fetch; now rewrite Ef). rewrite Eft. cbn [negb andb].
    destruct (a_cur s) as [[[tg f] fo]|] eqn:Ec; [|discriminate]. cbn [ftrue] in Ef. rewrite Ef. cbn [andb]. destruct (negb (a_pause s)) eqn:Ep.
    + unfold asrc_drive. cbn [cur_ok] in Hcur. pose proof (drive_beat_spec c Hc f fo ltac:(lia)) as D. destruct (drive_beat c f fo) as [[b fo'] fin]. destruct D as (_ & _ & D & _).
      cbn [a_pause a_valid a_beat a_cur a_done ss_cur ss_done andb]. rewrite D. split; auto. right. exists tg. split; [reflexivity|]. destruct fin; cbn [ftrue negb]; rewrite ?app_nil_r; auto.
    + split; [reflexivity|]. left. cbn. rewrite Ec. auto 6.
  - cbn [negb andb]. destruct (a_q s) as [|[tg f] q] eqn:Eq.
    + assert (Eft : asrc_fetch s = Ok s) by (unfold asrc_fetch; now rewrite Ef, Eq). rewrite Eft.
      assert (K : a_cur s = None \/ exists y f fo, a_cur s = Some ((y, f), fo) /\ (0 <? zlen (f_data f)) = false).
      { destruct (a_cur s) as [[[y f] fo]|]; [right|left; reflexivity]. exists y, f, fo. split; [reflexivity|exact Ef]. }
      destruct K as [K|(y & f & fo & K & Kf)]; rewrite K; rewrite ?Kf; cbn; rewrite K; split; auto 7.
    + inversion Hq as [|? ? [g Hg] _]; subst. cbn [snd] in Hg. assert (Eft : asrc_fetch s = Ok {| a_q := q; a_cur := Some ((tg, g), 0); a_current := Some (tg, g); a_active := true; a_idle := a_idle s;
            a_actev := a_actev s; a_pause := a_pause s; a_occb := a_occb s - zlen (f_data f); a_occf := a_occf s - 1;
            a_limb := a_limb s; a_limf := a_limf s; a_task := a_task s; a_valid := a_valid s; a_beat := a_beat s; a_done := a_done s |}).
      { unfold asrc_fetch. rewrite Ef, Eq, Hg. reflexivity. }
      rewrite Eft. cbn [a_cur a_pause]. destruct (0 <? zlen (f_data g)) eqn:El; cbn [andb].
      * destruct (negb (a_pause s)) eqn:Ep.
        -- unfold asrc_drive. pose proof (drive_beat_spec c Hc g 0 ltac:(lia)) as D. destruct (drive_beat c g 0) as [[b fo'] fin]. destruct D as (_ & _ & D & _).
           cbn [a_pause a_valid a_beat a_cur a_done ss_cur ss_done fetched andb]. rewrite D. split; auto. right. exists tg. split; [reflexivity|]. destruct fin; cbn [ftrue negb]; rewrite ?app_nil_r; auto.
        -- split; [reflexivity|]. left. cbn. repeat (split; auto). right. repeat (split; auto). intros _. destruct (a_pause s); auto.
      * split; [reflexivity|]. left. cbn. repeat (split; auto). right. repeat (split; auto). congruence.
Qed.

Lemma src_edge_len s r t x : asrc_inv s -> length (ss_q x) = length (a_q s) -> length (ss_q (src_edge_stamp c s r t x)) = length (a_q (asrc_edge c s r)).
Proof.
  intros (_ & _ & Hq & _) H. unfold asrc_edge, src_edge_stamp. destruct (a_task s); auto. destruct (_ || negb (a_valid s)); auto.
  unfold fetches, asrc_fetch. destruct (ftrue (a_cur s)); cbn [negb andb].
  - destruct (a_cur s) as [[[tg f] fo]|]; auto. destruct (_ && _); auto. unfold asrc_drive. destruct (drive_beat c f fo) as [[b fo'] fin]. exact H.
  - destruct (a_q s) as [|[tg f] q] eqn:Eq; cbn [bind].
    + destruct (a_cur s) as [[[tg f] fo]|]; [destruct (_ && _)|]; unfold asrc_drive; try destruct (drive_beat c f fo) as [[b fo'] fin]; cbn [asrc_hold a_q ss_q]; rewrite ?Eq; auto.
    + inversion Hq as [|? ? [g Hg] _]; subst. cbn [snd] in Hg. rewrite Hg. cbn [bind a_cur a_pause]. assert (Ht : length (tl (ss_q x)) = length q) by (destruct (ss_q x); cbn in *; lia).
      destruct (_ && _); [|exact Ht]. unfold asrc_drive. destruct (drive_beat c g 0) as [[b fo'] fin]. exact Ht.
Qed.

Definition okp (np : bool) (g : list (Z * beat)) (p : option Z * Z) : Prop :=
  exists s, p = (Some s, last_time g) /\ s <= first_time g /\ (np = true -> s = first_time g).
Record SI (np : bool) (ps : list (option (Z * beat))) (s : asrc) (x : sstamp) (now : Z) : Prop := {
  si_len : length (ss_done x) = length (a_done s);
  si_lq : length (ss_q x) = length (a_q s);
  si_np : np = true -> a_pause s = false;
  si_all : Forall2 (okp np) (fst (groups ps)) (transmitted (ss_done x));
  si_cur : if ftrue (a_cur s) then exists v, ss_cur x = Some v /\ v <= now /\
             (snd (groups ps) = [] -> np = false) /\ (snd (groups ps) <> [] -> v <= first_time (snd (groups ps)) /\ (np = true -> v = first_time (snd (groups ps))))
           else snd (groups ps) = [] }.

Lemma first_snoc l x : first_time (l ++ [x]) = match l with [] => fst x | _ => first_time l end.
Proof. now destruct l. Qed.
Lemma last_snoc_time l x : last_time (l ++ [x]) = fst x.
Proof. unfold last_time. now rewrite last_snoc. Qed.
Lemma transmitted_app a b : transmitted (a ++ b) = transmitted a ++ transmitted b. Proof. apply flat_map_app. Qed.

Lemma SI_edge np ps s x now r t : asrc_inv s -> now <= t -> SI np ps s x now ->
  SI np (ps ++ src_put s (asrc_edge c s r) r t) (asrc_edge c s r) (src_edge_stamp c s r t x) t.
Proof.
  intros Hs Ht [A L P B C]. pose proof (src_edge_len s r t x Hs L) as L'. pose proof (src_edge_cases s r t x Hs) as K. cbv zeta in K. destruct K as [Kp [(K1 & K2 & K3 & K4)|(tg & K1 & K2 & K3 & K4 & K5)]]; rewrite K1.
  - rewrite app_nil_r. constructor; rewrite ?K2, ?K3, ?Kp; auto. destruct K4 as [[-> ->]|(F1 & -> & F3)].
    + destruct (ftrue (a_cur s)); auto. destruct C as (v & C1 & C2 & C3). exists v. repeat split; auto; try lia; apply C3; auto.
    + rewrite F1 in C. rewrite C. destruct (ftrue (a_cur (asrc_edge c s r))) eqn:Ef; auto. exists t. cbn. repeat split; auto; try lia; try congruence.
  - set (b := a_beat (asrc_edge c s r)) in *. set (y := ss_cur (if ftrue (a_cur s) then x else fetched x t)) in *.
    destruct (groups ps) as [gs op] eqn:Eg. cbn [fst snd] in *.
    assert (Y : exists v, y = Some v /\ v <= t /\ v <= first_time (op ++ [(t, b)]) /\ (np = true -> v = first_time (op ++ [(t, b)]))).
    { rewrite first_snoc. cbn [fst]. unfold y. destruct (ftrue (a_cur s)).
      - destruct C as (v & C1 & C2 & C3 & C4). exists v. rewrite C1. destruct op as [|z op]; [|destruct (C4 ltac:(discriminate)) as [Q1 Q2]; repeat split; auto; lia].
        repeat split; auto; try lia.
      - subst op. exists t. cbn. repeat split; auto; lia. }
    destruct Y as (v & Y1 & Y2 & Y3 & Y4). constructor.
    + rewrite K3, K5. destruct (b_last b); rewrite !app_length, A; reflexivity.
    + exact L'.
    + now rewrite Kp.
    + rewrite groups_snoc, Eg, K5, transmitted_app. unfold gstep. cbn [snd fst]. destruct (b_last b); cbn [fst]; [|cbn; rewrite app_nil_r; exact B].
      apply Forall2_app; [exact B|]. rewrite Y1. constructor; [|constructor]. exists v. cbn. rewrite last_snoc_time. auto.
    + rewrite K2, groups_snoc, Eg, K4. unfold gstep. cbn [snd fst]. fold y. rewrite Y1. destruct (b_last b); cbn [negb snd]; auto. exists v. repeat split; auto.
      intros H. now destruct op.
Qed.

Lemma SI_op np ps s x now st o : (forall r, o <> AEdge r) -> (np = true -> o <> APause true) -> SI np ps s x now ->
  SI np (ps ++ match o with AReset true => [None] | _ => [] end) (asrc_step c s o) (src_stamp s st o x) now.
Proof.
  intros He Hp [A L P B C]. destruct o as [t f|b|lb lf| |b|r]; cbn [asrc_step src_stamp]; rewrite ?app_nil_r.
  - destruct (asrc_full s); constructor; auto. cbn. rewrite !app_length, L. reflexivity.
  - constructor; auto. cbn. intros E. specialize (Hp E). destruct b; congruence.
  - constructor; auto.
  - constructor; cbn; auto.
    + rewrite !app_length, A. rewrite !map_length, L. reflexivity.
    + rewrite transmitted_app. replace (transmitted (map _ _)) with (@nil (option Z * Z)); [rewrite app_nil_r; exact B|]. clear. induction (ss_q x); cbn; auto.
  - destruct b; [|rewrite app_nil_r; constructor; auto].
    assert (E : exists d, transmitted d = [] /\ length d = length (match a_current s with Some (t, f) => if 0 <? zlen (f_data f) then [t] else [] | None => [] end) /\
      src_stamp s st (AReset true) x = {| ss_q := ss_q x; ss_cur := ss_cur x; ss_done := ss_done x ++ d |}).
    { cbn [src_stamp]. destruct x as [q cu d0]. cbn [ss_q ss_cur ss_done]. destruct (a_current s) as [[t f]|]; [destruct (0 <? zlen (f_data f))|]; [exists [(cu, None)]|exists []|exists []]; cbn; rewrite ?app_nil_r; auto. }
    destruct E as (d & E1 & E2 & E3). cbn [src_stamp] in E3. rewrite E3. constructor; cbn [ss_done a_done a_pause a_cur ftrue]; auto.
    + rewrite !app_length, A, E2. reflexivity.
    + rewrite groups_snoc, transmitted_app, E1, app_nil_r. exact B.
    + rewrite groups_snoc. reflexivity.
  - now destruct (He r).
Qed.

(** ** beats put on the wires and transferred, without resets *)
Definition later (p x : Z * beat) : Prop := snd p = snd x /\ fst p < fst x.
Definition WI (evs : list wev) (s : asrc) (now : Z) : Prop :=
  exists ps xs w, puts evs = map Some (ps ++ w) /\ xfers evs = map Some xs /\ Forall2 later ps xs /\
    if a_valid s then exists tp, tp <= now /\ w = [(tp, a_beat s)] else w = [].

Lemma clk_puts hi l t : linv c hi l -> let s := ac_src (k_ch l) in let r := z_ready (ac_snk (k_ch l)) in
  ac_src (k_ch (lstep c l LClk)) = asrc_edge c s r /\ puts (wire_ev c l (lstep c l LClk) (TClk t)) = src_put s (asrc_edge c s r) r t.
Proof.
  intros Hi. cbv zeta. assert (E : ac_src (k_ch (lstep c l LClk)) = asrc_edge c (ac_src (k_ch l)) (z_ready (ac_snk (k_ch l)))) by (cbn [lstep k_ch achan_step]; unfold asettle; destruct (_ || _); reflexivity). split; [exact E|].
  unfold wire_ev. rewrite E, puts_app. unfold src_put. cbv zeta.
  set (q := a_valid (asrc_edge _ _ _) && _). set (y := a_valid (ac_src (k_ch l)) && _). destruct y, q; reflexivity.
Qed.
Lemma edge_stays s r : asrc_inv s -> a_valid s = true -> a_valid s && (negb (x_ready c) || r) = false -> asrc_edge c s r = s.
Proof. intros (Hv & _) Ev E. unfold asrc_edge. rewrite (Hv Ev), Ev in *. cbn [andb] in E. rewrite E. reflexivity. Qed.

Lemma WI_clk hi evs l now t : linv c hi l -> now < t -> WI evs (ac_src (k_ch l)) now ->
  WI (evs ++ wire_ev c l (lstep c l LClk) (TClk t)) (ac_src (k_ch (lstep c l LClk))) t.
Proof.
  intros Hi Ht (ps & xs & w & A & B & C & D). destruct (clk_puts hi l t Hi) as [E1 E2]. destruct Hi as [Hs _ _ _]. unfold WI. rewrite puts_app, xfers_app, clk_xfers, E2, E1, A, B. clear E1 E2 A B.
  set (s := ac_src (k_ch l)) in *. set (r := z_ready (ac_snk (k_ch l))) in *. unfold src_put.
  destruct (a_valid s) eqn:Ev; cbn [andb negb orb].
  - destruct D as (tp & Htp & ->). destruct (negb (x_ready c) || r) eqn:Er; cbn [orb].
    + exists (ps ++ [(tp, a_beat s)]), (xs ++ [(t, a_beat s)]), (if a_valid (asrc_edge c s r) then [(t, a_beat (asrc_edge c s r))] else []).
      split; [rewrite !map_app; destruct (a_valid (asrc_edge c s r)); reflexivity|]. split; [rewrite !map_app; reflexivity|]. split; [apply Forall2_app; auto; constructor; [split; cbn; auto; lia|constructor]|].
      destruct (a_valid (asrc_edge c s r)); auto. exists t. split; auto. lia.
    + rewrite (edge_stays s r Hs Ev) by (now rewrite Ev, Er). rewrite Ev. cbn [andb]. exists ps, xs, [(tp, a_beat s)]. rewrite !app_nil_r. repeat split; auto. exists tp. split; auto. lia.
  - subst w. rewrite !andb_true_r. exists ps, xs, (if a_valid (asrc_edge c s r) then [(t, a_beat (asrc_edge c s r))] else []). rewrite !app_nil_r.
    split; [rewrite map_app; destruct (a_valid (asrc_edge c s r)); reflexivity|]. repeat split; auto. destruct (a_valid (asrc_edge c s r)); auto. exists t. split; auto. lia.
Qed.

(** groups of matched beats *)
Lemma groups_match ps xs : Forall2 later ps xs ->
  Forall2 (Forall2 later) (fst (groups (map Some ps))) (fst (groups (map Some xs))) /\ Forall2 later (snd (groups (map Some ps))) (snd (groups (map Some xs))).
Proof.
  intros H. rewrite <- (rev_involutive ps), <- (rev_involutive xs). assert (H' : Forall2 later (rev ps) (rev xs)) by now apply Forall2_rev_.
  induction H' as [|p x l m Hp Hl' IH]; [cbn; auto|]. 
  cbn [rev]. rewrite !map_app. cbn [map]. rewrite !groups_snoc. destruct IH as [I1 I2]. unfold gstep. destruct Hp as [Hp Hq]. rewrite Hp.
  destruct (b_last (snd x)); cbn [fst snd]; (split; [|]); auto; repeat (apply Forall2_app; auto); repeat constructor; auto. all: try (apply Forall2_app; auto; repeat constructor; auto).
Qed.

(** ** runs *)
Definition t0e : tseen := {| ev := []; zgot := []; mgot := [] |}.
Lemma tjoin_assoc a b d : tjoin (tjoin a b) d = tjoin a (tjoin b d).
Proof. unfold tjoin. cbn. now rewrite !app_assoc. Qed.
Lemma tjoin_0 e : tjoin t0e e = e. Proof. now destruct e. Qed.
Lemma ttrace_cons x o ops : ttrace c x (o :: ops) = let '(e, x2) := ttrace c (tstep c x o) ops in (tjoin (tsee x o) e, x2).
Proof. cbn [ttrace]. destruct (ttrace c (tstep c x o) ops). reflexivity. Qed.
Lemma linv_init slb slf klb klf : linv c false (alink_init slb slf klb klf).
Proof. apply (G_init c). Qed.

Lemma recv_run : forall ops hi e x, Forall top_ok ops -> linv c hi (t_l x) -> RZ e x -> RM e x ->
  let '(e', x') := ttrace c x ops in RZ (tjoin e e') x' /\ RM (tjoin e e') x'.
Proof.
  induction ops as [|o ops IH]; intros hi e x Ho Hi HZ HM.
  - cbn. destruct e. unfold tjoin. cbn. rewrite !app_nil_r. auto.
  - inversion Ho as [|? ? Ho1 Ho2]; subst. rewrite ttrace_cons.
    specialize (IH (top_hi hi o) (tjoin e (tsee x o)) (tstep c x o) Ho2 (linv_tstep hi x o Ho1 Hi) (RZ_step hi e x o Ho1 Hi HZ) (RM_step hi e x o Ho1 Hi HM)).
    destruct (ttrace c (tstep c x o) ops) as [e2 x2]. now rewrite tjoin_assoc in IH.
Qed.

Definition now_of (now : Z) (o : top) : Z := match o with TClk t => t | _ => now end.
Definition src_of (x : tlink) : asrc := ac_src (k_ch (t_l x)).
Lemma op_puts l l' st o : puts (wire_ev c l l' (TOp st o)) = match o with LRst true => [None] | _ => [] end.
Proof. destruct o as [| | |[]|]; reflexivity. Qed.
Lemma op_xfers l l' st o : xfers (wire_ev c l l' (TOp st o)) = match o with LRst true => [None] | _ => [] end.
Proof. destruct o as [| | |[]|]; reflexivity. Qed.

Lemma SI_step np hi e x o now : top_ok o -> (np = true -> forall st, o <> TOp st (LSrc (APause true))) -> now <= now_of now o -> linv c hi (t_l x) ->
  SI np (puts (ev e)) (src_of x) (t_s x) now ->
  SI np (puts (ev (tjoin e (tsee x o)))) (src_of (tstep c x o)) (t_s (tstep c x o)) (now_of now o).
Proof.
  intros Ho Hp Hn Hi HS. unfold src_of in *. cbn [tjoin ev tsee]. rewrite puts_app. destruct o as [st o|t]; cbn [now_of] in *.
  - rewrite op_puts. destruct o as [o|o|o|b|]; cbn [tstep t_l t_s]; rewrite ?app_nil_r.
    + destruct (match o with AEdge _ => true | _ => false end) eqn:Ee.
      * destruct o; try discriminate. exact HS.
      * assert (He : forall r, o <> AEdge r) by (intros r ->; discriminate). assert (Hr : forall b, o <> AReset b) by (intros b ->; destruct Ho as (H & _); now apply (H b)).
        cbn [lstep k_ch]. rewrite src_op_h by auto. cbn [ac_src]. pose proof (SI_op np _ _ _ _ st o He ltac:(intros E ->; now apply (Hp E st)) HS) as K.
        destruct o as [| | | |b|]; rewrite ?app_nil_r in K; try exact K. now destruct (Hr b).
    + exact HS.
    + destruct o; exact HS.
    + cbn [lstep k_ch achan_step ac_src]. pose proof (SI_op np _ _ _ _ None (AReset b) ltac:(discriminate) ltac:(discriminate) HS) as K. destruct b; rewrite ?app_nil_r in *; exact K.
    + exact HS.
  - cbn [tstep t_l t_s]. destruct (clk_puts hi (t_l x) t Hi) as [-> ->]. destruct Hi as [Hs _ _ _]. exact (SI_edge np _ _ _ now _ t Hs Hn HS).
Qed.
Lemma WI_step hi e x o now : top_ok o -> (forall st, o <> TOp st (LRst true)) -> (forall t, o = TClk t -> now < t) -> linv c hi (t_l x) ->
  WI (ev e) (src_of x) now -> WI (ev (tjoin e (tsee x o))) (src_of (tstep c x o)) (now_of now o).
Proof.
  intros Ho Hp Hn Hi HS. unfold src_of in *. cbn [tjoin ev tsee]. destruct o as [st o|t]; cbn [now_of] in *.
  - assert (K : forall s', a_valid s' = a_valid (ac_src (k_ch (t_l x))) -> a_beat s' = a_beat (ac_src (k_ch (t_l x))) -> WI (ev e ++ wire_ev c (t_l x) (t_l (tstep c x (TOp st o))) (TOp st o)) s' now).
    { intros s' E1 E2. unfold WI. rewrite puts_app, xfers_app, op_puts, op_xfers. destruct o as [| | |[]|]; rewrite ?app_nil_r, E1, E2; try exact HS. now destruct (Hp st). }
    destruct o as [o|o|o|b|]; cbn [tstep t_l]; try (apply K; reflexivity); [| |].
    + destruct (match o with AEdge _ => true | _ => false end) eqn:Ee.
      * destruct o; try discriminate. apply K; reflexivity.
      * assert (He : forall r, o <> AEdge r) by (intros r ->; discriminate). assert (Hr : forall b, o <> AReset b) by (intros b ->; destruct Ho as (H & _); now apply (H b)).
        destruct (src_op_fields c (ac_src (k_ch (t_l x))) o He Hr) as (F1 & F2 & _). apply K; cbn [lstep k_ch]; rewrite src_op_h by auto; auto.
    + destruct o; apply K; reflexivity.
    + destruct b; [now destruct (Hp st)|]. apply K; reflexivity.
  - apply (WI_clk hi _ _ now); auto.
Qed.

Lemma sent_run np nr : forall ops hi e x now, Forall top_ok ops -> increasing now ops ->
  (np = true -> never_paused ops) -> (nr = true -> never_reset ops) -> linv c hi (t_l x) ->
  SI np (puts (ev e)) (src_of x) (t_s x) now -> (nr = true -> WI (ev e) (src_of x) now) ->
  let '(e', x') := ttrace c x ops in exists now', SI np (puts (ev (tjoin e e'))) (src_of x') (t_s x') now' /\ (nr = true -> WI (ev (tjoin e e')) (src_of x') now').
Proof.
  induction ops as [|o ops IH]; intros hi e x now Ho Hi Hp Hr HL HS HW.
  - cbn. exists now. destruct e as [e1 e2 e3]. unfold tjoin. cbn [ev]. rewrite app_nil_r. auto.
  - inversion Ho as [|? ? Ho1 Ho2]; subst. rewrite ttrace_cons.
    assert (Hinc : (forall t, o = TClk t -> now < t) /\ increasing (now_of now o) ops).
    { destruct o as [st o|t]; cbn in *; [split; [discriminate|exact Hi]|]. split; [intros t' E; injection E as <-; tauto|tauto]. }
    destruct Hinc as [Hi1 Hi2]. assert (Hn : now <= now_of now o) by (destruct o as [st o|t]; cbn; [lia|specialize (Hi1 t eq_refl); lia]).
    assert (S1 := SI_step np hi e x o now Ho1 ltac:(intros E st ->; apply (Hp E st); now left) Hn HL HS).
    assert (W1 : nr = true -> WI (ev (tjoin e (tsee x o))) (src_of (tstep c x o)) (now_of now o)) by (intros E; apply (WI_step hi); auto; intros st ->; apply (Hr E st); now left).
    specialize (IH (top_hi hi o) (tjoin e (tsee x o)) (tstep c x o) (now_of now o) Ho2 Hi2 ltac:(intros E st H; apply (Hp E st); now right) ltac:(intros E st H; apply (Hr E st); now right) (linv_tstep hi x o Ho1 HL) S1 W1).
    destruct (ttrace c (tstep c x o) ops) as [e2 x2]. now rewrite tjoin_assoc in IH.
Qed.

Lemma recv_init slb slf klb klf ops : Forall top_ok ops -> let '(e, x) := ttrace c (tlink_init slb slf klb klf) ops in RZ e x /\ RM e x.
Proof.
  intros H. pose proof (recv_run ops false t0e (tlink_init slb slf klb klf) H (linv_init slb slf klb klf)) as K.
  assert (Z0 : RZ t0e (tlink_init slb slf klb klf)) by (constructor; cbn; auto). assert (M0 : RM t0e (tlink_init slb slf klb klf)) by (constructor; cbn; auto).
  specialize (K Z0 M0). destruct (ttrace c _ ops) as [e x]. now rewrite tjoin_0 in K.
Qed.
Lemma sent_init np nr slb slf klb klf now ops : Forall top_ok ops -> increasing now ops -> (np = true -> never_paused ops) -> (nr = true -> never_reset ops) ->
  let '(e, x) := ttrace c (tlink_init slb slf klb klf) ops in exists now', SI np (puts (ev e)) (src_of x) (t_s x) now' /\ (nr = true -> WI (ev e) (src_of x) now').
Proof.
  intros H1 H2 H3 H4. pose proof (sent_run np nr ops false t0e (tlink_init slb slf klb klf) now H1 H2 H3 H4 (linv_init slb slf klb klf)) as K.
  assert (S0 : SI np (puts (ev t0e)) (src_of (tlink_init slb slf klb klf)) (t_s (tlink_init slb slf klb klf)) now) by (constructor; cbn; auto).
  assert (W0 : WI (ev t0e) (src_of (tlink_init slb slf klb klf)) now) by (exists [], [], []; cbn; auto).
  specialize (K S0 (fun _ => W0)). destruct (ttrace c _ ops) as [e x]. now rewrite tjoin_0 in K.
Qed.

(** matched groups *)
Lemma groups_nonempty l : Forall (fun g => g <> []) (fst (groups l)).
Proof.
  rewrite <- (rev_involutive l). induction (rev l) as [|e m IH]; [constructor|]. cbn [rev]. rewrite groups_snoc. unfold gstep. destruct e as [x|]; [destruct (b_last (snd x))|]; cbn [fst]; auto.
  apply Forall_app. split; auto. constructor; [|constructor]. now destruct (snd _).
Qed.
Lemma later_times p x : Forall2 later p x -> p <> [] -> first_time p < first_time x /\ last_time p < last_time x.
Proof.
  intros H Hn. split; [destruct H as [|? ? ? ? [_ H]]; [congruence|exact H]|]. unfold last_time.
  induction H as [|a b l m [_ H] Hl' IH]; [congruence|]. destruct Hl' as [|a' b' l m H' Hl']; [exact H|]. apply IH. discriminate.
Qed.

Lemma Forall2_trans_ {A B C D} (R : A -> B -> Prop) (S : A -> C -> Prop) (T : C -> D -> Prop) (U : B -> D -> Prop) :
  forall la lb, Forall2 R la lb -> forall lc ld, Forall2 S la lc -> Forall2 T lc ld ->
  Forall (fun a => forall b x y, R a b -> S a x -> T x y -> U b y) la -> Forall2 U lb ld.
Proof.
  induction 1 as [|a b la lb H _ IH]; intros lc ld H1 H2 HF.
  - inversion H1; subst. inversion H2; subst. constructor.
  - inversion H1; subst. inversion H2; subst. inversion HF; subst. constructor; eauto.
Qed.

Lemma before_run np evs s x now got : SI np (puts evs) s x now -> WI evs s now -> Forall2 (stamped c) (fst (groups (xfers evs))) got ->
  (length got <= length (transmitted (ss_done x)) <= S (length got))%nat /\ Forall2 before (firstn (length got) (transmitted (ss_done x))) (map snd got).
Proof.
  intros [_ _ _ HT _] (ps & xs & w & A & B & C & D) HG. rewrite A in HT. rewrite B in HG. clear A B.
  destruct (groups_match ps xs C) as [M _].
  assert (E : exists d, fst (groups (map Some (ps ++ w))) = fst (groups (map Some ps)) ++ d /\ (length d <= 1)%nat).
  { destruct (a_valid s); [destruct D as (tp & _ & ->)|subst w; exists []; rewrite !app_nil_r; split; auto; cbn; lia].
    rewrite map_app. cbn [map]. rewrite groups_snoc. unfold gstep. cbn [snd]. destruct (b_last (a_beat s)); cbn [fst].
    - eexists. split; [reflexivity|]. cbn. lia.
    - exists []. rewrite app_nil_r. split; [reflexivity|]. cbn. lia. }
  destruct E as (d & E1 & E2). rewrite E1 in HT. apply Forall2_app_inv_l in HT. destruct HT as (t1 & t2 & HT1 & HT2 & HT). rewrite HT.
  pose proof (Forall2_len_ _ _ _ HT1) as L1. pose proof (Forall2_len_ _ _ _ HT2) as L2. pose proof (Forall2_len_ _ _ _ M) as L3. pose proof (Forall2_len_ _ _ _ HG) as L4.
  rewrite app_length. split; [lia|]. replace (length got) with (length t1 + 0)%nat by lia. rewrite firstn_app_2. cbn [firstn]. rewrite app_nil_r.
  pose proof (groups_nonempty (map Some ps)) as NE.
  assert (HG' : Forall2 (fun g r => r = (first_time g, last_time g)) (fst (groups (map Some xs))) (map snd got)).
  { clear -HG. induction HG as [|g p gs ps [_ H] _ IH]; constructor; auto. }
  apply (Forall2_trans_ _ _ _ _ _ _ HT1 _ _ M HG'). apply Forall_forall. intros g Hg p gx r (v & -> & Hv & _) Hm ->.
  pose proof (proj1 (Forall_forall _ _) NE g Hg) as Hne. destruct (later_times g gx Hm Hne) as [K1 K2]. exists v. cbn. repeat split; auto. lia.
Qed.
End P.
