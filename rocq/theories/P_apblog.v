(** Serving APB operations on targets that record the calls of one kind (for P_apbenv.v). *)
From Coq Require Import ZArith Lia List Bool.
From Coq Require Import ZifyBool ZifyNat.
From Verif Require Import Py S_flat M_axi S_axi P_axi P_axislave P_axiop P_axicomp P_axiram M_axil S_axil P_axil
  M_liteeng S_liteeng P_liteeng M_axieng S_axieng P_axieng P_axiattr T_axieng M_sys S_sys P_sys P_syswr P_sysrd T_sys T_sysrd M_axisys S_axisys P_sysram
  M_litesys S_litesys P_litesys P_litewr P_literd T_litesys M_literw S_literw P_literw M_mport S_mport P_mport
  M_apb S_apb P_apb P_apbsys T_apb M_apbenv S_apbenv P_apbenv.
Import ListNotations.
Open Scope Z_scope.

Definition lift_r {X Y} (tr : rt X) (x : X * Y) (a n : Z) : (X * Y) * res (list Z) := let '(x', r) := tr (fst x) a n in ((x', snd x), r).
Definition lift_w {X Y} (tw : wt X) (x : X * Y) (a : Z) (d : list Z) : (X * Y) * res unit := let '(x', r) := tw (fst x) a d in ((x', snd x), r).

Section Log.
Context {X : Type}.
Variable tw : X -> Z -> list Z -> X * res unit.
Variable tr : X -> Z -> Z -> X * res (list Z).
Variable L : Z.
Variable ep : bool.
Hypothesis HL : 0 < L.
Local Notation lw := (log_write tw).
Local Notation lr := (log_read tr).
Local Notation fw := (lift_w (Y := list rcall) tw).
Local Notation fr := (lift_r (Y := list call) tr).

(** ** writes *)
Lemma slave_w pairs : forall x l, Forall (fits L) pairs -> exists x' ans,
  lite_slave_write lw L true (map fst pairs) (map snd pairs) (x, l) =
    ((x', l ++ concat ans), map (fun y => if existsb failed y then SLVERR else OKAY) ans, Ok ([], [])) /\
  Forall2 (fun p y => lite_calls L true (fst p) (snd p) y) pairs ans /\ Forall (call_ok L) (concat ans) /\ replays tw x (concat ans) x'.
Proof.
  induction pairs as [|[a w] pairs IH]; intros x l Hf; cbn [map fst snd lite_slave_write].
  - exists x, []. cbn [concat map]. rewrite app_nil_r. repeat split; constructor.
  - inversion Hf as [|? ? F1 F2]; subst. destruct (lite_sw_any tw L HL true a w x l F1) as (x1 & new & E & Hc).
    pose proof (lsw_log tw L HL a w x l) as K. rewrite E in K |- *. destruct K as (new' & K1 & K2 & K3). apply app_inv_head in K1. subst new'.
    destruct (IH x1 (l ++ new) F2) as (x2 & ans & E2 & A1 & A2 & A3). rewrite E2. exists x2, (new :: ans). cbn [concat map]. rewrite app_assoc.
    split; [reflexivity|]. split; [constructor; auto|]. split; [apply Forall_app; auto|]. eapply replays_app; eauto.
Qed.
Lemma slave_w_part pairs : forall j x l, Forall (fits L) pairs ->
  is_prefix l (snd (fst (fst (lite_slave_write lw L true (firstn j (map fst pairs)) (firstn j (map snd pairs)) (x, l))))) /\
  is_prefix (snd (fst (fst (lite_slave_write lw L true (firstn j (map fst pairs)) (firstn j (map snd pairs)) (x, l)))))
            (snd (fst (fst (lite_slave_write lw L true (map fst pairs) (map snd pairs) (x, l))))).
Proof.
  induction pairs as [|[a w] pairs IH]; intros [|j] x l Hf.
  - cbn. split; apply prefix_refl.
  - cbn. split; apply prefix_refl.
  - destruct (slave_w _ x l Hf) as (x' & ans & -> & _). cbn [firstn lite_slave_write fst snd]. split; [apply prefix_refl|]. now eexists.
  - inversion Hf as [|? ? F1 F2]; subst. cbn [map fst snd firstn lite_slave_write]. destruct (lite_sw_any tw L HL true a w x l F1) as (x1 & new & -> & Hc).
    destruct (IH j x1 (l ++ new) F2) as [I1 I2].
    destruct (lite_slave_write lw L true (firstn j (map fst pairs)) _ _) as [[t1 b1] r1]. destruct (lite_slave_write lw L true (map fst pairs) _ _) as [[t2 b2] r2].
    cbn [fst snd] in *. split; [now apply prefix_app_l in I1|exact I2].
Qed.
Lemma levs_a ws : law_of (levs ws) = map fst ws.
Proof. induction ws as [|p ws IH]; [reflexivity|]. cbn. now f_equal. Qed.
Lemma levs_w ws : lw_of (levs ws) = map snd ws.
Proof. induction ws as [|p ws IH]; [reflexivity|]. cbn. now f_equal. Qed.

Lemma serve_w1 i w x l : are_bytes (lc_data w) -> exists x' rs cs,
  apb_serve lw fr L ep (x, l) (ACW w) = ((x', l ++ cs), AWResp (lc_addr w) (zlen (lc_data w)) (if ep then lite_write_resp rs else OKAY)) /\
  lite_written L (i, w) (rs, cs) /\ replays tw x cs x' /\
  forall j, is_prefix l (snd (apb_part lw fr L (x, l) (ACW w) j)) /\ is_prefix (snd (apb_part lw fr L (x, l) (ACW w) j)) (l ++ cs).
Proof.
  intros Hok. destruct (op_words tw L HL (i, w) Hok) as (ws & Hev & Hf & Hby & Hn). unfold lite_w_sends in Hev. cbn [snd] in Hev, Hby. unfold apb_serve, apb_part. rewrite Hev, levs_a, levs_w.
  pose proof (fun j => slave_w_part ws j x l Hf) as HP.
  destruct (slave_w ws x l Hf) as (x' & ans & E & HA & Hco & Hr). rewrite E in HP |- *. exists x', (map (fun y => if existsb failed y then SLVERR else OKAY) ans), (concat ans).
  split; [reflexivity|]. split; [|split; [exact Hr|exact HP]]. cbn [lite_written]. split; [|split; [exact Hco|]].
  - unfold lite_write_resp. rewrite agg_slv.
    + replace (existsb rerr _) with (existsb failed (concat ans)); [reflexivity|]. clear. induction ans as [|y ans IH]; [reflexivity|].
      cbn [concat map existsb]. rewrite existsb_app, IH. now destruct (existsb failed y).
    + clear. induction ans; cbn; constructor; auto. destruct (existsb failed a); auto.
  - cbn [snd]. rewrite <- Hby. clear - HA HL. induction HA as [|p x ws ans ((rest & Hs & Hr) & Hne) HA (I1 & I2 & I3)]; [split; [intros ? []|split; [reflexivity|apply spared_nil]]|].
    cbn [flat_map concat]. rewrite calls_bytes_app. destruct p as [a [d sb]]. cbn [fst snd lw_data lw_strb] in Hs, Hr |- *.
    split; [|split]; [| |apply spared_app; auto; eapply spared_word; eauto; exact (strobed_word L (la_addr a) (lw_wch {| lw_data := d; lw_strb := sb |}) HL)]; rewrite Hs.
    + apply incl_app; intros z Hz; rewrite !in_app_iff; auto.
    + rewrite existsb_app. intros Hf. apply orb_false_iff in Hf as [F1 F2]. rewrite (Hr F1), app_nil_r. f_equal. now apply I2.
Qed.

Definition fine_inv (P : X -> Prop) : Prop :=
  (forall x a d, P x -> P (fst (tw x a d)) /\ is_err (snd (tw x a d)) = false) /\ (forall x a n, P x -> P (fst (tr x a n))).
Lemma replays_fine P cs : fine_inv P -> forall x x', replays tw x cs x' -> P x -> P x' /\ existsb failed cs = false.
Proof.
  intros [Hw _]. induction cs as [|[[a d] r] cs IH]; intros x x' H HP; cbn [replays] in H; [subst; auto|]. destruct H as [H1 H2]. destruct (Hw x a d HP) as [K1 K2].
  destruct (IH _ _ H2 K1) as [I1 I2]. split; [exact I1|]. cbn [existsb]. rewrite I2. unfold failed. cbn [snd]. rewrite <- H1, K2. reflexivity.
Qed.

Lemma slave_r_lift ars : forall x l, snd (fst (lite_slave_read fr L ars (x, l))) = l /\
  forall P, fine_inv P -> P x -> P (fst (fst (lite_slave_read fr L ars (x, l)))).
Proof.
  induction ars as [|a ars IH]; intros x l; [cbn; auto|]. cbn [lite_slave_read]. unfold lite_sr, lift_r at 1 3. cbn [fst snd].
  destruct (tr x (la_addr a / L * L) L) as [x1 r] eqn:E. destruct (IH x1 l) as [I1 I2].
  assert (K : forall P, fine_inv P -> P x -> P x1) by (intros P [_ HP] Hx; specialize (HP x (la_addr a / L * L) L Hx); now rewrite E in HP).
  destruct r as [d|e]; cbn [fst snd]; destruct (lite_slave_read fr L ars (x1, l)) as [t rs]; cbn [fst snd] in *; (split; [exact I1|intros P HP Hx; exact (I2 P HP (K P HP Hx))]).
Qed.

Lemma part_w1 x l c j : op_ok c ->
  is_prefix l (snd (apb_part lw fr L (x, l) c j)) /\ is_prefix (snd (apb_part lw fr L (x, l) c j)) (snd (fst (apb_serve lw fr L ep (x, l) c))).
Proof.
  intros Hc. destruct c as [w|r].
  - destruct (serve_w1 0 w x l Hc) as (x' & rs & cs & -> & _ & _ & HP). cbn [fst snd]. apply HP.
  - cbn [apb_part apb_serve]. rewrite (proj1 (slave_r_lift (firstn j (lite_read L r)) x l)). pose proof (proj1 (slave_r_lift (lite_read L r) x l)) as K.
    destruct (lite_slave_read fr L (lite_read L r) (x, l)) as [t rs]. cbn [fst snd] in *. rewrite K. split; apply prefix_refl.
Qed.

Definition wresp (e : list resp_t * list call) : resp_t := if ep then lite_write_resp (fst e) else OKAY.
Lemma serve_w ops : forall x l, Forall (fun o : aop => op_ok (snd o)) ops -> exists x' ex,
  fst (serve_all lw fr L ep (x, l) ops) = (x', l ++ concat (map snd ex)) /\ Forall2 (lite_written L) (awrites ops) ex /\
  aw_res (snd (serve_all lw fr L ep (x, l) ops)) = combine (awrites ops) (map wresp ex) /\
  (forall P, fine_inv P -> P x -> P x' /\ existsb failed (concat (map snd ex)) = false).
Proof.
  induction ops as [|[i c] ops IH]; intros x l Hok.
  { exists x, []. cbn. rewrite app_nil_r. repeat split; auto. }
  inversion Hok as [|? ? O1 O2]; subst. cbn [snd] in O1. cbn [serve_all snd]. destruct c as [w|r].
  - destruct (serve_w1 i w x l O1) as (x1 & rs & cs & -> & Hw & Hr & _). destruct (IH x1 (l ++ cs) O2) as (x' & ex & E1 & E2 & E3 & E4).
    destruct (serve_all lw fr L ep (x1, l ++ cs) ops) as [t2 r2]. cbn [fst snd] in *. exists x', ((rs, cs) :: ex). cbn [map concat snd]. rewrite E1, app_assoc.
    split; [reflexivity|]. split; [cbn [awrites flat_map app]; constructor; auto|]. split; [unfold awrites, aw_res in *; cbn [flat_map app map combine]; rewrite E3; reflexivity|].
    intros P HP Hx. destruct (replays_fine P cs HP _ _ Hr Hx) as [K1 K2]. destruct (E4 P HP K1) as [K3 K4]. split; [exact K3|]. rewrite existsb_app, K2, K4. reflexivity.
  - destruct (slave_r_lift (lite_read L r) x l) as [S1 S2]. cbn [apb_serve]. destruct (lite_slave_read fr L (lite_read L r) (x, l)) as [[x1 l1] rs]. cbn [fst snd] in *. subst l1.
    destruct (IH x1 l O2) as (x' & ex & E1 & E2 & E3 & E4). destruct (serve_all lw fr L ep (x1, l) ops) as [t2 r2]. cbn [fst snd] in *. exists x', ex.
    split; [exact E1|]. split; [exact E2|]. split; [exact E3|]. intros P HP Hx. apply (E4 P HP). now apply S2.
Qed.

(** ** reads *)
Lemma slave_r_part ars : forall j x l, is_prefix l (snd (fst (lite_slave_read lr L (firstn j ars) (x, l)))) /\
  is_prefix (snd (fst (lite_slave_read lr L (firstn j ars) (x, l)))) (snd (fst (lite_slave_read lr L ars (x, l)))).
Proof.
  induction ars as [|a ars IH]; intros [|j] x l.
  - cbn. split; apply prefix_refl.
  - cbn. split; apply prefix_refl.
  - destruct (lite_slave_read_any tr L HL (a :: ars) x l) as (x' & ans & -> & _). cbn [firstn lite_slave_read fst snd]. split; [apply prefix_refl|]. now eexists.
  - cbn [firstn lite_slave_read]. unfold lite_sr, log_read at 1 3 5. cbn [fst snd]. destruct (tr x (la_addr a / L * L) L) as [x1 r]. destruct (IH j x1 (l ++ [(la_addr a / L * L, L, r)])) as [I1 I2].
    destruct r as [d|e]; cbn [fst snd] in *.
    all: destruct (lite_slave_read lr L (firstn j ars) _) as [t1 r1]; destruct (lite_slave_read lr L ars _) as [t2 r2]; cbn [fst snd] in *.
    all: split; [now apply prefix_app_l in I1|exact I2].
Qed.
Lemma serve_r1 i c x l : 0 <= lr_len c -> exists x' rs cs,
  apb_serve fw lr L ep (x, l) (ACR c) = ((x', l ++ cs), ARResp (lr_addr c) (fst (lite_read_resp L c rs)) (if ep then snd (lite_read_resp L c rs) else OKAY)) /\
  lite_fetched L (i, c) (rs, cs).
Proof.
  intros Hc. cbn [apb_serve]. destruct (lite_slave_read_any tr L HL (lite_read L c) x l) as (x' & cs & E & Hm). rewrite E. exists x', (map lanswer cs), cs. split; [reflexivity|].
  clear E. destruct c as [A n prot]. cbn [lr_len lr_addr] in *.
  assert (Hw : map fst cs = map (fun j => (L * (A / L) + j * L, L)) (zrange 0 (lite_cycles L A n))).
  { rewrite Hm. unfold lite_read. cbn [lr_addr lr_len]. rewrite map_map. cbn [la_addr]. apply map_ext_in. intros j Hj'. apply in_zrange in Hj'.
    f_equal. apply (lg_cycle L A n HL ltac:(lia) j Hj'). }
  unfold lite_fetched. cbn [snd lr_addr lr_len]. split; [|split].
  + unfold lite_read_calls. cbn [lr_addr lr_len]. rewrite read_words by (auto; lia). exact Hw.
  + unfold lite_read_resp. rewrite lite_read_loop_resp, map_map. rewrite agg_slv.
    * replace (existsb rerr _) with (existsb rfailed cs); [reflexivity|]. clear. induction cs as [|e cs IH]; [reflexivity|].
      cbn [map existsb]. rewrite <- IH. unfold rfailed, lanswer. cbn [lr_resp]. now destruct (is_err (snd e)).
    * rewrite Forall_map. apply Forall_forall. intros e _. unfold lanswer. cbn [lr_resp]. destruct (is_err (snd e)); auto.
  + intros Hcok. apply resp_data; auto; lia.
Qed.

Lemma perform_lift ops : forall x l, snd (fst (sw_perform fw (x, l) ops)) = l.
Proof.
  induction ops as [|[a d] ops IH]; intros x l; [reflexivity|]. cbn [sw_perform]. unfold lift_w at 1. cbn [fst snd]. destruct (tw x a d) as [x1 [[]|e]]; [apply IH|reflexivity].
Qed.
Lemma slave_w_lift aws : forall ws x l, snd (fst (fst (lite_slave_write fw L true aws ws (x, l)))) = l.
Proof.
  induction aws as [|a aws IH]; intros [|w ws] x l; try reflexivity. cbn [lite_slave_write]. unfold lite_sw. destruct (to_bytes _ _ _) as [data|e]; [|reflexivity].
  pose proof (perform_lift (sw_ops (la_addr a / L * L) data (lw_strb w) (zrange 0 L) 0 None) x l) as K. cbn zeta.
  destruct (sw_perform fw (x, l) _) as [[x1 l1] r]. cbn [fst snd] in K. subst l1. pose proof (IH ws x1 l) as I. destruct (lite_slave_write fw L true aws ws (x1, l)) as [[t b] q]. exact I.
Qed.
Lemma part_r1 x l c j : op_ok c ->
  is_prefix l (snd (apb_part fw lr L (x, l) c j)) /\ is_prefix (snd (apb_part fw lr L (x, l) c j)) (snd (fst (apb_serve fw lr L ep (x, l) c))).
Proof.
  intros Hc. destruct c as [w|r]; cbn [apb_part apb_serve]; cbn zeta.
  - rewrite slave_w_lift. pose proof (slave_w_lift (law_of (fst (lite_write L w))) (lw_of (fst (lite_write L w))) x l) as K.
    destruct (lite_slave_write fw L true _ _ (x, l)) as [[t b] q]. cbn [fst snd] in *. rewrite K. split; apply prefix_refl.
  - pose proof (slave_r_part (lite_read L r) j x l) as K. destruct (lite_slave_read lr L (lite_read L r) (x, l)) as [t rs]. exact K.
Qed.
Definition rresp (p : (Z * lrcmd) * (list lrd * list rcall)) : (Z * lrcmd) * (list Z * resp_t) :=
  (fst p, (fst (lite_read_resp L (snd (fst p)) (fst (snd p))), if ep then snd (lite_read_resp L (snd (fst p)) (fst (snd p))) else OKAY)).
Lemma serve_r ops : forall x l, Forall (fun o : aop => op_ok (snd o)) ops -> exists x' er,
  fst (serve_all fw lr L ep (x, l) ops) = (x', l ++ concat (map snd er)) /\ Forall2 (lite_fetched L) (areads ops) er /\
  ar_res (snd (serve_all fw lr L ep (x, l) ops)) = map rresp (combine (areads ops) er).
Proof.
  induction ops as [|[i c] ops IH]; intros x l Hok.
  { exists x, []. cbn. rewrite app_nil_r. repeat split; auto. }
  inversion Hok as [|? ? O1 O2]; subst. cbn [snd] in O1. cbn [serve_all snd]. destruct c as [w|r].
  - cbn [apb_serve]. cbn zeta. pose proof (slave_w_lift (law_of (fst (lite_write L w))) (lw_of (fst (lite_write L w))) x l) as K.
    destruct (lite_slave_write fw L true _ _ (x, l)) as [[[x1 l1] b] q]. cbn [fst snd] in K. subst l1.
    destruct (IH x1 l O2) as (x' & ex & E1 & E2 & E3). destruct (serve_all fw lr L ep (x1, l) ops) as [t2 r2]. cbn [fst snd] in *. exists x', ex. auto.
  - destruct (serve_r1 i r x l O1) as (x1 & rs & cs & -> & Hw). destruct (IH x1 (l ++ cs) O2) as (x' & ex & E1 & E2 & E3).
    destruct (serve_all fw lr L ep (x1, l ++ cs) ops) as [t2 r2]. cbn [fst snd] in *. exists x', ((rs, cs) :: ex). cbn [map concat snd]. rewrite E1, app_assoc.
    split; [reflexivity|]. split; [cbn [areads flat_map app]; constructor; auto|]. unfold areads, ar_res in *. cbn [flat_map app map combine]. rewrite E3. reflexivity.
Qed.

(** ** the first n operations and a part of the next *)
Lemma awrites_app a b : awrites (a ++ b) = awrites a ++ awrites b.
Proof. apply flat_map_app. Qed.
Lemma areads_app a b : areads (a ++ b) = areads a ++ areads b.
Proof. apply flat_map_app. Qed.
Lemma serve_firstn {T} (w' : wt T) r' (t : T) ops n : firstn n (snd (serve_all w' r' L ep t ops)) = snd (serve_all w' r' L ep t (firstn n ops)).
Proof.
  revert t n. induction ops as [|o ops IH]; intros t [|n]; try reflexivity. cbn [firstn serve_all]. destruct (apb_serve w' r' L ep t (snd o)) as [t1 r].
  specialize (IH t1 n). destruct (serve_all w' r' L ep t1 ops) as [t2 rs]. destruct (serve_all w' r' L ep t1 (firstn n ops)) as [t3 rs']. cbn [snd firstn] in *. now rewrite IH.
Qed.

Lemma part_w ops n j x0 : Forall (fun o : aop => op_ok (snd o)) ops -> (n <= length ops)%nat ->
  let fin := match nth_error ops n with
             | Some o => apb_part lw fr L (fst (serve_all lw fr L ep (x0, []) (firstn n ops))) (snd o) j
             | None => fst (serve_all lw fr L ep (x0, []) ops) end in
  exists ex mw m, Forall2 (lite_written L) (awrites ops) ex /\ concat (map snd ex) = snd fin ++ mw /\ (m <= length (awrites ops))%nat /\
    aw_res (firstn n (snd (serve_all lw fr L ep (x0, []) ops))) = combine (firstn m (awrites ops)) (firstn m (map wresp ex)) /\
    is_prefix (concat (map snd (firstn m ex))) (snd fin) /\
    (forall P, fine_inv P -> P x0 -> existsb failed (concat (map snd ex)) = false).
Proof.
  intros Hok Hn fin. rewrite serve_firstn. pose proof Hok as Hok'. rewrite <- (firstn_skipn n ops) in Hok'. apply Forall_app in Hok' as [O1 O2].
  destruct (serve_w (firstn n ops) x0 [] O1) as (xa & exa & A1 & A2 & A3 & A4). cbn [app] in A1.
  destruct (serve_w (skipn n ops) xa (concat (map snd exa)) O2) as (xb & exb & B1 & B2 & B3 & B4).
  pose proof (forall2_len _ _ _ A2) as La.
  assert (HF : is_prefix (concat (map snd exa)) (snd fin) /\ is_prefix (snd fin) (concat (map snd exa) ++ concat (map snd exb))).
  { subst fin. destruct (nth_error ops n) as [o|] eqn:En.
    - rewrite A1. assert (Ho : op_ok (snd o)) by exact (proj1 (Forall_forall _ _) Hok _ (nth_error_In _ _ En)).
      destruct (part_w1 xa (concat (map snd exa)) (snd o) j Ho) as [K1 K2]. split; [exact K1|]. eapply prefix_trans; [exact K2|].
      assert (Es : skipn n ops = o :: skipn (S n) ops).
      { clear - En. revert n En. induction ops as [|o' ops IH]; intros [|n] En; try discriminate; [injection En as ->; reflexivity|]. cbn [skipn]. now apply IH. }
      rewrite Es in B1, O2. inversion O2 as [|? ? _ O3]; subst. cbn [serve_all] in B1. destruct (apb_serve lw fr L ep (xa, concat (map snd exa)) (snd o)) as [[x1 l1] r].
      destruct (serve_w (skipn (S n) ops) x1 l1 O3) as (xc & exc & C1 & _). destruct (serve_all lw fr L ep (x1, l1) (skipn (S n) ops)) as [t2 r2]. cbn [fst snd] in *.
      rewrite C1 in B1. injection B1 as _ B1. rewrite <- B1. now eexists.
    - apply nth_error_None in En. rewrite firstn_all2 in A1 by lia. rewrite A1. cbn [snd]. split; [apply prefix_refl|now eexists]. }
  destruct HF as [F1 [mw F2]]. exists (exa ++ exb), mw, (length exa). rewrite map_app, concat_app. split; [|split; [exact F2|]].
  - rewrite <- (firstn_skipn n ops), awrites_app. apply Forall2_app; assumption.
  - assert (Ew : firstn (length exa) (awrites ops) = awrites (firstn n ops)).
    { rewrite <- (firstn_skipn n ops) at 1. rewrite awrites_app, <- La, firstn_app, firstn_all, Nat.sub_diag. cbn. now rewrite app_nil_r. }
    split; [|split; [|split]].
    + rewrite <- La. pose proof (awrites_app (firstn n ops) (skipn n ops)) as K. rewrite firstn_skipn in K. rewrite K, app_length. lia.
    + rewrite Ew, map_app, firstn_app, map_length, Nat.sub_diag, <- (map_length wresp exa), firstn_all. cbn [firstn]. rewrite app_nil_r. exact A3.
    + rewrite firstn_app, Nat.sub_diag, firstn_all. cbn [firstn]. rewrite app_nil_r. exact F1.
    + intros P HP Hx. destruct (A4 P HP Hx) as [K1 K2]. destruct (B4 P HP K1) as [_ K3]. rewrite existsb_app, K2, K3. reflexivity.
Qed.

Lemma part_r ops n j x0 : Forall (fun o : aop => op_ok (snd o)) ops -> (n <= length ops)%nat ->
  let fin := match nth_error ops n with
             | Some o => apb_part fw lr L (fst (serve_all fw lr L ep (x0, []) (firstn n ops))) (snd o) j
             | None => fst (serve_all fw lr L ep (x0, []) ops) end in
  exists er mr m, Forall2 (lite_fetched L) (areads ops) er /\ concat (map snd er) = snd fin ++ mr /\ (m <= length (areads ops))%nat /\
    ar_res (firstn n (snd (serve_all fw lr L ep (x0, []) ops))) = map rresp (combine (firstn m (areads ops)) (firstn m er)) /\
    is_prefix (concat (map snd (firstn m er))) (snd fin).
Proof.
  intros Hok Hn fin. rewrite serve_firstn. pose proof Hok as Hok'. rewrite <- (firstn_skipn n ops) in Hok'. apply Forall_app in Hok' as [O1 O2].
  destruct (serve_r (firstn n ops) x0 [] O1) as (xa & exa & A1 & A2 & A3). cbn [app] in A1.
  destruct (serve_r (skipn n ops) xa (concat (map snd exa)) O2) as (xb & exb & B1 & B2 & B3).
  pose proof (forall2_len _ _ _ A2) as La.
  assert (HF : is_prefix (concat (map snd exa)) (snd fin) /\ is_prefix (snd fin) (concat (map snd exa) ++ concat (map snd exb))).
  { subst fin. destruct (nth_error ops n) as [o|] eqn:En.
    - rewrite A1. assert (Ho : op_ok (snd o)) by exact (proj1 (Forall_forall _ _) Hok _ (nth_error_In _ _ En)).
      destruct (part_r1 xa (concat (map snd exa)) (snd o) j Ho) as [K1 K2]. split; [exact K1|]. eapply prefix_trans; [exact K2|].
      assert (Es : skipn n ops = o :: skipn (S n) ops).
      { clear - En. revert n En. induction ops as [|o' ops IH]; intros [|n] En; try discriminate; [injection En as ->; reflexivity|]. cbn [skipn]. now apply IH. }
      rewrite Es in B1, O2. inversion O2 as [|? ? _ O3]; subst. cbn [serve_all] in B1. destruct (apb_serve fw lr L ep (xa, concat (map snd exa)) (snd o)) as [[x1 l1] r].
      destruct (serve_r (skipn (S n) ops) x1 l1 O3) as (xc & exc & C1 & _). destruct (serve_all fw lr L ep (x1, l1) (skipn (S n) ops)) as [t2 r2]. cbn [fst snd] in *.
      rewrite C1 in B1. injection B1 as _ B1. rewrite <- B1. now eexists.
    - apply nth_error_None in En. rewrite firstn_all2 in A1 by lia. rewrite A1. cbn [snd]. split; [apply prefix_refl|now eexists]. }
  destruct HF as [F1 [mw F2]]. exists (exa ++ exb), mw, (length exa). rewrite map_app, concat_app. split; [|split; [exact F2|]].
  - rewrite <- (firstn_skipn n ops), areads_app. apply Forall2_app; assumption.
  - assert (Ew : firstn (length exa) (areads ops) = areads (firstn n ops)).
    { rewrite <- (firstn_skipn n ops) at 1. rewrite areads_app, <- La, firstn_app, firstn_all, Nat.sub_diag. cbn. now rewrite app_nil_r. }
    split; [|split].
    + rewrite <- La. pose proof (areads_app (firstn n ops) (skipn n ops)) as K. rewrite firstn_skipn in K. rewrite K, app_length. lia.
    + rewrite Ew, firstn_app, Nat.sub_diag, firstn_all. cbn [firstn]. rewrite app_nil_r. exact A3.
    + rewrite firstn_app, Nat.sub_diag, firstn_all. cbn [firstn]. rewrite app_nil_r. exact F1.
Qed.
End Log.
