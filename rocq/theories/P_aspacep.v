(** Proofs about address spaces: pools and absolute addresses. *)
From Coq Require Import ZArith Lia List Bool.
From Coq Require Import ZifyBool ZifyNat.
From Verif Require Import Py S_flat M_sparse S_sparse P_sparse M_memory P_memory M_buddy S_buddy P_buddy
  M_aspace S_aspace P_aspace P_aspacew P_aspacec P_aspaceh.
Import ListNotations.
Open Scope Z_scope.

(** ** what later calls leave alone *)

Definition more_allocs (b b' : buddy) : Prop :=
  exists ns, b' = fold_left (fun b n => fst (b_alloc_op b n)) ns b.

Definition krel (k k' : kind) : Prop :=
  match k with
  | KWindow off None => k' = KWindow off None
  | KWindow off (Some b) => exists b', k' = KWindow off (Some b') /\ more_allocs b b'
  | _ => True
  end.

Definition hframe (h h' : heap) : Prop :=
  forall i o, hget h i = Some o -> exists o', hget h' i = Some o' /\ o_size o' = o_size o /\
    krel (o_kind o) (o_kind o').

Lemma more_refl b : more_allocs b b.
Proof. exists []. reflexivity. Qed.
Lemma krel_refl k : krel k k.
Proof. destruct k as [| | |off [b|]|]; cbn; auto. exists b. split; auto. apply more_refl. Qed.

Lemma krel_trans k1 k2 k3 : krel k1 k2 -> krel k2 k3 -> krel k1 k3.
Proof.
  destruct k1 as [| | |off [b|]|]; cbn; auto.
  - intros (b2 & -> & (n1 & E1)). cbn. intros (b3 & -> & (n2 & E2)). exists b3. split; auto.
    exists (n1 ++ n2). now rewrite fold_left_app, <- E1.
  - intros ->. cbn. auto.
Qed.

Lemma hframe_refl h : hframe h h.
Proof. intros i o Hi. exists o. split; auto. split; auto. apply krel_refl. Qed.

Lemma hframe_trans h1 h2 h3 : hframe h1 h2 -> hframe h2 h3 -> hframe h1 h3.
Proof.
  intros H1 H2 i o Hi. destruct (H1 i o Hi) as (o2 & G2 & S2 & K2).
  destruct (H2 i o2 G2) as (o3 & G3 & S3 & K3). exists o3. split; auto. split; [congruence|].
  eapply krel_trans; eauto.
Qed.

Lemma hframe_app h o : hframe h (h ++ [o]).
Proof.
  intros i o' Hi. exists o'. rewrite hget_app1 by (eapply hget_lt; eauto). split; auto. split; auto. apply krel_refl.
Qed.

Lemma hframe_registered h sp r base s off h' : registered h sp r base s off h' -> hframe h h'.
Proof.
  intros (os & rg & regs & al & Hs & Hr & Hk & Ef & Hlen & Hr' & Hs' & Ho) i o Hi. cbv zeta in Hr'.
  destruct (Nat.eq_dec i r) as [->|Hir].
  - rewrite Hr in Hi. inversion Hi; subst o. eexists. split; [exact Hr'|]. split; [reflexivity|].
    cbn [o_kind]. destruct (Nat.eqb_spec r sp) as [->|]; [|apply krel_refl].
    rewrite Hs in Hr. inversion Hr; subst. rewrite Hk. exact I.
  - destruct (Nat.eq_dec i sp) as [->|His].
    + rewrite Hs in Hi. inversion Hi; subst o. eexists. split; [apply Hs'; auto|]. split; [reflexivity|].
      rewrite Hk. exact I.
    + exists o. rewrite Ho by auto. split; auto. split; auto. apply krel_refl.
Qed.

Lemma hframe_register h sp r base size off : hframe h (fst (register_region h sp r base size off)).
Proof.
  pose proof (register_inv h sp r base size off) as H.
  destruct (register_region h sp r base size off) as [h' [u|e]]; cbn [fst].
  - destruct H as (rg & _ & H). eapply hframe_registered; eauto.
  - subst. apply hframe_refl.
Qed.

Lemma hframe_skel h h' : hskel h = hskel h' -> hframe h h'.
Proof.
  intros Hs i o Hi. destruct (skel_get _ _ _ _ Hs Hi) as (o' & E & S1 & _ & _ & K).
  exists o'. split; auto. split; auto.
  destruct (o_kind o) as [| | |off al|]; cbn [skel krel] in *; auto.
  apply (proj1 (skel_window _ _ _)) in K. rewrite K. apply (krel_refl (KWindow off al)).
Qed.

Lemma hframe_set h i o k : hget h i = Some o -> krel (o_kind o) k -> hframe h (hset h i (set_kind o k)).
Proof.
  intros Hi Hk j oj Hj. rewrite hget_hset by congruence. destruct (Nat.eqb_spec i j) as [->|Hne].
  - rewrite Hi in Hj. inversion Hj; subst. eexists. split; [reflexivity|]. split; auto.
  - exists oj. split; auto. split; auto. apply krel_refl.
Qed.

Lemma hframe_new_region h t size : hframe h (fst (new_region h t size)).
Proof.
  destruct (new_region h t size) as [h' [r|e]] eqn:E; cbn [fst].
  - apply new_region_spec in E. destruct E as (o & -> & _). apply hframe_app.
  - apply new_region_err in E. subst. apply hframe_refl.
Qed.

Lemma hframe_create_window h i off size : hframe h (fst (create_window h i off size)).
Proof.
  destruct (create_window h i off size) as [h' [w|e]] eqn:Ec; cbn [fst].
  - apply create_window_spec in Ec. destruct Ec as (o1 & s & bb & _ & _ & -> & _). apply hframe_app.
  - apply create_window_err in Ec. subst. apply hframe_refl.
Qed.

Lemma hframe_alloc_window h i size : hframe h (fst (alloc_window h i size)).
Proof.
  unfold alloc_window. destruct (hget h i) as [o|] eqn:Hi; [|apply hframe_refl].
  destruct (o_kind o) as [| | |off [b|]|] eqn:Hk; try apply hframe_refl.
  destruct (b_alloc_op b size) as [b' r] eqn:Ea.
  assert (H1 : hframe h (hset h i (set_kind o (KWindow off (Some b'))))).
  { apply hframe_set; auto. rewrite Hk. cbn. exists b'. split; auto. exists [size]. cbn. now rewrite Ea. }
  destruct r as [addr|e]; [|exact H1].
  eapply hframe_trans; [exact H1|]. apply hframe_create_window.
Qed.

Lemma hframe_create_pool h i base size : hframe h (fst (create_pool h i base size)).
Proof.
  unfold create_pool. destruct (hget h i) as [o|]; [|apply hframe_refl].
  destruct (o_kind o); try apply hframe_refl. cbv zeta.
  match goal with |- context [if negb ?c then _ else _] => destruct c end; [|apply hframe_refl]. cbn [negb].
  match goal with |- context [register_region ?a ?b ?c ?d ?e ?f] =>
    pose proof (hframe_register a b c d e f) as HR; destruct (register_region a b c d e f) as [h2 [u|x]] end.
  - cbn [fst] in *. eapply hframe_trans; [apply hframe_app|exact HR].
  - apply hframe_refl.
Qed.

Lemma hframe_alloc_region h i t size : hframe h (fst (alloc_region h i t size)).
Proof.
  unfold alloc_region. destruct (hget h i) as [o|] eqn:Hi; [|apply hframe_refl].
  destruct (o_kind o) as [| | | |regs [b|]] eqn:Hk; try apply hframe_refl.
  destruct (b_alloc_op b size) as [b' r] eqn:Ea.
  assert (H1 : hframe h (hset h i (set_kind o (KSpace regs (Some b'))))).
  { apply hframe_set; auto. rewrite Hk. exact I. }
  destruct r as [addr|e]; [|exact H1].
  match goal with |- context [new_region ?a t size] =>
    pose proof (hframe_new_region a t size) as H2; destruct (new_region a t size) as [h2 [w|e]] end;
    cbn [fst] in H2; [|cbn [fst]; eapply hframe_trans; eauto].
  match goal with |- context [register_region ?a ?b ?c ?d ?e ?f] =>
    pose proof (hframe_register a b c d e f) as HR; destruct (register_region a b c d e f) as [h3 [u|x]] end;
    cbn [fst] in *; auto.
  eapply hframe_trans; [exact H1|]. eapply hframe_trans; eauto.
Qed.

Lemma hframe_step lim h o : hok h -> hframe h (fst (a_step lim h o)).
Proof.
  intros Hok. destruct o; cbn [a_step]; unfold ao_id, ao_unit, ao_bytes; cbn [fst].
  - apply (hframe_new_region h RTMem).
  - apply (hframe_new_region h RTSparse).
  - apply hframe_app.
  - apply (hframe_new_region h RTSpace).
  - apply hframe_register.
  - apply hframe_create_window.
  - destruct (create_window_pool h i offset size) as [h' [w|e]] eqn:Ec; cbn [fst].
    + apply create_window_pool_spec in Ec. destruct Ec as (o1 & off' & s & bb & _ & _ & -> & _). apply hframe_app.
    + apply create_window_pool_err in Ec. subst. apply hframe_refl.
  - apply hframe_alloc_window.
  - apply hframe_create_pool.
  - apply hframe_alloc_region.
  - destruct (rd_obj lim h i address length) as [h' r] eqn:E. cbn [fst].
    destruct (rd_obj_sound lim _ _ _ _ _ _ Hok E) as [Hs _]. apply hframe_skel. symmetry. now apply strip_skel.
  - destruct (wr_obj_shape lim h i address data Hok) as [H1 H2]. now apply hframe_skel.
Qed.

Lemma hframe_run lim ops : forall h, hok2 h -> hframe h (fst (a_run lim h ops)).
Proof.
  induction ops as [|o ops IH]; intros h Hok; cbn [a_run]; [apply hframe_refl|].
  pose proof (hframe_step lim h o (hok2_hok _ Hok)) as H1.
  pose proof (a_step_hok2 lim h o Hok) as H2. destruct (a_step lim h o) as [h1 r]. cbn [fst] in *.
  specialize (IH h1 H2). destruct (a_run lim h1 ops). cbn [fst] in *. eapply hframe_trans; eauto.
Qed.

(** ** windows of a pool *)

Lemma more_allocs_live size mn p ns : forall b live, b_reach size mn b live -> In p live ->
  exists live', b_reach size mn (fold_left (fun b n => fst (b_alloc_op b n)) ns b) live' /\ In p live'.
Proof.
  induction ns as [|n ns IH]; intros b live H Hin; cbn [fold_left]; [eauto|].
  pose proof (b_reach_step size mn b live (BAlloc n) H) as HS.
  cbn [b_step] in HS. destruct (b_alloc_op b n) as [b' r]. cbn [fst snd] in *.
  eapply IH; [exact HS|]. cbn [live_step]. destruct r; auto. apply in_or_app. auto.
Qed.

Lemma alloc_window_spec h wp n h' w : hok2 h -> alloc_window h wp n = (h', Ok w) ->
  exists o off b b' a live ow, hget h wp = Some o /\ o_kind o = KWindow off (Some b) /\
    b_reach (o_size o) 1 b live /\ b_alloc_op b n = (b', Ok a) /\
    b_reach (o_size o) 1 b' (live ++ [(a, block_size 1 n)]) /\
    hget h' wp = Some (set_kind o (KWindow off (Some b'))) /\
    hget h' w = Some ow /\ w = length h /\ o_kind ow = KWindow a None /\ o_size ow = n /\
    o_parent ow = Some wp /\ 1 <= n /\ 0 <= a /\ a + n <= o_size o /\
    h' = hset h wp (set_kind o (KWindow off (Some b'))) ++ [ow] /\
    o_base ow = match o_base o with None => None | Some B => Some (a + B) end.
Proof.
  intros Hok. unfold alloc_window. destruct (hget h wp) as [o|] eqn:Hi; [|discriminate].
  destruct (o_kind o) as [| | |off [b|]|] eqn:Hk; try discriminate.
  destruct (hok2_get _ _ _ Hok Hi) as (_ & A). unfold allocok in A. rewrite Hk in A. destruct A as (live & HR).
  destruct (b_alloc_op b n) as [b' [a|e]] eqn:Ea; [|discriminate].
  assert (Hn : 1 <= n) by (unfold b_alloc_op in Ea; destruct ((n <? 1) || (b_size b <? n)) eqn:E; [discriminate|lia]).
  intros Ec. apply create_window_spec in Ec.
  destruct Ec as (o1 & s & bb & G1 & -> & -> & Ha & Hs & Hfit & Hsz & Hbb).
  rewrite hget_hset, Nat.eqb_refl in G1 by congruence. inversion G1; subst o1. cbn [set_kind o_size o_base] in *.
  rewrite (Hsz n eq_refl ltac:(lia)) in *.
  pose proof (b_reach_step _ _ _ _ (BAlloc n) HR) as HS. cbn [b_step] in HS. rewrite Ea in HS. cbn [fst snd live_step] in HS.
  exists o, off, b, b', a, live. eexists. split; [reflexivity|]. split; [auto|]. split; [auto|]. split; [auto|].
  split; [auto|]. rewrite hset_length. pose proof (hget_lt _ _ _ Hi).
  split; [rewrite hget_app1 by (rewrite hset_length; auto); rewrite hget_hset, Nat.eqb_refl by congruence; reflexivity|].
  split; [rewrite <- (hset_length h wp (set_kind o (KWindow off (Some b')))); apply hget_app_new|].
  split; [reflexivity|]. split; [reflexivity|]. split; [reflexivity|]. split; [reflexivity|].
  split; [lia|]. split; [lia|]. split; [lia|]. split; [reflexivity|]. exact Hbb.
Qed.

Lemma pool_windows h0 lim ops wp n1 w1 h1 n2 w2 h3 : hok2 h0 ->
  alloc_window h0 wp n1 = (h1, Ok w1) ->
  alloc_window (fst (a_run lim h1 ops)) wp n2 = (h3, Ok w2) ->
  exists p o1 o2 a1 a2, hget h3 wp = Some p /\ hget h3 w1 = Some o1 /\ hget h3 w2 = Some o2 /\
    o_kind o1 = KWindow a1 None /\ o_kind o2 = KWindow a2 None /\ o_size o1 = n1 /\ o_size o2 = n2 /\
    w1 <> w2 /\ disjoint a1 n1 a2 n2 /\
    (a1 mod block_size 1 n1 = 0 /\ 0 <= a1 /\ a1 + n1 <= o_size p) /\
    (a2 mod block_size 1 n2 = 0 /\ 0 <= a2 /\ a2 + n2 <= o_size p).
Proof.
  intros Hok E1 E2.
  pose proof (alloc_window_hok2 h0 wp n1 Hok) as Hok1. rewrite E1 in Hok1. cbn [fst] in Hok1.
  destruct (alloc_window_spec _ _ _ _ _ Hok E1)
    as (o & off & b & b' & a1 & live & ow & G & K & R & EA & R' & G' & Gw & Ew & Kw & Sw & Pw & Hn1 & Ha1 & Hf1 & _).
  pose proof (hframe_run lim ops h1 Hok1) as F.
  pose proof (a_run_hok2 lim ops h1 Hok1) as Hok2. set (h2 := fst (a_run lim h1 ops)) in *.
  destruct (F _ _ G') as (p2 & Gp2 & Sp2 & Kp2). cbn [set_kind o_kind o_size krel] in *.
  destruct Kp2 as (b2 & Kp2 & ns & Eb2).
  destruct (more_allocs_live _ _ (a1, block_size 1 n1) ns _ _ R' ltac:(apply in_or_app; right; now left)) as (live2 & R2 & I2).
  rewrite <- Eb2 in R2.
  destruct (F _ _ Gw) as (ow2 & Gw2 & Sw2 & Kw2). rewrite Kw in Kw2. cbn [krel] in Kw2.
  destruct (alloc_window_spec _ _ _ _ _ Hok2 E2)
    as (p3 & off3 & b3 & b3' & a2 & live3 & ox & G3 & K3 & R3 & EA3 & R3' & G3' & Gx & Ex & Kx & Sx & Px & Hn2 & Ha2 & Hf2 & _).
  rewrite Gp2 in G3. inversion G3; subst p3. rewrite Kp2 in K3. inversion K3; subst off3 b3.
  pose proof (hframe_alloc_window h2 wp n2) as F3. rewrite E2 in F3. cbn [fst] in F3.
  destruct (F3 _ _ Gw2) as (ow3 & Gw3 & Sw3 & Kw3). rewrite Kw2 in Kw3. cbn [krel] in Kw3.
  pose proof (buddy_alloc_ok _ _ _ _ _ _ _ R EA) as B1. cbv zeta in B1.
  rewrite Sp2 in Hf2.
  pose proof (buddy_alloc_ok _ _ _ _ _ _ _ R2 EA3) as B2. cbv zeta in B2.
  destruct B1 as (B1a & _ & B1b & _). destruct B2 as (B2a & _ & B2b & _ & _ & B2c).
  specialize (B2c _ _ I2).
  eexists. exists ow3, ox, a1, a2. split; [exact G3'|]. split; auto. split; auto. split; auto. split; auto.
  split; [congruence|]. split; [congruence|].
  split. { apply hget_lt in Gw2. lia. }
  split; [unfold disjoint in *; lia|]. cbn [set_kind o_size]. rewrite Sp2. auto.
Qed.

(** regions of a pool *)
Lemma alloc_region_spec h i t n h' r : hok2 h -> alloc_region h i t n = (h', Ok r) ->
  exists o regs b b' a live o', hget h i = Some o /\ o_kind o = KSpace regs (Some b) /\
    b_reach (o_size o) 1 b live /\ b_alloc_op b n = (b', Ok a) /\ r = length h /\
    hget h' i = Some o' /\ o_size o' = o_size o /\
    o_kind o' = KSpace (regs ++ [Entry a n (Some 0) r]) (Some b') /\
    0 <= a < o_size o /\ (forall e, In e regs -> ~ meets e a n).
Proof.
  intros Hok. unfold alloc_region. destruct (hget h i) as [o|] eqn:Hi; [|discriminate].
  destruct (o_kind o) as [| | | |regs [b|]] eqn:Hk; try discriminate.
  destruct (hok2_get _ _ _ Hok Hi) as (_ & A). unfold allocok in A. rewrite Hk in A. destruct A as (live & HR).
  destruct (b_alloc_op b n) as [b' [a|e]] eqn:Ea; [|discriminate].
  destruct (new_region _ t n) as [h2 [w|e]] eqn:En; [|discriminate].
  apply new_region_spec in En. destruct En as (rg & -> & -> & Hsz & _).
  match goal with |- context [register_region ?a ?b ?c ?d ?e ?f] =>
    pose proof (register_inv a b c d e f) as HR'; destruct (register_region a b c d e f) as [h3 [u|x]] end;
    [|discriminate].
  intros E; inversion E; subst h' r. clear E.
  destruct HR' as (rg' & Grg & os & rg'' & regs' & al' & Gs & Gr & Ks & Ef & Hlen & Hr' & Hs' & Ho).
  rewrite hget_app_new in Grg. inversion Grg; subst rg'.
  rewrite hget_app1 in Gs by (rewrite hset_length; eapply hget_lt; eauto).
  rewrite hget_hset, Nat.eqb_refl in Gs by congruence. inversion Gs; subst os. cbn [set_kind o_kind o_size] in *.
  inversion Ks; subst regs' al'. rewrite hset_length in *.
  apply find_nil in Ef. destruct Ef as (Ha & _ & HM). rewrite Hsz in *.
  exists o, regs, b, b', a, live. eexists. split; auto. split; auto. split; auto. split; auto. split; auto.
  split. { apply Hs'. apply hget_lt in Hi. lia. }
  split; [reflexivity|]. split; [reflexivity|]. auto.
Qed.

(** ** absolute addresses *)

(** position of object [i] below its parent *)
Definition link (h : heap) (i : nat) (o : obj) : Prop :=
  exists p po B off, (p < i)%nat /\ hget h p = Some po /\ o_parent o = Some p /\
    o_base po = Some B /\ o_base o = Some (off + B) /\
    ((exists al, o_kind o = KWindow off al) \/
     ((forall off al, o_kind o <> KWindow off al) /\
      exists regs al, o_kind po = KSpace regs al /\ In (Entry off (o_size o) (Some 0) i) regs)).

Definition TD (h : heap) : Prop :=
  forall i o, hget h i = Some o -> (i = O /\ o_base o = Some 0) \/ link h i o.

(** structure only grows *)
Definition kext (k k' : kind) : Prop :=
  match k with
  | KWindow off _ => exists al', k' = KWindow off al'
  | KSpace regs _ => exists regs' al', k' = KSpace regs' al' /\ incl regs regs'
  | _ => is_leaf k'
  end.
Definition ext (h h' : heap) : Prop :=
  forall i o, hget h i = Some o -> exists o', hget h' i = Some o' /\ o_size o' = o_size o /\
    o_base o' = o_base o /\ o_parent o' = o_parent o /\ kext (o_kind o) (o_kind o').

Lemma kext_refl k : kext k k.
Proof. destruct k; cbn; auto; [eauto|]. eexists _, _. split; [reflexivity|]. apply incl_refl. Qed.
Lemma ext_refl h : ext h h.
Proof. intros i o Hi. exists o. repeat (split; [auto|]). apply kext_refl. Qed.
Lemma kext_trans a b c : kext a b -> kext b c -> kext a c.
Proof.
  destruct a; cbn [kext].
  1-3: destruct b; cbn [kext is_leaf]; tauto.
  - intros (al & ->). cbn. auto.
  - intros (r & al & -> & I1). cbn. intros (r2 & al2 & -> & I2). exists r2, al2. split; auto.
    eapply incl_tran; eauto.
Qed.
Lemma ext_trans a b c : ext a b -> ext b c -> ext a c.
Proof.
  intros H1 H2 i o Hi. destruct (H1 i o Hi) as (o2 & G & S1 & B1 & P1 & K1).
  destruct (H2 i o2 G) as (o3 & G3 & S3 & B3 & P3 & K3). exists o3.
  repeat (split; [congruence|]). eapply kext_trans; eauto.
Qed.
Lemma ext_app h o : ext h (h ++ [o]).
Proof.
  intros i o' Hi. exists o'. rewrite hget_app1 by (eapply hget_lt; eauto). repeat (split; [auto|]). apply kext_refl.
Qed.
Lemma ext_set h i o k : hget h i = Some o -> kext (o_kind o) k -> ext h (hset h i (set_kind o k)).
Proof.
  intros Hi Hk j oj Hj. rewrite hget_hset by congruence. destruct (Nat.eqb_spec i j) as [->|Hne].
  - rewrite Hi in Hj. inversion Hj; subst. eexists. split; [reflexivity|]. repeat (split; [reflexivity|]). auto.
  - exists oj. repeat (split; [auto|]). apply kext_refl.
Qed.
Lemma ext_skel h h' : hskel h = hskel h' -> ext h h'.
Proof.
  intros Hs i o Hi. destruct (skel_get _ _ _ _ Hs Hi) as (o' & E & S1 & B1 & P1 & K).
  exists o'. repeat (split; [auto|]).
  destruct (o_kind o) as [| | |off al|regs al] eqn:Hk; cbn [skel kext] in *.
  1-3: destruct (o_kind o'); cbn in *; auto; discriminate.
  - apply (proj1 (skel_window _ _ _)) in K. eauto.
  - apply (proj1 (skel_space _ _ _)) in K. rewrite K. eexists _, _. split; [reflexivity|]. apply incl_refl.
Qed.

Lemma link_ext h h' i o o' : ext h h' -> link h i o -> hget h i = Some o -> hget h' i = Some o' -> link h' i o'.
Proof.
  intros HE (p & po & B & off & Hp & Gp & Pa & Bp & Bo & C) Hi Hi'.
  destruct (HE _ _ Hi) as (o1 & G1 & S1 & B1 & P1 & K1). rewrite Hi' in G1. inversion G1; subst o1.
  destruct (HE _ _ Gp) as (po1 & Gp1 & Sp1 & Bp1 & Pp1 & Kp1).
  exists p, po1, B, off. split; auto. split; auto. split; [congruence|]. split; [congruence|]. split; [congruence|].
  destruct C as [(al & C)|(Cn & regs & al & C & Cin)].
  - left. rewrite C in K1. exact K1.
  - right. split.
    + intros off' al' E. destruct (o_kind o) as [| | |of al2|] eqn:Hk; rewrite E in K1; cbn in K1; try tauto.
      * eapply Cn; eauto.
      * destruct K1 as (? & ? & ? & _). discriminate.
    + rewrite C in Kp1. destruct Kp1 as (regs' & al' & -> & HI). exists regs', al'. split; auto.
      rewrite S1. auto.
Qed.

Lemma TD_ext h h' : TD h -> ext h h' ->
  (forall i o', hget h' i = Some o' -> hget h i = None -> link h' i o') -> TD h'.
Proof.
  intros HT HE HN i o' Hi'. destruct (hget h i) as [o|] eqn:Hi; [|right; auto].
  destruct (HE _ _ Hi) as (o1 & G1 & S1 & B1 & P1 & K1). rewrite Hi' in G1. inversion G1; subst o1.
  destruct (HT _ _ Hi) as [[-> Hb]|HL]; [left; split; [auto|congruence]|]. right.
  eapply link_ext; eauto.
Qed.

Lemma hget_app_inv h (o o' : obj) i : hget (h ++ [o]) i = Some o' -> hget h i = None -> i = length h /\ o' = o.
Proof.
  intros H Hn. pose proof (hget_lt _ _ _ H) as Hl. rewrite app_length in Hl. cbn in Hl.
  apply nth_error_None in Hn. assert (i = length h) by lia. subst i. rewrite hget_app_new in H.
  inversion H. auto.
Qed.

Lemma TD_base h i o : TD h -> hget h i = Some o -> exists B, o_base o = Some B.
Proof.
  intros HT Hi. destruct (HT _ _ Hi) as [[_ H]|(p & po & B & off & _ & _ & _ & _ & H & _)]; eauto.
Qed.

(** a new window *)
Lemma TD_window h i o off s al : TD h -> hget h i = Some o ->
  TD (h ++ [Obj s (match o_base o with None => None | Some b => Some (off + b) end) (Some i) (KWindow off al)]).
Proof.
  intros HT Hi. destruct (TD_base _ _ _ HT Hi) as (B & HB). rewrite HB.
  apply (TD_ext h); auto; [apply ext_app|]. intros j o' Hj Hn.
  destruct (hget_app_inv _ _ _ _ Hj Hn) as [-> ->]. pose proof (hget_lt _ _ _ Hi).
  exists i, o, B, off. split; auto. split; [rewrite hget_app1; auto|]. repeat (split; [auto|]).
  left. cbn. eauto.
Qed.

(** a new region under space [sp] *)
Lemma TD_place h rg sp base h2 : TD h -> sp <> length h ->
  (forall off al, o_kind rg <> KWindow off al) ->
  registered (h ++ [rg]) sp (length h) base (o_size rg) (Some 0) h2 -> TD h2 /\ ext h h2.
Proof.
  intros HT Hsp Hrg (os & rg' & regs & al & Gs & Gr & Ks & Ef & Hlen & Hr' & Hs' & Ho). cbv zeta in Hr'.
  rewrite hget_app_new in Gr. inversion Gr; subst rg'. clear Gr.
  assert (Hlt : (sp < length h)%nat).
  { pose proof (hget_lt _ _ _ Gs) as H. rewrite app_length in H. cbn in H. lia. }
  rewrite hget_app1 in Gs by auto. specialize (Hs' Hsp).
  destruct (Nat.eqb_spec (length h) sp) as [|_]; [congruence|].
  assert (HE : ext h h2).
  { intros j oj Hj. pose proof (hget_lt _ _ _ Hj) as Hlj. destruct (Nat.eq_dec j sp) as [->|Hjs].
    - rewrite Gs in Hj. inversion Hj; subst oj. eexists. split; [exact Hs'|]. repeat (split; [reflexivity|]).
      rewrite Ks. cbn. eexists _, _. split; [reflexivity|]. apply incl_appl, incl_refl.
    - exists oj. rewrite Ho by lia. rewrite hget_app1 by auto. repeat (split; [auto|]). apply kext_refl. }
  split; auto. apply (TD_ext h); auto. intros j o' Hj Hn.
  pose proof (hget_lt _ _ _ Hj) as Hlj. rewrite Hlen, app_length in Hlj. cbn in Hlj.
  apply nth_error_None in Hn. assert (j = length h) by lia. subst j. rewrite Hr' in Hj. inversion Hj; subst o'.
  destruct (TD_base _ _ _ HT Gs) as (B & HB). rewrite HB.
  exists sp. eexists. exists B, base. split; auto. split; [exact Hs'|]. split; [reflexivity|].
  split; [exact HB|]. split; [reflexivity|]. right. cbn [o_kind o_size]. split; auto.
  eexists _, _. split; [reflexivity|]. apply in_or_app. right. left. reflexivity.
Qed.

Lemma topdown_TD h : topdown h -> TD h /\ hok2 h.
Proof.
  induction 1 as [size|h t size h1 r sp base h2 Ht IH En Hsp Er|h as_ f g size h1 r sp base h2 Ht IH En Hsp Er
    |h i off size h' w Ht IH E|h i off size h' w Ht IH E|h i size h' w Ht IH E|h i base size h' w Ht IH E
    |h i t size h' w Ht IH E|lim h i a n Ht IH|lim h i a d Ht IH].
  - split.
    + intros [|[|i]] o Hi; try discriminate. inversion Hi. left. auto.
    + repeat constructor.
  - destruct IH as [HT Hok]. pose proof (new_region_hok2 h t size Hok) as Hok1. rewrite En in Hok1. cbn [fst] in Hok1.
    pose proof (register_hok2 h1 sp r base None (Some 0) Hok1) as Hok2. rewrite Er in Hok2. split; auto.
    apply new_region_spec in En. destruct En as (rg & -> & -> & Hsz & _ & _ & _ & _ & Hk).
    pose proof (register_inv (h ++ [rg]) sp (length h) base None (Some 0)) as HR. rewrite Er in HR.
    destruct HR as (rg' & G & HR). rewrite hget_app_new in G. inversion G; subst rg'.
    eapply TD_place; eauto. intros off al. rewrite Hk. destruct t; discriminate.
  - destruct IH as [HT Hok]. unfold new_periph, hnew in En. inversion En; subst h1 r. clear En.
    assert (Hok1 : hok2 (h ++ [Obj size (Some 0) None (KPeriph (Periph as_ f g []))])).
    { apply hok2_app; auto; exact I. }
    pose proof (register_hok2 _ sp (length h) base None (Some 0) Hok1) as Hok2. rewrite Er in Hok2. split; auto.
    pose proof (register_inv (h ++ [Obj size (Some 0) None (KPeriph (Periph as_ f g []))]) sp (length h) base None (Some 0)) as HR.
    rewrite Er in HR. destruct HR as (rg' & G & HR). rewrite hget_app_new in G. inversion G; subst rg'.
    eapply TD_place; eauto. discriminate.
  - destruct IH as [HT Hok]. apply create_window_spec in E.
    destruct E as (o & s & b & Gi & -> & -> & _ & _ & _ & _ & ->). split; [now apply TD_window|].
    apply hok2_app; auto; exact I.
  - destruct IH as [HT Hok]. apply create_window_pool_spec in E.
    destruct E as (o & off' & s & b & Gi & -> & -> & _ & _ & _ & ->). split; [now apply TD_window|].
    apply hok2_app; auto; [exact I|]. cbn. eexists. apply b_reach_init.
  - destruct IH as [HT Hok]. pose proof (alloc_window_hok2 h i size Hok) as Hok1. rewrite E in Hok1. split; auto.
    destruct (alloc_window_spec _ _ _ _ _ Hok E)
      as (o & off & b & b' & a1 & live & ow & G & K & R & EA & R' & G' & Gw & Ew & Kw & Sw & Pw & Hn1 & Ha1 & Hf1 & -> & Hb).
    assert (HT1 : TD (hset h i (set_kind o (KWindow off (Some b'))))).
    { apply (TD_ext h); auto.
      - apply ext_set; auto. rewrite K. cbn. eauto.
      - intros j o' Hj Hn. exfalso. pose proof (hget_lt _ _ _ Hj) as Hl. rewrite hset_length in Hl.
        apply nth_error_None in Hn. lia. }
    destruct ow as [s1 b1 p1 k1]. cbn [o_kind o_size o_parent o_base] in *. subst.
    pose proof (TD_window _ i (set_kind o (KWindow off (Some b'))) a1 size None HT1) as HW.
    cbn [set_kind o_base] in HW. apply HW. rewrite hget_hset, Nat.eqb_refl by congruence. reflexivity.
  - destruct IH as [HT Hok]. pose proof (create_pool_hok2 h i base size Hok) as Hok1. rewrite E in Hok1. split; auto.
    unfold create_pool in E. destruct (hget h i) as [o|] eqn:Hi; [|discriminate].
    destruct (o_kind o) as [| | | |regs al] eqn:Hk; try discriminate. cbv zeta in E.
    match type of E with context [if negb ?c then _ else _] => destruct c end; [|discriminate]. cbn [negb] in E.
    match type of E with context [register_region ?a ?b ?c ?d ?e ?f] =>
      pose proof (register_inv a b c d e f) as HR; destruct (register_region a b c d e f) as [h2 [u|x]] end; [|discriminate].
    inversion E; subst h' w. clear E. destruct HR as (rg' & G & HR). rewrite hget_app_new in G. inversion G; subst rg'.
    clear G. eapply (TD_place _ _ _ _ _ HT); [| |exact HR].
    + apply hget_lt in Hi. lia.
    + discriminate.
  - destruct IH as [HT Hok]. pose proof (alloc_region_hok2 h i t size Hok) as Hok1. rewrite E in Hok1. split; auto.
    unfold alloc_region in E. destruct (hget h i) as [o|] eqn:Hi; [|discriminate].
    destruct (o_kind o) as [| | | |regs [b|]] eqn:Hk; try discriminate.
    destruct (b_alloc_op b size) as [b' [a|e]] eqn:Ea; [|discriminate].
    destruct (new_region _ t size) as [h2 [w'|e]] eqn:En; [|discriminate].
    apply new_region_spec in En. destruct En as (rg & -> & -> & Hsz & _ & _ & _ & _ & Hrk).
    match type of E with context [register_region ?a ?b ?c ?d ?e ?f] =>
      pose proof (register_inv a b c d e f) as HR'; destruct (register_region a b c d e f) as [h3 [u|x]] end;
      [|discriminate].
    inversion E; subst h' w. clear E. destruct HR' as (rg' & G & HR). rewrite hget_app_new in G. inversion G; subst rg'.
    assert (HT1 : TD (hset h i (set_kind o (KSpace regs (Some b'))))).
    { apply (TD_ext h); auto.
      - apply ext_set; auto. rewrite Hk. cbn. eexists _, _. split; [reflexivity|]. apply incl_refl.
      - intros j o' Hj Hn. exfalso. pose proof (hget_lt _ _ _ Hj) as Hl. rewrite hset_length in Hl.
        apply nth_error_None in Hn. lia. }
    eapply (TD_place _ _ _ _ _ HT1); [| |exact HR].
    + rewrite hset_length. apply hget_lt in Hi. lia.
    + intros off al. rewrite Hrk. destruct t; discriminate.
  - destruct IH as [HT Hok]. destruct (rd_obj lim h i a n) as [h' r] eqn:E. cbn [fst].
    destruct (rd_obj_sound lim _ _ _ _ _ _ (hok2_hok _ Hok) E) as [Hs _]. apply strip_skel in Hs.
    split.
    + apply (TD_ext h); auto; [now apply ext_skel|]. intros j o' Hj Hn.
      rewrite (hget_map_none _ _ _ _ (eq_sym Hs) Hn) in Hj. discriminate.
    + pose proof (a_step_hok2 lim h (ARead i a n) Hok) as H. cbn [a_step ao_bytes fst] in H. now rewrite E in H.
  - destruct IH as [HT Hok]. destruct (wr_obj_shape lim h i a d (hok2_hok _ Hok)) as [H1 H2]. split.
    + apply (TD_ext h); auto; [now apply ext_skel|]. intros j o' Hj Hn.
      rewrite (hget_map_none _ _ _ _ (eq_sym H1) Hn) in Hj. discriminate.
    + apply (a_step_hok2 lim h (AWrite i a d) Hok).
Qed.

(** parents contain their windows *)
Definition WI (h : heap) : Prop :=
  forall i o off al, hget h i = Some o -> o_kind o = KWindow off al ->
    exists p po, o_parent o = Some p /\ (p < i)%nat /\ hget h p = Some po /\
      0 <= off /\ off + o_size o <= o_size po.

Definition is_win (k : kind) : Prop := match k with KWindow _ _ => True | _ => False end.
Definition wext (h h' : heap) : Prop :=
  forall i o, hget h i = Some o -> exists o', hget h' i = Some o' /\ o_size o' = o_size o /\
    kext (o_kind o) (o_kind o') /\ (is_win (o_kind o) -> o_parent o' = o_parent o).

Lemma ext_wext h h' : ext h h' -> wext h h'.
Proof.
  intros HE i o Hi. destruct (HE _ _ Hi) as (o' & G & S1 & B1 & P1 & K1). exists o'. auto.
Qed.
Lemma wext_refl h : wext h h.
Proof. apply ext_wext, ext_refl. Qed.

Lemma kext_win a b : kext a b -> (is_win a <-> is_win b).
Proof.
  destruct a; cbn [kext is_win].
  1-3: destruct b; cbn; tauto.
  - intros (al & ->). cbn. tauto.
  - intros (r & al & -> & _). cbn. tauto.
Qed.
Lemma wext_trans a b c : wext a b -> wext b c -> wext a c.
Proof.
  intros H1 H2 i o Hi. destruct (H1 i o Hi) as (o2 & G & S1 & K1 & P1).
  destruct (H2 i o2 G) as (o3 & G3 & S3 & K3 & P3). exists o3. split; auto. split; [congruence|].
  split; [eapply kext_trans; eauto|]. intros Hw. rewrite <- P1 by auto. apply P3.
  now apply (proj1 (kext_win _ _ K1)).
Qed.

Lemma wext_registered h sp r base s off h' rg : registered h sp r base s off h' ->
  hget h r = Some rg -> ~ is_win (o_kind rg) -> wext h h' /\ length h' = length h.
Proof.
  intros (os & rg' & regs & al & Hs & Hr & Hk & Ef & Hlen & Hr' & Hs' & Ho) Hr0 Hw. cbv zeta in Hr'.
  rewrite Hr in Hr0. inversion Hr0; subst rg'. split; auto. intros i o Hi.
  assert (IK : kext (KSpace regs al) (KSpace (regs ++ [Entry base s off r]) al)).
  { cbn. eexists _, _. split; [reflexivity|]. apply incl_appl, incl_refl. }
  destruct (Nat.eq_dec i r) as [->|Hir].
  - rewrite Hr in Hi. inversion Hi; subst o. eexists. split; [exact Hr'|]. split; [reflexivity|].
    cbn [o_kind]. split; [|tauto]. destruct (Nat.eqb_spec r sp) as [->|]; [|apply kext_refl].
    rewrite Hs in Hr. inversion Hr; subst. rewrite Hk. exact IK.
  - destruct (Nat.eq_dec i sp) as [->|His].
    + rewrite Hs in Hi. inversion Hi; subst o. eexists. split; [apply Hs'; auto|]. split; [reflexivity|].
      cbn [o_kind]. rewrite Hk. split; [exact IK|]. cbn. tauto.
    + exists o. rewrite Ho by auto. split; auto. split; auto. split; [apply kext_refl|auto].
Qed.

Lemma WI_wext h h' : WI h -> wext h h' ->
  (forall i o off al, hget h' i = Some o -> hget h i = None -> o_kind o = KWindow off al ->
     exists p po, o_parent o = Some p /\ (p < i)%nat /\ hget h' p = Some po /\
      0 <= off /\ off + o_size o <= o_size po) -> WI h'.
Proof.
  intros HW HE HN i o' off al' Hi' Hk'. destruct (hget h i) as [o|] eqn:Hi; [|eauto].
  destruct (HE _ _ Hi) as (o1 & G1 & S1 & K1 & P1). rewrite Hi' in G1. inversion G1; subst o1.
  assert (Hw : is_win (o_kind o)) by (apply (proj2 (kext_win _ _ K1)); rewrite Hk'; exact I).
  destruct (o_kind o) as [| | |off0 al|] eqn:Hk; try (destruct Hw; fail).
  cbn in K1. destruct K1 as (al2 & K1). rewrite Hk' in K1. inversion K1; subst.
  destruct (HW _ _ _ _ Hi Hk) as (p & po & Pa & Hp & Gp & H0 & Hf).
  destruct (HE _ _ Gp) as (po' & Gp' & Sp & _). exists p, po'. rewrite P1 by exact I. rewrite S1, Sp. auto.
Qed.

Lemma WI_same_len h h' : WI h -> wext h h' -> length h' = length h -> WI h'.
Proof.
  intros HW HE HL. apply (WI_wext h); auto. intros i o off al Hi Hn. exfalso.
  apply hget_lt in Hi. apply nth_error_None in Hn. lia.
Qed.

Lemma WI_app_nw h o : WI h -> ~ is_win (o_kind o) -> WI (h ++ [o]).
Proof.
  intros HW Hw. apply (WI_wext h); auto; [apply ext_wext, ext_app|]. intros i o' off al Hi Hn Hk.
  destruct (hget_app_inv _ _ _ _ Hi Hn) as [-> ->]. rewrite Hk in Hw. destruct Hw; exact I.
Qed.

Lemma WI_app_w h i o s b off al : WI h -> hget h i = Some o -> 0 <= off -> off + s <= o_size o ->
  WI (h ++ [Obj s b (Some i) (KWindow off al)]).
Proof.
  intros HW Gi H0 Hf. apply (WI_wext h); auto; [apply ext_wext, ext_app|]. intros j o' off' al' Hj Hn Hk.
  destruct (hget_app_inv _ _ _ _ Hj Hn) as [-> ->]. cbn in Hk. inversion Hk; subst.
  pose proof (hget_lt _ _ _ Gi). exists i, o. split; auto. split; auto. split; [rewrite hget_app1; auto|].
  cbn. auto.
Qed.

Lemma WI_create_window h i off size : WI h -> WI (fst (create_window h i off size)).
Proof.
  intros HW. destruct (create_window h i off size) as [h' [w|e]] eqn:Ec; cbn [fst].
  - apply create_window_spec in Ec. destruct Ec as (o & s & b & Gi & -> & -> & Ho & Hs & Hf & _).
    eapply WI_app_w; eauto. lia.
  - apply create_window_err in Ec. now subst.
Qed.

Lemma WI_set h i o k : WI h -> hget h i = Some o -> kext (o_kind o) k -> WI (hset h i (set_kind o k)).
Proof.
  intros HW Hi Hk. apply (WI_same_len h); auto; [|apply hset_length]. apply ext_wext. now apply ext_set.
Qed.

Lemma WI_new_region h t size : WI h -> WI (fst (new_region h t size)).
Proof.
  intros HW. destruct (new_region h t size) as [h' [r|e]] eqn:En; cbn [fst].
  - apply new_region_spec in En. destruct En as (o & -> & -> & _ & _ & _ & _ & _ & Hk).
    apply WI_app_nw; auto. rewrite Hk. destruct t; cbn; tauto.
  - apply new_region_err in En. now subst.
Qed.

Lemma WI_register h sp r base size off : WI h ->
  (forall x, hget h r = Some x -> ~ is_win (o_kind x)) -> WI (fst (register_region h sp r base size off)).
Proof.
  intros HW Hr. pose proof (register_inv h sp r base size off) as HR.
  destruct (register_region h sp r base size off) as [h' [u|e]]; cbn [fst]; [|now subst].
  destruct HR as (rg & Grg & HR). destruct (wext_registered _ _ _ _ _ _ _ _ HR Grg (Hr _ Grg)) as [HE HL].
  now apply (WI_same_len h).
Qed.

Lemma WI_step lim h o : hok h -> WI h -> no_window_registered h o -> WI (fst (a_step lim h o)).
Proof.
  intros Hok HW Hn. destruct o; cbn [a_step]; unfold ao_id, ao_unit, ao_bytes; cbn [fst].
  - apply (WI_new_region h RTMem); auto.
  - apply (WI_new_region h RTSparse); auto.
  - apply WI_app_nw; auto.
  - apply (WI_new_region h RTSpace); auto.
  - apply WI_register; auto. intros x Hx. cbn [no_window_registered] in Hn. rewrite Hx in Hn.
    destruct (o_kind x); cbn; tauto.
  - now apply WI_create_window.
  - destruct (create_window_pool h i offset size) as [h' [w|e]] eqn:Ec; cbn [fst].
    + apply create_window_pool_spec in Ec. destruct Ec as (o1 & off' & s & bb & Gi & _ & -> & Ho & Hs & Hf & _).
      eapply WI_app_w; eauto. lia.
    + apply create_window_pool_err in Ec. now subst.
  - unfold alloc_window. destruct (hget h i) as [o|] eqn:Hi; [|auto].
    destruct (o_kind o) as [| | |off [b|]|] eqn:Hk; auto.
    destruct (b_alloc_op b size) as [b' r].
    assert (H1 : WI (hset h i (set_kind o (KWindow off (Some b'))))).
    { apply WI_set; auto. rewrite Hk. cbn. eauto. }
    destruct r as [addr|e]; [|exact H1]. now apply WI_create_window.
  - unfold create_pool. destruct (hget h i) as [o|]; [|auto].
    destruct (o_kind o); auto. cbv zeta.
    match goal with |- context [if negb ?c then _ else _] => destruct c end; [|auto]. cbn [negb].
    match goal with |- context [register_region ?a ?b ?c ?d ?e ?f] =>
      pose proof (WI_register a b c d e f) as HR; destruct (register_region a b c d e f) as [h2 [u|x]] end; auto.
    cbn [fst] in *. apply HR.
    + apply WI_app_nw; auto.
    + intros x. rewrite hget_app_new. intros E; inversion E. cbn. auto.
  - unfold alloc_region. destruct (hget h i) as [o|] eqn:Hi; [|auto].
    destruct (o_kind o) as [| | | |regs [b|]] eqn:Hk; auto.
    destruct (b_alloc_op b size) as [b' r].
    assert (H1 : WI (hset h i (set_kind o (KSpace regs (Some b'))))).
    { apply WI_set; auto. rewrite Hk. cbn. eexists _, _. split; [reflexivity|]. apply incl_refl. }
    destruct r as [addr|e]; [|exact H1].
    match goal with |- context [new_region ?a t size] =>
      pose proof (WI_new_region a t size H1) as H2; destruct (new_region a t size) as [h2 [w|e]] eqn:En end;
      cbn [fst] in H2; [|exact H2].
    match goal with |- context [register_region ?a ?b ?c ?d ?e ?f] =>
      pose proof (WI_register a b c d e f H2) as HR; destruct (register_region a b c d e f) as [h3 [u|x]] end; auto.
    cbn [fst] in *. apply HR. apply new_region_spec in En. destruct En as (og & -> & -> & _ & _ & _ & _ & _ & Hgk).
    intros x. rewrite hget_app_new. intros E; inversion E; subst. rewrite Hgk. destruct t; cbn; auto.
  - destruct (rd_obj lim h i address length) as [h' r] eqn:E. cbn [fst].
    destruct (rd_obj_sound lim _ _ _ _ _ _ Hok E) as [Hs _]. apply strip_skel in Hs.
    apply (WI_wext h); auto; [apply ext_wext, ext_skel; now symmetry|].
    intros j o off al Hj Hn'. rewrite (hget_map_none _ _ _ _ (eq_sym Hs) Hn') in Hj. discriminate.
  - destruct (wr_obj_shape lim h i address data Hok) as [H1 H2].
    apply (WI_wext h); auto; [apply ext_wext, ext_skel; auto|].
    intros j o off al Hj Hn'. rewrite (hget_map_none _ _ _ _ (eq_sym H1) Hn') in Hj. discriminate.
Qed.

Lemma WI_run lim ops : forall h, hok2 h -> WI h -> plain_run lim h ops -> WI (fst (a_run lim h ops)).
Proof.
  induction ops as [|o ops IH]; intros h Hok HW HP; cbn [a_run]; auto.
  destruct HP as [Hn HP]. pose proof (WI_step lim h o (hok2_hok _ Hok) HW Hn) as H1.
  pose proof (a_step_hok2 lim h o Hok) as H2. destruct (a_step lim h o) as [h1 r]. cbn [fst] in *.
  specialize (IH h1 H2 H1 HP). destruct (a_run lim h1 ops). auto.
Qed.

(** every window resolves to an object that is no window *)
Lemma WI_chain h : WI h -> forall n w o off al, (w < n)%nat -> hget h w = Some o -> o_kind o = KWindow off al ->
  exists k toff p op, win_chain h k w toff p /\ hget h p = Some op /\ ~ is_win (o_kind op) /\
    0 <= toff /\ toff + o_size o <= o_size op.
Proof.
  intros HW n. induction n as [|n IH]; intros w o off al Hn Hw Hk; [lia|].
  destruct (HW _ _ _ _ Hw Hk) as (p & po & Pa & Hp & Gp & H0 & Hf).
  destruct (o_kind po) as [| | |off2 al2|] eqn:Hkp.
  4: { destruct (IH p po off2 al2 ltac:(lia) Gp Hkp) as (k & toff & q & oq & C & Gq & Hq & Ht & Hft).
       exists (S k), (off + toff), q, oq. split; [eapply wc_more; eauto|]. split; auto. split; auto. lia. }
  all: exists 1%nat, off, p, po; (split; [eapply wc_one; eauto|]); (split; [auto|]);
    (split; [rewrite Hkp; cbn; auto|]); auto.
Qed.

(** access through a chain *)
Lemma chain_read h k w off p : win_chain h k w off p -> forall o lim a n, hget h w = Some o ->
  rd_obj (k + lim) h w a n =
  if range_ok (o_size o) a n then rd_obj lim h p (a + off) n else (h, Err ValueError).
Proof.
  induction 1 as [w o off al p op Gw Kw Pa Gp H0 Hf|w o off al p op k off' q Gw Kw Pa Gp H0 Hf C IH];
    intros o' lim a n G'; rewrite Gw in G'; inversion G'; subst o'; cbn [Nat.add rd_obj]; rewrite Gw, Kw.
  - destruct (range_ok (o_size o) a n); cbn [negb]; [|reflexivity]. now rewrite Pa.
  - destruct (range_ok (o_size o) a n) eqn:Er; cbn [negb]; [|reflexivity]. rewrite Pa, (IH _ _ _ _ Gp).
    apply range_ok_spec in Er. replace (range_ok (o_size op) (a + off) n) with true
      by (symmetry; apply range_ok_spec; lia). f_equal. lia.
Qed.

Lemma chain_write h k w off p : win_chain h k w off p -> forall o lim a d, hget h w = Some o ->
  wr_obj (k + lim) h w a d =
  if range_ok (o_size o) a (zlen (pd_list d)) then wr_obj lim h p (a + off) d else (h, Err ValueError).
Proof.
  induction 1 as [w o off al p op Gw Kw Pa Gp H0 Hf|w o off al p op k off' q Gw Kw Pa Gp H0 Hf C IH];
    intros o' lim a d G'; rewrite Gw in G'; inversion G'; subst o'; cbn [Nat.add wr_obj]; rewrite Gw, Kw;
    set (n := zlen (pd_list d)) in *.
  - destruct (range_ok (o_size o) a n); cbn [negb]; [|reflexivity]. now rewrite Pa.
  - destruct (range_ok (o_size o) a n) eqn:Er; cbn [negb]; [|reflexivity]. rewrite Pa, (IH _ _ _ _ Gp).
    apply range_ok_spec in Er. replace (range_ok (o_size op) (a + off) (zlen (pd_list d))) with true
      by (symmetry; apply range_ok_spec; lia). f_equal. lia.
Qed.

Lemma topdown_WI h : topdown h -> WI h.
Proof.
  induction 1 as [size|h t size h1 r sp base h2 Ht IH En Hsp Er|h as_ f g size h1 r sp base h2 Ht IH En Hsp Er
    |h i off size h' w Ht IH E|h i off size h' w Ht IH E|h i size h' w Ht IH E|h i base size h' w Ht IH E
    |h i t size h' w Ht IH E|lim h i a n Ht IH|lim h i a d Ht IH].
  - intros [|[|i]] o off al Hi; try discriminate. inversion Hi. discriminate.
  - pose proof (WI_new_region h t size IH) as H1. rewrite En in H1. cbn [fst] in H1.
    pose proof (WI_register h1 sp r base None (Some 0) H1) as H2. rewrite Er in H2. apply H2.
    apply new_region_spec in En. destruct En as (og & -> & -> & _ & _ & _ & _ & _ & Hgk).
    intros x. rewrite hget_app_new. intros E; inversion E; subst. rewrite Hgk. destruct t; cbn; auto.
  - unfold new_periph, hnew in En. inversion En; subst h1 r.
    pose proof (WI_register _ sp (length h) base None (Some 0) (WI_app_nw h (Obj size (Some 0) None (KPeriph (Periph as_ f g []))) IH (fun x => x))) as H2.
    rewrite Er in H2. apply H2. intros x. rewrite hget_app_new. intros E; inversion E; subst. cbn. auto.
  - pose proof (WI_create_window h i off size IH) as H. now rewrite E in H.
  - pose proof (WI_step 0 h (AWinPool i off size) (hok2_hok _ (proj2 (topdown_TD _ Ht))) IH I) as H.
    cbn [a_step ao_id fst] in H. now rewrite E in H.
  - pose proof (WI_step 0 h (AAllocWin i size) (hok2_hok _ (proj2 (topdown_TD _ Ht))) IH I) as H.
    cbn [a_step ao_id fst] in H. now rewrite E in H.
  - pose proof (WI_step 0 h (APool i base size) (hok2_hok _ (proj2 (topdown_TD _ Ht))) IH I) as H.
    cbn [a_step ao_id fst] in H. now rewrite E in H.
  - pose proof (WI_step 0 h (AAllocReg i t size) (hok2_hok _ (proj2 (topdown_TD _ Ht))) IH I) as H.
    cbn [a_step ao_id fst] in H. now rewrite E in H.
  - apply (WI_step lim h (ARead i a n) (hok2_hok _ (proj2 (topdown_TD _ Ht))) IH I).
  - apply (WI_step lim h (AWrite i a d) (hok2_hok _ (proj2 (topdown_TD _ Ht))) IH I).
Qed.

(** a location decoded from an object is decoded from the root at the absolute address *)
Lemma TD_decodes h : TD h -> WI h -> contained h -> forall n i o, (i < n)%nat -> hget h i = Some o ->
  exists B, o_base o = Some B /\
    forall d a l x, decodes h d i a l x -> 0 <= a < o_size o -> exists d', (d' <= d + i)%nat /\ decodes h d' 0 (a + B) l x.
Proof.
  intros HT HW HC n. induction n as [|n IH]; intros i o Hn Hi; [lia|].
  destruct (HT _ _ Hi) as [[-> HB]|(p & po & B & off & Hp & Gp & Pa & HB & Hb & C)].
  - exists 0. split; auto. intros d a l x D _. exists d. split; [lia|]. now replace (a + 0) with a by lia.
  - destruct (IH p po ltac:(lia) Gp) as (B' & HB' & IHp). rewrite HB in HB'. inversion HB'; subst B'.
    exists (off + B). split; auto. intros d a l x D Ha.
    replace (a + (off + B)) with (a + off + B) by lia.
    destruct C as [(al & C)|(Cn & regs & al & C & Cin)].
    + destruct (HW _ _ _ _ Hi C) as (p' & po' & Pa' & _ & Gp' & H0 & Hf).
      rewrite Pa in Pa'. inversion Pa'; subst p'. rewrite Gp in Gp'. inversion Gp'; subst po'.
      inversion D as [? ? o' Hi' Hl'|d1 ? ? o' off' al' p' ? ? Hi' Hk' Ha' Hp' D'|? ? ? o' ? ? ? ? ? Hi' Hk']; subst;
        rewrite Hi in Hi'; inversion Hi'; subst o'.
      * rewrite C in Hl'. destruct Hl'.
      * rewrite C in Hk'. inversion Hk'; subst. rewrite Pa in Hp'. inversion Hp'; subst p'.
        destruct (IHp _ _ _ _ D' ltac:(lia)) as (d' & Hd & D''). exists d'. split; [lia|auto].
      * congruence.
    + assert (Dp : decodes h (S d) p (a + off) l x).
      { eapply dec_space; eauto.
        - unfold covers. cbn. lia.
        - unfold translated. cbn [e_off e_base e_reg]. now replace (a + off - off + 0) with a by lia. }
      destruct (HC _ _ _ _ _ Gp C Cin) as (Hc0 & _ & Hc1). cbn [e_base e_size] in *.
      destruct (IHp _ _ _ _ Dp ltac:(lia)) as (d' & Hd & D''). exists d'. split; [lia|auto].
Qed.

(** an access inside one entry of a space is the access of the region *)
Lemma find_single size regs e b n : regs_ok regs -> Forall (fun e => 0 < e_size e) regs -> In e regs ->
  0 <= b < size -> 0 <= n -> e_base e <= b < e_base e + e_size e -> b + n <= e_base e + e_size e ->
  find_regions size regs b n = Ok [e].
Proof.
  intros [HP HS] Hpos Hin Hb Hn Hc Hf. unfold find_regions.
  replace ((b <? 0) || (size <=? b)) with false by lia. replace (n <? 0) with false by lia.
  assert (E : filter (fun e => (b <? e_base e + e_size e) && (e_base e <? b + Z.max n 1)) regs = [e]).
  { assert (NF : forall l, Forall (fun x => sepe x e) l -> 
      filter (fun e => (b <? e_base e + e_size e) && (e_base e <? b + Z.max n 1)) l = []).
    { induction l as [|x l IH]; intros H; cbn [filter]; auto. inversion H as [|? ? Hx Hl]; subst.
      rewrite IH by auto. unfold sepe in Hx.
      destruct ((b <? e_base x + e_size x) && (e_base x <? b + Z.max n 1)) eqn:E; auto. exfalso. lia. }
    clear HP Hpos. induction HS as [|x l Hx Hl IH]; [destruct Hin|]. cbn [filter].
    destruct Hin as [->|Hin].
    - replace ((b <? e_base e + e_size e) && (e_base e <? b + Z.max n 1)) with true by lia. f_equal.
      apply NF. rewrite Forall_forall in *. intros y Hy. specialize (Hx y Hy). unfold sepe in *. lia.
    - rewrite Forall_forall in Hx. specialize (Hx e Hin). unfold sepe in Hx.
      destruct ((b <? e_base x + e_size x) && (e_base x <? b + Z.max n 1)) eqn:E; [exfalso; lia|]. auto. }
  rewrite E. reflexivity.
Qed.

Lemma read_entry lim h p po regs al off s i a n : hok h -> contained h -> hget h p = Some po ->
  o_kind po = KSpace regs al -> In (Entry off s (Some 0) i) regs ->
  0 <= a < s -> 0 <= n -> a + n <= s ->
  rd_obj (S lim) h p (a + off) n = rd_obj lim h i a n.
Proof.
  intros Hok HC Gp Kp Hin Ha Hn Hf. cbn [rd_obj]. rewrite Gp, Kp.
  pose proof (hok_get _ _ _ Hok Gp) as Ho. unfold okobj in Ho. rewrite Kp in Ho.
  assert (Hpos : Forall (fun e => 0 < e_size e) regs).
  { apply Forall_forall. intros e He. apply (HC _ _ _ _ _ Gp Kp He). }
  destruct (HC _ _ _ _ _ Gp Kp Hin) as (Hc0 & _ & Hc1). cbn [e_base e_size] in *.
  rewrite (find_single _ _ (Entry off s (Some 0) i)); auto; cbn [e_base e_size]; try lia.
  cbn [sp_read_loop e_base e_size e_off e_reg]. replace (a + off <? off) with false by lia.
  replace (a + off - off + 0) with a by lia. replace (Z.min (s - (a + off - off)) n) with n by lia.
  destruct (rd_obj lim h i a n) as [h1 [d|x]]; auto. replace (0 <? n - n) with false by lia. reflexivity.
Qed.

Lemma write_entry lim h p po regs al off s i a d : hok h -> contained h -> hget h p = Some po ->
  o_kind po = KSpace regs al -> In (Entry off s (Some 0) i) regs ->
  0 <= a < s -> a + zlen (pd_list d) <= s ->
  wr_obj (S lim) h p (a + off) d = wr_obj lim h i a d.
Proof.
  intros Hok HC Gp Kp Hin Ha Hf. cbn [wr_obj]. rewrite Gp, Kp.
  pose proof (hok_get _ _ _ Hok Gp) as Ho. unfold okobj in Ho. rewrite Kp in Ho.
  assert (Hpos : Forall (fun e => 0 < e_size e) regs).
  { apply Forall_forall. intros e He. apply (HC _ _ _ _ _ Gp Kp He). }
  pose proof (zlen_nonneg (pd_list d)) as Hn.
  destruct (HC _ _ _ _ _ Gp Kp Hin) as (Hc0 & _ & Hc1). cbn [e_base e_size] in *.
  rewrite (find_single _ _ (Entry off s (Some 0) i)); auto; cbn [e_base e_size]; try lia.
  set (n := zlen (pd_list d)) in *.
  cbn [sp_write_loop e_base e_size e_off e_reg]. replace (a + off <? off) with false by lia.
  replace (a + off - off + 0) with a by lia. replace (Z.min (s - (a + off - off)) n) with n by lia.
  assert (E : pd_slice d 0 (0 + n) = d).
  { subst n. destruct d; cbn [pd_slice pd_list]; f_equal; apply zslice_all; cbn [pd_list]; lia. }
  rewrite E. destruct (wr_obj lim h i a d) as [h1 [[]|x]]; auto. replace (0 <? n - n) with false by lia. reflexivity.
Qed.

Lemma TD_access h : TD h -> WI h -> hok h -> contained h -> forall m i o, (i < m)%nat -> hget h i = Some o ->
  exists B k1 k2, o_base o = Some B /\ (k1 + k2 <= i)%nat /\
    (forall lim a n, 0 <= a < o_size o -> 0 <= n -> a + n <= o_size o ->
       rd_obj (k1 + lim) h 0 (a + B) n = rd_obj (k2 + lim) h i a n) /\
    (forall lim a d, 0 <= a < o_size o -> a + zlen (pd_list d) <= o_size o ->
       wr_obj (k1 + lim) h 0 (a + B) d = wr_obj (k2 + lim) h i a d).
Proof.
  intros HT HW Hok HC m. induction m as [|m IH]; intros i o Hm Hi; [lia|].
  destruct (HT _ _ Hi) as [[-> HB]|(p & po & B & off & Hp & Gp & Pa & HB & Hb & C)].
  - exists 0, 0%nat, 0%nat. split; auto. split; [lia|].
    split; intros; replace (a + 0) with a by lia; reflexivity.
  - destruct (IH p po ltac:(lia) Gp) as (B' & k1 & k2 & HB' & Hk & IR & IW). rewrite HB in HB'. inversion HB'; subst B'.
    destruct C as [(al & C)|(Cn & regs & al & C & Cin)].
    + destruct (HW _ _ _ _ Hi C) as (p' & po' & Pa' & _ & Gp' & H0 & Hf).
      rewrite Pa in Pa'. inversion Pa'; subst p'. rewrite Gp in Gp'. inversion Gp'; subst po'.
      exists (off + B), k1, (S k2). split; auto. split; [lia|]. split.
      * intros lim a n Ha Hn Hfit. replace (a + (off + B)) with (a + off + B) by lia.
        rewrite IR by lia. cbn [Nat.add rd_obj]. rewrite Hi, C, Pa.
        replace (range_ok (o_size o) a n) with true by (symmetry; apply range_ok_spec; lia). reflexivity.
      * intros lim a d Ha Hfit. replace (a + (off + B)) with (a + off + B) by lia.
        pose proof (zlen_nonneg (pd_list d)). rewrite IW by lia. cbn [Nat.add wr_obj]. rewrite Hi, C, Pa.
        replace (range_ok (o_size o) a (zlen (pd_list d))) with true by (symmetry; apply range_ok_spec; lia). reflexivity.
    + destruct (HC _ _ _ _ _ Gp C Cin) as (Hc0 & _ & Hc1). cbn [e_base e_size] in *.
      exists (off + B), (S k1), k2. split; auto. split; [lia|]. split.
      * intros lim a n Ha Hn Hfit. replace (a + (off + B)) with (a + off + B) by lia.
        replace (S k1 + lim)%nat with (k1 + S lim)%nat by lia.
        rewrite IR by lia. replace (k2 + S lim)%nat with (S (k2 + lim)) by lia.
        eapply read_entry; eauto.
      * intros lim a d Ha Hfit. replace (a + (off + B)) with (a + off + B) by lia.
        replace (S k1 + lim)%nat with (k1 + S lim)%nat by lia. pose proof (zlen_nonneg (pd_list d)).
        rewrite IW by lia. replace (k2 + S lim)%nat with (S (k2 + lim)) by lia.
        eapply write_entry; eauto.
Qed.
