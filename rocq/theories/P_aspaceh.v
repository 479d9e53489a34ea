(** Proofs about address spaces: registration, invariants of histories, pools, top-down trees. *)
From Coq Require Import ZArith Lia List Bool.
From Coq Require Import ZifyBool ZifyNat.
From Verif Require Import Py S_flat M_sparse S_sparse P_sparse M_memory P_memory M_buddy S_buddy P_buddy
  M_aspace S_aspace P_aspace P_aspacew P_aspacec.
Import ListNotations.
Open Scope Z_scope.

(** ** registration *)

Definition meets (e : entry) (base size : Z) : Prop :=
  base < e_base e + e_size e /\ e_base e < base + Z.max size 1.

Lemma find_nil size regs a n : find_regions size regs a n = Ok [] ->
  0 <= a < size /\ 0 <= n /\ forall e, In e regs -> ~ meets e a n.
Proof.
  intros H. split; [|split].
  1-2: unfold find_regions in H; destruct ((a <? 0) || (size <=? a)) eqn:E1; [discriminate|];
    destruct (n <? 0) eqn:E2; [discriminate|lia].
  intros e He (M1 & M2). destruct (find_In _ _ _ _ _ e H) as (_ & _ & HI).
  assert (In e []) as [] by (apply HI; unfold meets; auto).
Qed.

Lemma find_nil_iff size regs a n : 0 <= a < size -> 0 <= n ->
  (forall e, In e regs -> ~ meets e a n) -> find_regions size regs a n = Ok [].
Proof.
  intros Ha Hn H. unfold find_regions.
  replace ((a <? 0) || (size <=? a)) with false by lia. replace (n <? 0) with false by lia.
  assert (E : filter (fun e => (a <? e_base e + e_size e) && (e_base e <? a + Z.max n 1)) regs = []).
  { induction regs as [|e regs IH]; cbn [filter]; auto.
    destruct ((a <? e_base e + e_size e) && (e_base e <? a + Z.max n 1)) eqn:E.
    - exfalso. apply (H e); [now left|]. unfold meets. lia.
    - apply IH. intros y Hy. apply H. now right. }
  rewrite E. reflexivity.
Qed.

Lemma regs_ok_snoc regs size base s off r : regs_ok regs -> find_regions size regs base s = Ok [] ->
  regs_ok (regs ++ [Entry base s off r]).
Proof.
  intros [HP HS] Ef. apply find_nil in Ef. destruct Ef as (Ha & Hn & HM). split.
  - apply Forall_app. split; auto. constructor; [cbn; lia|constructor].
  - revert HM. induction HS as [|x l Hx Hl IH]; intros HM; cbn [app]; [repeat constructor|].
    inversion HP as [|? ? Px HP']; subst. constructor.
    + apply Forall_app. split; auto. constructor; [|constructor].
      specialize (HM x (or_introl eq_refl)). unfold meets, sepe in *. cbn [e_base e_size]. lia.
    + apply IH; auto. intros e He. apply HM. now right.
Qed.

(** effect of an accepted registration on the heap *)
Definition registered (h : heap) (sp r : nat) (base s : Z) (off : option Z) (h' : heap) : Prop :=
  exists os rg regs al, hget h sp = Some os /\ hget h r = Some rg /\ o_kind os = KSpace regs al /\
    find_regions (o_size os) regs base s = Ok [] /\
    length h' = length h /\
    let nb := match off with Some 0 => match o_base os with None => None | Some b => Some (base + b) end
              | _ => None end in
    hget h' r = Some (Obj (o_size rg) nb (Some sp)
                   (if Nat.eqb r sp then KSpace (regs ++ [Entry base s off r]) al else o_kind rg)) /\
    (sp <> r -> hget h' sp = Some (Obj (o_size os) (o_base os) (o_parent os)
                   (KSpace (regs ++ [Entry base s off r]) al))) /\
    (forall j, j <> r -> j <> sp -> hget h' j = hget h j).

Lemma register_inv h sp r base size off : 
  let '(h', res) := register_region h sp r base size off in
  match res with
  | Ok _ => exists rg, hget h r = Some rg /\
      registered h sp r base (match size with None => o_size rg | Some s => s end) off h'
  | Err _ => h' = h
  end.
Proof.
  unfold register_region. destruct (hget h sp) as [os|] eqn:Hs; [|reflexivity].
  destruct (hget h r) as [rg|] eqn:Hr; [|reflexivity].
  destruct (o_kind os) as [| | | |regs al] eqn:Hk; try reflexivity.
  set (s := match size with None => o_size rg | Some s => s end).
  destruct (find_regions (o_size os) regs base s) as [[|]|] eqn:Ef; try reflexivity.
  pose proof (find_nil _ _ _ _ Ef) as (Ha & Hn & _).
  assert (Enb : match off with Some 0 => abs_address os base | _ => Ok None end =
     Ok (match off with Some 0 => match o_base os with None => None | Some b => Some (base + b) end
              | _ => None end)).
  { destruct off as [[]|]; auto. unfold abs_address. destruct (o_base os); auto.
    replace (range_ok (o_size os) base 0) with true by (symmetry; apply range_ok_spec; lia). reflexivity. }
  rewrite Enb. set (nb := match off with Some 0 => _ | _ => None end).
  rewrite hget_hset by congruence.
  destruct (Nat.eqb_spec r sp) as [->|Hne].
  - rewrite Hs in Hr. inversion Hr; subst rg. exists os. split; auto. exists os, os, regs, al.
    split; auto. split; auto. split; auto. split; auto. split; [now rewrite !hset_length|].
    cbn [set_kind o_size o_base o_parent].
    assert (G : forall o1, hget (hset h sp o1) sp <> None) by (intros; rewrite hget_hset, Nat.eqb_refl; congruence).
    split; [|split].
    + rewrite hget_hset by auto. rewrite Nat.eqb_refl. reflexivity.
    + congruence.
    + intros j Hj _. rewrite hget_hset by auto. destruct (Nat.eqb_spec sp j); [congruence|].
      rewrite hget_hset by congruence. destruct (Nat.eqb_spec sp j); [congruence|reflexivity].
  - rewrite Hs. exists rg. split; auto. exists os, rg, regs, al.
    split; auto. split; auto. split; auto. split; auto. split; [now rewrite !hset_length|].
    cbn [set_kind o_size o_base o_parent].
    assert (G : forall o1, hget (hset h r o1) sp <> None).
    { intros. rewrite hget_hset by congruence. destruct (Nat.eqb_spec r sp); congruence. }
    split; [|split].
    + rewrite hget_hset by auto. destruct (Nat.eqb_spec sp r); [congruence|].
      rewrite hget_hset, Nat.eqb_refl by congruence. destruct (Nat.eqb_spec r sp); [congruence|]. reflexivity.
    + intros _. rewrite hget_hset by auto. now rewrite Nat.eqb_refl.
    + intros j Hj Hj'. rewrite hget_hset by auto. destruct (Nat.eqb_spec sp j); [congruence|].
      rewrite hget_hset by congruence. destruct (Nat.eqb_spec r j); [congruence|reflexivity].
Qed.

(** when a registration is accepted *)
Lemma register_ok_iff h sp r base size off os rg regs al :
  hget h sp = Some os -> hget h r = Some rg -> o_kind os = KSpace regs al ->
  let s := match size with None => o_size rg | Some s => s end in
  (exists h', register_region h sp r base size off = (h', Ok tt)) <->
  (0 <= base < o_size os /\ 0 <= s /\ forall e, In e regs -> ~ meets e base s).
Proof.
  intros Hs Hr Hk s. split.
  - intros (h' & E). pose proof (register_inv h sp r base size off) as H. rewrite E in H.
    destruct H as (rg' & Hr' & os' & _ & regs' & al' & Hs' & _ & Hk' & Ef & _).
    rewrite Hr in Hr'. inversion Hr'; subst rg'. rewrite Hs in Hs'. inversion Hs'; subst os'.
    rewrite Hk in Hk'. inversion Hk'; subst. apply find_nil in Ef. exact Ef.
  - intros (Ha & Hn & HM). unfold register_region. rewrite Hs, Hr, Hk. fold s.
    rewrite (find_nil_iff _ _ _ _ Ha Hn HM).
    assert (Enb : exists b, match off with Some 0 => abs_address os base | _ => Ok None end = Ok b).
    { destruct off as [[]|]; eauto. unfold abs_address. destruct (o_base os); eauto.
      replace (range_ok (o_size os) base 0) with true by (symmetry; apply range_ok_spec; lia). eauto. }
    destruct Enb as (b & ->). rewrite hget_hset by congruence.
    destruct (Nat.eqb_spec r sp); [|rewrite Hs]; eauto.
Qed.

(** ** histories *)

(** allocators of pools are reached by allocations *)
Definition allocok (o : obj) : Prop :=
  match o_kind o with
  | KWindow _ (Some b) | KSpace _ (Some b) => exists live, b_reach (o_size o) 1 b live
  | _ => True
  end.
Definition hok2 (h : heap) : Prop := Forall (fun o => okobj o /\ allocok o) h.

Lemma hok2_get h i o : hok2 h -> hget h i = Some o -> okobj o /\ allocok o.
Proof. intros H Hi. eapply Forall_forall in H; eauto. eapply hget_In; eauto. Qed.

Lemma hok2_ext (h' : heap) : (forall i o, hget h' i = Some o -> okobj o /\ allocok o) -> hok2 h'.
Proof.
  intros H. apply Forall_forall. intros o Ho. apply In_nth_error in Ho. destruct Ho as (i & Hi). eauto.
Qed.

Lemma hok2_hok h : hok2 h -> hok h.
Proof. intros H. eapply Forall_impl; [|exact H]. cbn. tauto. Qed.

Lemma hok2_app h o : hok2 h -> okobj o -> allocok o -> hok2 (h ++ [o]).
Proof. intros H H1 H2. apply Forall_app. split; auto. Qed.

Lemma hok2_set h i o : hok2 h -> okobj o -> allocok o -> hok2 (hset h i o).
Proof.
  unfold hok2. intros H Ho Ha. revert i. induction H; intros [|i]; cbn [hset]; constructor; auto.
Qed.

Lemma registered_hok2 h sp r base s off h' : hok2 h -> registered h sp r base s off h' -> hok2 h'.
Proof.
  intros Hok (os & rg & regs & al & Hs & Hr & Hk & Ef & Hlen & Hr' & Hs' & Ho). cbv zeta in Hr'.
  apply hok2_ext. intros i o Hi.
  destruct (hok2_get _ _ _ Hok Hs) as (Ks & As). destruct (hok2_get _ _ _ Hok Hr) as (Kr & Ar).
  assert (Hro : regs_ok (regs ++ [Entry base s off r])).
  { unfold okobj in Ks. rewrite Hk in Ks. eapply regs_ok_snoc; eauto. }
  destruct (Nat.eq_dec i r) as [->|Hir].
  - rewrite Hr' in Hi. inversion Hi; subst o. destruct (Nat.eqb_spec r sp) as [->|Hne].
    + rewrite Hs in Hr. inversion Hr; subst rg. unfold okobj, allocok in *. cbn [o_kind o_size]. rewrite Hk in *. auto.
    + unfold okobj, allocok in *. cbn [o_kind o_size] in *. auto.
  - destruct (Nat.eq_dec i sp) as [->|His].
    + rewrite (Hs' Hir) in Hi. inversion Hi; subst o. unfold okobj, allocok in *. cbn [o_kind o_size].
      rewrite Hk in *. auto.
    + rewrite Ho in Hi by auto. eapply hok2_get; eauto.
Qed.

Lemma register_hok2 h sp r base size off : hok2 h -> hok2 (fst (register_region h sp r base size off)).
Proof.
  intros Hok. pose proof (register_inv h sp r base size off) as H.
  destruct (register_region h sp r base size off) as [h' [u|e]]; cbn [fst].
  - destruct H as (rg & _ & H). eapply registered_hok2; eauto.
  - now subst.
Qed.

Lemma new_region_spec h t size h' r : new_region h t size = (h', Ok r) ->
  exists o, h' = h ++ [o] /\ r = length h /\ o_size o = size /\ o_base o = Some 0 /\ o_parent o = None /\
    okobj o /\ allocok o /\
    o_kind o = match t with RTMem => KMem (zeros size) | RTSparse => KSparse (sm_init size)
               | RTSpace => KSpace [] None end.
Proof.
  unfold new_region, new_mem, new_sparse, new_space, hnew. destruct t.
  - destruct (size <? 0) eqn:E1; [discriminate|]. destruct (size =? 0); [discriminate|].
    intros E; inversion E; subst. eexists. split; [reflexivity|]. repeat (split; [reflexivity|]).
    split; [|split; [exact I|reflexivity]]. unfold okobj. cbn. apply zeros_length. lia.
  - intros E; inversion E; subst. eexists. split; [reflexivity|]. repeat (split; [reflexivity|]).
    split; [|split; [exact I|reflexivity]]. unfold okobj. cbn. exists (f_init size).
    split; [apply sm_rel_init|reflexivity].
  - intros E; inversion E; subst. eexists. split; [reflexivity|]. repeat (split; [reflexivity|]).
    split; [|split; [exact I|reflexivity]]. unfold okobj. cbn. split; constructor.
Qed.

Lemma new_region_err h t size h' e : new_region h t size = (h', Err e) -> h' = h.
Proof.
  unfold new_region, new_mem, new_sparse, new_space, hnew. destruct t; try discriminate.
  destruct (size <? 0); [intros E; inversion E; auto|]. destruct (size =? 0); intros E; inversion E; auto.
Qed.

Lemma create_window_spec h i off size h' w : create_window h i off size = (h', Ok w) ->
  exists o s b, hget h i = Some o /\ w = length h /\ h' = h ++ [Obj s b (Some i) (KWindow off None)] /\
    0 <= off < o_size o /\ 0 <= s /\ off + s <= o_size o /\
    (forall n, size = Some n -> 0 < n -> s = n) /\
    b = match o_base o with None => None | Some b => Some (off + b) end.
Proof.
  unfold create_window, hnew. destruct (hget h i) as [o|] eqn:Hi; [|discriminate].
  set (s := match size with Some s => if s <=? 0 then o_size o - off else s | None => o_size o - off end).
  destruct (range_ok (o_size o) off s) eqn:Er; cbn [negb]; [|discriminate].
  apply range_ok_spec in Er. unfold abs_address.
  assert (E0 : range_ok (o_size o) off 0 = true) by (apply range_ok_spec; lia). rewrite E0.
  intros E. exists o, s, (match o_base o with None => None | Some b => Some (off + b) end).
  split; auto. assert (Hs : forall n, size = Some n -> 0 < n -> s = n).
  { intros n -> Hn. subst s. cbn. destruct (n <=? 0) eqn:En; [lia|reflexivity]. }
  destruct (o_base o) as [b|]; inversion E; subst; repeat (split; [reflexivity || lia|]); auto.
Qed.

Lemma create_window_err h i off size h' e : create_window h i off size = (h', Err e) -> h' = h.
Proof.
  unfold create_window, hnew. destruct (hget h i) as [o|]; [|intros E; inversion E; auto].
  match goal with |- context [if ?c then _ else _] => destruct c end; [intros E; inversion E; auto|].
  destruct (abs_address o off); intros E; inversion E; auto.
Qed.

Lemma create_window_pool_spec h i off size h' w : create_window_pool h i off size = (h', Ok w) ->
  exists o off' s b, hget h i = Some o /\ w = length h /\
    h' = h ++ [Obj s b (Some i) (KWindow off' (Some (b_init s 1)))] /\
    0 <= off' < o_size o /\ 0 <= s /\ off' + s <= o_size o /\
    b = match o_base o with None => None | Some b => Some (off' + b) end.
Proof.
  unfold create_window_pool, hnew. destruct (hget h i) as [o|] eqn:Hi; [|discriminate].
  set (off' := match off with None => 0 | Some x => x end).
  set (s := match size with Some s => s | None => o_size o - off' end).
  destruct (range_ok (o_size o) off' s) eqn:Er; cbn [negb]; [|discriminate].
  apply range_ok_spec in Er. unfold abs_address.
  assert (E0 : range_ok (o_size o) off' 0 = true) by (apply range_ok_spec; lia). rewrite E0.
  intros E. exists o, off', s, (match o_base o with None => None | Some b => Some (off' + b) end).
  split; auto.
  destruct (o_base o) as [b|]; inversion E; subst; repeat (split; [reflexivity || lia|]); auto.
Qed.

Lemma create_window_pool_err h i off size h' e : create_window_pool h i off size = (h', Err e) -> h' = h.
Proof.
  unfold create_window_pool, hnew. destruct (hget h i) as [o|]; [|intros E; inversion E; auto].
  match goal with |- context [if ?c then _ else _] => destruct c end; [intros E; inversion E; auto|].
  match goal with |- context [abs_address ?a ?b] => destruct (abs_address a b) end; intros E; inversion E; auto.
Qed.

Lemma alloc_step_reach size mn b n : (exists live, b_reach size mn b live) ->
  exists live, b_reach size mn (fst (b_alloc_op b n)) live.
Proof.
  intros (live & H). pose proof (b_reach_step size mn b live (BAlloc n) H) as HS.
  cbn [b_step] in HS. destruct (b_alloc_op b n) as [b' r]. cbn [fst snd] in *. eauto.
Qed.

Lemma alloc_window_hok2 h i size : hok2 h -> hok2 (fst (alloc_window h i size)).
Proof.
  intros Hok. unfold alloc_window. destruct (hget h i) as [o|] eqn:Hi; [|auto].
  destruct (hok2_get _ _ _ Hok Hi) as (K & A).
  destruct (o_kind o) as [| | |off [b|]|] eqn:Hk; auto.
  unfold allocok in A. rewrite Hk in A. pose proof (alloc_step_reach _ _ _ size A) as A'.
  destruct (b_alloc_op b size) as [b' r]. cbn [fst] in A'.
  assert (Hok1 : hok2 (hset h i (set_kind o (KWindow off (Some b'))))) by (apply hok2_set; auto; exact I).
  destruct r as [addr|e]; [|exact Hok1].
  destruct (create_window _ i addr (Some size)) as [h2 [w|e]] eqn:Ec; cbn [fst].
  - apply create_window_spec in Ec. destruct Ec as (o1 & s & bb & _ & _ & -> & _).
    apply hok2_app; auto; exact I.
  - apply create_window_err in Ec. now subst.
Qed.

Lemma create_pool_hok2 h i base size : hok2 h -> hok2 (fst (create_pool h i base size)).
Proof.
  intros Hok. unfold create_pool. destruct (hget h i) as [o|]; [|auto].
  destruct (o_kind o); auto. cbv zeta.
  match goal with |- context [if negb ?c then _ else _] => destruct c end; [|auto]. cbn [negb].
  match goal with |- context [register_region ?a ?b ?c ?d ?e ?f] =>
    pose proof (register_hok2 a b c d e f) as HR; destruct (register_region a b c d e f) as [h2 [u|x]] end.
  - apply HR. apply hok2_app; auto.
    + split; constructor.
    + cbn. eexists. apply b_reach_init.
  - auto.
Qed.

Lemma alloc_region_hok2 h i t size : hok2 h -> hok2 (fst (alloc_region h i t size)).
Proof.
  intros Hok. unfold alloc_region. destruct (hget h i) as [o|] eqn:Hi; [|auto].
  destruct (hok2_get _ _ _ Hok Hi) as (K & A).
  destruct (o_kind o) as [| | | |regs [b|]] eqn:Hk; auto.
  unfold allocok in A. rewrite Hk in A. pose proof (alloc_step_reach _ _ _ size A) as A'.
  destruct (b_alloc_op b size) as [b' r]. cbn [fst] in A'.
  unfold okobj in K. rewrite Hk in K.
  assert (Hok1 : hok2 (hset h i (set_kind o (KSpace regs (Some b'))))) by (apply hok2_set; auto).
  destruct r as [addr|e]; [|exact Hok1].
  destruct (new_region _ t size) as [h2 [w|e]] eqn:Ec; cbn [fst].
  - apply new_region_spec in Ec. destruct Ec as (o1 & -> & _ & _ & _ & _ & K1 & A1 & _).
    match goal with |- context [register_region ?a ?b ?c ?d ?e ?f] =>
      pose proof (register_hok2 a b c d e f) as HR; destruct (register_region a b c d e f) as [h3 [u|x]] end.
    + apply HR. apply hok2_app; auto.
    + auto.
  - apply new_region_err in Ec. now subst.
Qed.

Lemma new_region_hok2 h t size : hok2 h -> hok2 (fst (new_region h t size)).
Proof.
  intros Hok. destruct (new_region h t size) as [h' [r|e]] eqn:E; cbn [fst].
  - apply new_region_spec in E. destruct E as (o & -> & _ & _ & _ & _ & K & A & _). apply hok2_app; auto.
  - apply new_region_err in E. now subst.
Qed.

(** writes of any data (non-bytes too) keep the heap well formed *)
Lemma allocok_skel o o' : oskel o = oskel o' -> allocok o -> allocok o'.
Proof.
  intros H. apply oskel_fields in H. destruct H as (Hs & _ & _ & Hk). unfold allocok. rewrite <- Hs.
  destruct (o_kind o) as [| | |? []|? []], (o_kind o') as [| | |? []|? []]; cbn [skel] in Hk; try discriminate; auto;
    inversion Hk; auto.
Qed.

Lemma hok2_skel h h' : hskel h = hskel h' -> hok h' -> hok2 h -> hok2 h'.
Proof.
  unfold hskel, hok, hok2. revert h'. induction h as [|x h IH]; intros [|y h'] H Hk H2; try discriminate; auto.
  assert (H1 : oskel x = oskel y) by (cbn [map] in H; congruence).
  assert (H1' : map oskel h = map oskel h') by (cbn [map] in H; congruence).
  inversion Hk; subst. inversion H2 as [|? ? [K A] H2']; subst. constructor; [split; auto|auto].
  eapply allocok_skel; eauto.
Qed.

Definition wr_shape (wrf : heap -> nat -> Z -> pydata -> heap * res unit) : Prop :=
  forall h i a d, hok h -> hskel (fst (wrf h i a d)) = hskel h /\ hok (fst (wrf h i a d)).

Lemma sp_write_loop_shape wrf : wr_shape wrf -> forall segs h a start n d, hok h ->
  hskel (fst (sp_write_loop wrf h segs a start n d)) = hskel h /\ hok (fst (sp_write_loop wrf h segs a start n d)).
Proof.
  intros HW segs. induction segs as [|e segs IH]; intros h a start n d Hok; cbn [sp_write_loop]; auto.
  destruct (a <? e_base e); auto.
  match goal with |- context [wrf ?a ?b ?c ?d] => destruct (HW a b c d Hok) as [H1 H2]; destruct (wrf a b c d) as [h1 [u|x]] end;
    cbn [fst] in *; auto.
  match goal with |- context [sp_write_loop wrf h1 segs ?a ?b ?c ?d] => destruct (IH h1 a b c d H2) as [H3 H4] end.
  split; auto. congruence.
Qed.

Lemma wr_obj_shape lim : wr_shape (wr_obj lim).
Proof.
  induction lim as [|lim IH]; intros h i a d Hok; cbn [wr_obj]; auto.
  destruct (hget h i) as [o|] eqn:Hi; auto.
  pose proof (hok_get _ _ _ Hok Hi) as Ho. unfold okobj in Ho.
  assert (HS : forall k, skel k = skel (o_kind o) -> hskel (hset h i (set_kind o k)) = hskel h).
  { intros k Hk. apply hset_map with (o := o); auto. unfold oskel, set_kind.
    cbn [o_size o_base o_parent o_kind]. now rewrite Hk. }
  destruct (o_kind o) as [mem|m|p|off al|regs al] eqn:Hk.
  1-4: destruct (range_ok (o_size o) a (zlen (pd_list d))) eqn:Er; cbn [negb fst]; auto; apply range_ok_spec in Er.
  - destruct d as [d|d]; cbn [fst pd_list] in *; auto. split; [apply HS; reflexivity|].
    apply hok_set; auto. unfold okobj. cbn [set_kind o_kind o_size]. pose proof (zlen_nonneg d).
    rewrite zsplice_length by lia. lia.
  - destruct Ho as (s & Hrel & Hsz). pose proof (sm_write_spec m s a (pd_list d) Hrel) as HW.
    destruct (sm_write m a (pd_list d)) as [m' r]. cbn [fst].
    destruct (f_write s a (pd_list d)) as [s' r'] eqn:Ef. destruct HW as [HW _].
    split; [apply HS; reflexivity|]. apply hok_set; auto. unfold okobj. cbn [set_kind o_kind o_size].
    exists s'. split; auto. unfold f_write in Ef.
    destruct (in_range (f_size s) a (zlen (pd_list d))); [|inversion Ef; subst; auto].
    destruct (good_prefix (pd_list d) =? zlen (pd_list d)); inversion Ef; subst; auto.
  - pose proof (per_write_strip p a (pd_list d)) as HP.
    destruct (per_write p a (pd_list d)) as [p' r]. cbn [fst] in *.
    assert (Hst : hstrip (hset h i (set_kind o (KPeriph p'))) = hstrip h).
    { apply hset_map with (o := o); auto. unfold ostrip, set_kind. cbn [o_size o_base o_parent o_kind].
      now rewrite Hk, HP. }
    split; [now apply strip_skel|]. eapply hok_strip; [symmetry; exact Hst|auto].
  - destruct (o_parent o); auto.
  - destruct (find_regions (o_size o) regs a (zlen (pd_list d))) as [[|]|]; auto.
    apply sp_write_loop_shape; auto.
Qed.

Lemma a_step_hok2 lim h o : hok2 h -> hok2 (fst (a_step lim h o)).
Proof.
  intros Hok. destruct o; cbn [a_step]; unfold ao_id, ao_unit, ao_bytes; cbn [fst].
  - apply (new_region_hok2 h RTMem); auto.
  - apply (new_region_hok2 h RTSparse); auto.
  - unfold new_periph, hnew. cbn [fst]. apply hok2_app; auto; exact I.
  - apply (new_region_hok2 h RTSpace); auto.
  - now apply register_hok2.
  - destruct (create_window h i offset size) as [h' [w|e]] eqn:Ec; cbn [fst].
    + apply create_window_spec in Ec. destruct Ec as (o1 & s & bb & _ & _ & -> & _). apply hok2_app; auto; exact I.
    + apply create_window_err in Ec. now subst.
  - destruct (create_window_pool h i offset size) as [h' [w|e]] eqn:Ec; cbn [fst].
    + apply create_window_pool_spec in Ec. destruct Ec as (o1 & off' & s & bb & _ & _ & -> & _).
      apply hok2_app; auto; [exact I|]. cbn. eexists. apply b_reach_init.
    + apply create_window_pool_err in Ec. now subst.
  - now apply alloc_window_hok2.
  - now apply create_pool_hok2.
  - now apply alloc_region_hok2.
  - destruct (rd_obj lim h i address length) as [h' r] eqn:E. cbn [fst].
    destruct (rd_obj_sound lim _ _ _ _ _ _ (hok2_hok _ Hok) E) as [Hs _].
    apply (hok2_skel h); auto; [now symmetry; apply strip_skel|].
    eapply hok_strip; [symmetry; exact Hs|]. now apply hok2_hok.
  - destruct (wr_obj_shape lim h i address data (hok2_hok _ Hok)) as [H1 H2].
    apply (hok2_skel h); auto.
Qed.

Lemma a_run_hok2 lim ops : forall h, hok2 h -> hok2 (fst (a_run lim h ops)).
Proof.
  induction ops as [|o ops IH]; intros h Hok; cbn [a_run]; auto.
  pose proof (a_step_hok2 lim h o Hok) as H1. destruct (a_step lim h o) as [h1 r]. cbn [fst] in H1.
  specialize (IH h1 H1). destruct (a_run lim h1 ops). auto.
Qed.

Lemma a_reach_hok2 h : a_reach h -> hok2 h.
Proof. intros (lim & ops & ->). apply a_run_hok2. constructor. Qed.
Lemma a_reach_hok h : a_reach h -> hok h.
Proof. intros. now apply hok2_hok, a_reach_hok2. Qed.
