(** Proofs about address spaces: structure of the heap, soundness of reads and writes. *)
From Coq Require Import ZArith Lia List Bool.
From Coq Require Import ZifyBool ZifyNat.
From Verif Require Import Py S_flat M_sparse S_sparse P_sparse M_memory P_memory M_buddy M_aspace S_aspace.
Import ListNotations.
Open Scope Z_scope.

(** ** heaps *)

Lemma hget_hset h i o j : hget h i <> None ->
  hget (hset h i o) j = if Nat.eqb i j then Some o else hget h j.
Proof.
  unfold hget. revert i j. induction h as [|x h IH]; intros i j Hi; [destruct i; cbn in Hi; congruence|].
  destruct i; cbn [hset nth_error] in *.
  - destruct j; reflexivity.
  - destruct j; cbn [nth_error Nat.eqb]; auto.
Qed.

Lemma hset_length h i o : length (hset h i o) = length h.
Proof. revert i; induction h; intros [|i]; cbn; auto. Qed.

Lemma hset_map {B} (f : obj -> B) h i o o' : hget h i = Some o -> f o' = f o ->
  map f (hset h i o') = map f h.
Proof.
  unfold hget. revert i. induction h as [|x h IH]; intros i Hi Hf; [destruct i; discriminate|].
  destruct i; cbn [hset nth_error map] in *.
  - inversion Hi; subst. now rewrite Hf.
  - f_equal. auto.
Qed.

Lemma hget_app1 h o i : (i < length h)%nat -> hget (h ++ [o]) i = hget h i.
Proof. intros. unfold hget. now rewrite nth_error_app1. Qed.

Lemma hget_app_new h o : hget (h ++ [o]) (length h) = Some o.
Proof. unfold hget. rewrite nth_error_app2 by lia. now rewrite Nat.sub_diag. Qed.

Lemma hget_lt h i o : hget h i = Some o -> (i < length h)%nat.
Proof. intros H. apply nth_error_Some. unfold hget in H. congruence. Qed.

Lemma hget_In h i o : hget h i = Some o -> In o h.
Proof. apply nth_error_In. Qed.

Lemma hget_map {B} (f : obj -> B) h h' i o : map f h = map f h' -> hget h i = Some o ->
  exists o', hget h' i = Some o' /\ f o' = f o.
Proof.
  unfold hget. revert h' i. induction h as [|x h IH]; intros [|y h'] i Hm Hi; try discriminate.
  - destruct i; discriminate.
  - cbn [map] in Hm. inversion Hm. destruct i; cbn [nth_error] in *; eauto.
    inversion Hi; subst. eauto.
Qed.

Lemma hget_map_none {B} (f : obj -> B) h h' i : map f h = map f h' -> hget h i = None ->
  hget h' i = None.
Proof.
  intros Hm Hi. apply nth_error_None. apply nth_error_None in Hi.
  apply (f_equal (@length _)) in Hm. rewrite !map_length in Hm. lia.
Qed.

(** an object without its changing content (memory content and peripheral history) *)
Definition skel (k : kind) : kind :=
  match k with
  | KMem _ => KMem []
  | KSparse _ => KSparse (sm_init 0)
  | KPeriph p => KPeriph (Periph (p_async p) (p_rd p) (p_wr p) [])
  | k => k
  end.
Definition oskel (o : obj) : obj := set_kind o (skel (o_kind o)).
Definition hskel (h : heap) := map oskel h.

(** an object without the history of a peripheral *)
Definition strip (k : kind) : kind :=
  match k with
  | KPeriph p => KPeriph (Periph (p_async p) (p_rd p) (p_wr p) [])
  | k => k
  end.
Definition ostrip (o : obj) : obj := set_kind o (strip (o_kind o)).
Definition hstrip (h : heap) := map ostrip h.

Lemma strip_skel h h' : hstrip h = hstrip h' -> hskel h = hskel h'.
Proof.
  unfold hstrip, hskel. revert h'. induction h as [|x h IH]; intros [|y h'] H; try discriminate; auto.
  cbn [map] in *. inversion H. f_equal; auto. destruct x as [s b p k], y as [s' b' p' k'].
  unfold ostrip, oskel, set_kind in *. cbn in *. inversion H1; subst. f_equal.
  destruct k, k'; cbn in *; congruence.
Qed.

Lemma oskel_fields o o' : oskel o = oskel o' ->
  o_size o = o_size o' /\ o_base o = o_base o' /\ o_parent o = o_parent o' /\
  skel (o_kind o) = skel (o_kind o').
Proof. unfold oskel, set_kind. intros H. inversion H. auto. Qed.

Lemma skel_window k off al : skel k = KWindow off al <-> k = KWindow off al.
Proof. destruct k; cbn; split; congruence. Qed.
Lemma skel_space k r al : skel k = KSpace r al <-> k = KSpace r al.
Proof. destruct k; cbn; split; congruence. Qed.
Lemma skel_leaf k : is_leaf (skel k) <-> is_leaf k.
Proof. destruct k; cbn; tauto. Qed.

Lemma skel_get h h' i o : hskel h = hskel h' -> hget h i = Some o ->
  exists o', hget h' i = Some o' /\ o_size o' = o_size o /\ o_base o' = o_base o /\
    o_parent o' = o_parent o /\ skel (o_kind o') = skel (o_kind o).
Proof.
  intros Hm Hi. destruct (hget_map _ _ _ _ _ Hm Hi) as (o' & E & F).
  apply oskel_fields in F. exists o'. intuition.
Qed.

Lemma decodes_skel h h' d i a l x : hskel h = hskel h' -> decodes h d i a l x -> decodes h' d i a l x.
Proof.
  intros Hm H. induction H.
  - destruct (skel_get _ _ _ _ Hm H) as (o' & E & Sz & _ & _ & K).
    eapply dec_leaf; eauto; [|lia]. apply skel_leaf. rewrite K. now apply skel_leaf.
  - destruct (skel_get _ _ _ _ Hm H) as (o' & E & Sz & _ & P & K).
    rewrite H0 in K. cbn [skel] in K. apply (proj1 (skel_window _ _ _)) in K.
    eapply dec_window; eauto; [lia|congruence].
  - destruct (skel_get _ _ _ _ Hm H) as (o' & E & Sz & _ & P & K).
    rewrite H0 in K. cbn [skel] in K. apply (proj1 (skel_space _ _ _)) in K.
    eapply dec_space; eauto.
Qed.

Lemma content_strip h h' l x : hstrip h = hstrip h' -> content h l x = content h' l x.
Proof.
  intros Hm. unfold content. destruct (hget h l) as [o|] eqn:E.
  - destruct (hget_map _ _ _ _ _ Hm E) as (o' & E' & F). rewrite E'.
    destruct o as [s b p k], o' as [s' b' p' k']. unfold ostrip, set_kind in F. cbn in *.
    inversion F; subst. destruct ((0 <=? x) && (x <? s)); auto.
    destruct k, k'; cbn in *; try congruence; match goal with H : _ = _ |- _ => inversion H; subst; reflexivity end.
  - now rewrite (hget_map_none _ _ _ _ Hm E).
Qed.

(** ** well-formed heaps *)

Definition sepe (e e' : entry) : Prop :=
  e_base e + e_size e <= e_base e' \/ e_base e' + e_size e' <= e_base e.
Definition regs_ok (regs : list entry) : Prop :=
  Forall (fun e => 0 <= e_base e /\ 0 <= e_size e) regs /\ ForallOrdPairs sepe regs.

Definition okobj (o : obj) : Prop :=
  match o_kind o with
  | KMem mem => zlen mem = o_size o
  | KSparse m => exists s, sm_rel m s /\ f_size s = o_size o
  | KSpace regs _ => regs_ok regs
  | _ => True
  end.
Definition hok (h : heap) : Prop := Forall okobj h.

Lemma hok_get h i o : hok h -> hget h i = Some o -> okobj o.
Proof. intros H Hi. eapply Forall_forall in H; eauto. eapply hget_In; eauto. Qed.

Lemma hok_set h i o : hok h -> okobj o -> hok (hset h i o).
Proof.
  unfold hok. intros H Ho. revert i. induction H; intros [|i]; cbn [hset]; constructor; auto.
Qed.

Lemma okobj_strip o o' : ostrip o = ostrip o' -> okobj o -> okobj o'.
Proof.
  destruct o as [s b p k], o' as [s' b' p' k']. unfold ostrip, set_kind, okobj. cbn. intros F.
  inversion F; subst. destruct k, k'; cbn in *; congruence || (try inversion H3; subst; auto).
Qed.

Lemma hok_strip h h' : hstrip h = hstrip h' -> hok h -> hok h'.
Proof.
  unfold hstrip, hok. revert h'. induction h as [|x h IH]; intros [|y h'] H Hk; try discriminate; auto.
  assert (H1 : ostrip x = ostrip y) by (cbn [map] in H; congruence).
  assert (H2 : map ostrip h = map ostrip h') by (cbn [map] in H; congruence). apply Forall_cons_iff in Hk. destruct Hk as [Hk1 Hk2].
  constructor; [eapply okobj_strip; eauto|apply IH; auto].
Qed.

Lemma lawful_skel h h' : hskel h = hskel h' -> lawful h -> lawful h'.
Proof.
  intros Hm HL i o p log a n d Hi Hk Hr. symmetry in Hm.
  destruct (skel_get _ _ _ _ Hm Hi) as (o' & E & _ & _ & _ & K). rewrite Hk in K. cbn [skel] in K.
  destruct (o_kind o') as [| |p'| |] eqn:Ek; try discriminate. cbn [skel] in K. inversion K.
  eapply (HL i o' p' log a n d); eauto. congruence.
Qed.

Lemma contained_skel h h' : hskel h = hskel h' -> contained h -> contained h'.
Proof.
  intros Hm HL i o regs al e Hi Hk He. symmetry in Hm.
  destruct (skel_get _ _ _ _ Hm Hi) as (o' & E & Sz & _ & _ & K). rewrite Hk in K. cbn [skel] in K.
  apply (proj1 (skel_space _ _ _)) in K. rewrite <- Sz. eapply HL; eauto.
Qed.

Lemma range_ok_spec s a n : range_ok s a n = true <-> 0 <= a < s /\ 0 <= n /\ a + n <= s.
Proof. unfold range_ok. lia. Qed.

(** ** reads *)

Lemma per_read_strip p a n : let '(p', r) := per_read p a n in
  strip (KPeriph p') = strip (KPeriph p) /\
  (forall d, r = Ok d -> exists log, p_rd p log a n = Ok d).
Proof.
  destruct p as [as_ f g log]. unfold per_read. cbn [p_async p_rd p_wr p_log].
  destruct as_; [split; [reflexivity|]; intros d E; cbn [p_rd]; eauto|].
  destruct (f log a n) as [d|e] eqn:E.
  - split; [reflexivity|]. intros d' E'. cbn [p_rd]. eauto.
  - destruct e; (split; [reflexivity|]); intros d' E'; try discriminate; cbn [p_rd]; eauto.
Qed.

(** bytes of a memory read back through [content] *)
Lemma sparse_content h i o m s a n : hget h i = Some o -> o_kind o = KSparse m -> sm_rel m s ->
  f_size s = o_size o -> 0 <= a < o_size o -> 0 <= n -> a + n <= o_size o ->
  sm_read m a n = Ok (rd (f_mem s) a n) /\
  forall x, 0 <= x < o_size o -> content h i x = Some (f_mem s x).
Proof.
  intros Hi Hk Hrel Hsz Ha Hn Hfit. split.
  - pose proof (sm_read_spec m s a n Hrel) as H. unfold f_read, in_range in H.
    replace ((0 <=? a) && (a <? f_size s) && (0 <=? n) && (a + n <=? f_size s)) with true in H by lia.
    destruct (sm_read m a n); cbn [out_bytes] in H; congruence.
  - intros x Hx. unfold content. rewrite Hi, Hk.
    replace ((0 <=? x) && (x <? o_size o)) with true by lia.
    pose proof (sm_read_spec m s x 1 Hrel) as H. unfold f_read, in_range in H.
    replace ((0 <=? x) && (x <? f_size s) && (0 <=? 1) && (x + 1 <=? f_size s)) with true in H by lia.
    rewrite rd_cons, rd_neg in H by lia.
    destruct (sm_read m x 1); cbn [out_bytes] in H; [|discriminate]. inversion H. reflexivity.
Qed.

(** [i] at [a] decodes to some location with depth at most [lim]; if that is a memory it
    holds [b] *)
Definition holds_byte (lim : nat) (h : heap) (i : nat) (a b : Z) : Prop :=
  exists d l x, decodes h d i a l x /\ (d <= lim)%nat /\
    (content h l x = Some b \/ content h l x = None).

Definition rd_sound_at (lim : nat) (rdf : heap -> nat -> Z -> Z -> heap * res (list Z)) : Prop :=
  forall h i a n h' r, hok h -> rdf h i a n = (h', r) ->
    hstrip h' = hstrip h /\
    forall data, r = Ok data -> lawful h ->
      0 <= n /\ zlen data = n /\
      forall j, 0 <= j < n -> holds_byte lim h i (a + j) (znth 0 data j).

Lemma holds_byte_strip lim h h' i a b : hstrip h = hstrip h' ->
  holds_byte lim h i a b -> holds_byte lim h' i a b.
Proof.
  intros Hm (d & l & x & D & Hd & C). exists d, l, x.
  rewrite <- (content_strip _ _ l x Hm). split; [|auto].
  apply (decodes_skel h); [now apply strip_skel|auto].
Qed.

Lemma sp_read_loop_sound lim rdf i regs al : rd_sound_at lim rdf ->
  forall segs h o a n acc h' r, hok h -> hget h i = Some o -> o_kind o = KSpace regs al ->
    incl segs regs -> sp_read_loop rdf h segs a n acc = (h', r) ->
    hstrip h' = hstrip h /\
    forall data, r = Ok data -> lawful h -> 0 <= n ->
      exists d2, data = acc ++ d2 /\ zlen d2 = n /\
      forall j, 0 <= j < n -> holds_byte (S lim) h i (a + j) (znth 0 d2 j).
Proof.
  intros HR segs. induction segs as [|e segs IH]; intros h o a n acc h' r Hok Hi Hk Hincl HS;
    cbn [sp_read_loop] in HS.
  - inversion HS; subst. split; auto. intros data E HL Hn. destruct (0 <? n) eqn:En; [discriminate|].
    inversion E; subst. exists []. rewrite app_nil_r. change (zlen (@nil Z)) with 0.
    split; [reflexivity|]. split; [lia|]. intros; lia.
  - destruct (a <? e_base e) eqn:Eb.
    { inversion HS; subst. split; auto. intros; discriminate. }
    set (sl := Z.min (e_size e - (a - e_base e)) n) in *.
    change (match e_off e with None => a | Some off => a - e_base e + off end)
      with (translated e a) in HS.
    destruct (rdf h (e_reg e) (translated e a) sl) as [h1 r1] eqn:E1.
    destruct (HR _ _ _ _ _ _ Hok E1) as [Hs1 Hr1].
    destruct r1 as [d1|x1]; [|inversion HS; subst; split; auto; intros; discriminate].
    assert (Hok1 : hok h1) by (eapply hok_strip; [symmetry; eassumption|auto]).
    destruct (hget_map _ _ _ _ _ (eq_sym Hs1) Hi) as (o1 & Hi1 & F1).
    assert (Hk1 : o_kind o1 = KSpace regs al).
    { pose proof (strip_skel [o1] [o] ltac:(cbn; congruence)) as F. cbn in F. inversion F.
      apply (f_equal (fun k => k)) in H3. rewrite Hk in H3. cbn [skel] in H3. now apply (proj1 (skel_space _ _ _)). }
    assert (Hin : In e regs) by (apply Hincl; now left).
    destruct (IH h1 _ _ _ _ _ _ Hok1 Hi1 Hk1 (fun y Hy => Hincl y (or_intror Hy)) HS) as [Hs2 Hr2].
    split; [congruence|]. intros data E HL Hn.
    destruct (Hr1 d1 eq_refl HL) as (Hsl & Hd1 & Hb1).
    assert (HL1 : lawful h1) by (eapply lawful_skel; [apply strip_skel; symmetry; eassumption|auto]).
    destruct (Hr2 data E HL1 ltac:(lia)) as (d2 & Ed & Hd2 & Hb2).
    exists (d1 ++ d2). rewrite app_assoc. split; auto. split; [rewrite zlen_app; lia|].
    intros j Hj. destruct (Z_lt_ge_dec j sl) as [Hlt|Hge].
    + rewrite znth_app1 by lia. destruct (Hb1 j ltac:(lia)) as (d & l & x & D & Hd & C).
      exists (S d), l, x. split; [|split; [lia|auto]].
      eapply dec_space; eauto; [unfold covers; lia|].
      replace (translated e (a + j)) with (translated e a + j); auto.
      unfold translated. destruct (e_off e); lia.
    + rewrite znth_app2 by lia. eapply holds_byte_strip; [exact Hs1|].
      replace (a + j) with (a + sl + (j - sl)) by lia. rewrite Hd1. apply Hb2. lia.
Qed.

Lemma insert_In x y l : In y (insert x l) <-> y = x \/ In y l.
Proof.
  induction l as [|z l IH]; cbn [insert]; [cbn; intuition|].
  destruct (entry_ltb z x); cbn [In]; rewrite ?IH; cbn [In]; intuition.
Qed.

Lemma sort_In l l' y : sort_entries l = Ok l' -> (In y l' <-> In y l).
Proof.
  unfold sort_entries. destruct (any_tie_bad l); [discriminate|]. intros E; inversion E; subst. clear E.
  induction l as [|x l IH]; cbn [fold_right]; [tauto|]. rewrite insert_In, IH. cbn [In]. intuition.
Qed.

Lemma find_In size regs a n segs e : find_regions size regs a n = Ok segs ->
  0 <= a < size /\ 0 <= n /\
  (In e segs <-> In e regs /\ a < e_base e + e_size e /\ e_base e < a + Z.max n 1).
Proof.
  unfold find_regions. destruct ((a <? 0) || (size <=? a)) eqn:E1; [discriminate|].
  destruct (n <? 0) eqn:E2; [discriminate|]. intros H. split; [lia|]. split; [lia|].
  rewrite (sort_In _ _ e H), filter_In. intuition lia.
Qed.

Lemma find_incl size regs a n segs : find_regions size regs a n = Ok segs -> incl segs regs.
Proof. intros H e He. apply (find_In _ _ _ _ _ e) in H. tauto. Qed.

Lemma rd_obj_sound lim : rd_sound_at lim (rd_obj lim).
Proof.
  induction lim as [|lim IH]; intros h i a n h' r Hok HS; cbn [rd_obj] in HS.
  { inversion HS; subst. split; auto. intros; discriminate. }
  destruct (hget h i) as [o|] eqn:Hi; [|inversion HS; subst; split; auto; intros; discriminate].
  pose proof (hok_get _ _ _ Hok Hi) as Ho. unfold okobj in Ho.
  destruct (o_kind o) as [mem|m|p|off al|regs al] eqn:Hk.
  1-4: destruct (range_ok (o_size o) a n) eqn:Er; cbn [negb] in HS;
    [apply range_ok_spec in Er|inversion HS; subst; split; auto; intros; discriminate].
  - inversion HS; subst. split; auto. intros data E HL. inversion E; subst data. clear E.
    split; [lia|]. split.
    { rewrite zslice_length by lia. lia. }
    intros j Hj. exists 1%nat, i, (a + j). split; [|split; [lia|]].
    + eapply dec_leaf; eauto; [now rewrite Hk|lia].
    + left. unfold content. rewrite Hi, Hk. replace ((0 <=? a + j) && (a + j <? o_size o)) with true by lia.
      rewrite znth_zslice by lia. reflexivity.
  - destruct Ho as (s & Hrel & Hsz).
    destruct (sparse_content h i o m s a n Hi Hk Hrel Hsz ltac:(lia) ltac:(lia) ltac:(lia)) as [E1 E2].
    inversion HS; subst. split; auto. intros data E HL. rewrite E1 in E. inversion E; subst data. clear E.
    split; [lia|]. split; [apply rd_length; lia|].
    intros j Hj. exists 1%nat, i, (a + j). split; [|split; [lia|]].
    + eapply dec_leaf; eauto; [now rewrite Hk|lia].
    + left. rewrite E2 by lia. rewrite rd_nth by lia. reflexivity.
  - pose proof (per_read_strip p a n) as HP. destruct (per_read p a n) as [p' r'].
    destruct HP as [HP1 HP2]. inversion HS; subst. clear HS. split.
    { apply hset_map with (o := o); auto. unfold ostrip, set_kind. cbn [o_size o_base o_parent o_kind].
      now rewrite Hk, HP1. }
    intros data E HL. destruct (HP2 _ E) as (log & Hlog).
    pose proof (HL i o p log a n data Hi Hk Hlog). split; [lia|]. split; auto.
    intros j Hj. exists 1%nat, i, (a + j). split; [|split; [lia|]].
    + eapply dec_leaf; eauto; [now rewrite Hk|lia].
    + right. unfold content. rewrite Hi, Hk. now destruct ((0 <=? a + j) && (a + j <? o_size o)).
  - destruct (o_parent o) as [pa|] eqn:Hp; [|inversion HS; subst; split; auto; intros; discriminate].
    destruct (IH _ _ _ _ _ _ Hok HS) as [H1 H2]. split; auto. intros data E HL.
    destruct (H2 data E HL) as (Hn & Hd & Hb). split; auto. split; auto.
    intros j Hj. destruct (Hb j Hj) as (d & l & x & D & Hd' & C).
    exists (S d), l, x. split; [|split; [lia|auto]].
    eapply dec_window; eauto; [lia|]. now replace (a + j + off) with (a + off + j) by lia.
  - destruct (find_regions (o_size o) regs a n) as [segs|x] eqn:Ef;
      [|inversion HS; subst; split; auto; intros; discriminate].
    pose proof (find_incl _ _ _ _ _ Ef) as Hincl.
    destruct segs as [|e segs]; [inversion HS; subst; split; auto; intros; discriminate|].
    destruct (sp_read_loop_sound lim (rd_obj lim) i regs al IH _ _ _ _ _ _ _ _ Hok Hi Hk Hincl HS)
      as [H1 H2].
    split; auto. intros data E HL.
    destruct (find_In _ _ _ _ _ e Ef) as (_ & Hn & _).
    destruct (H2 data E HL Hn) as (d2 & Ed & Hd2 & Hb). cbn [app] in Ed. subst d2.
    split; auto.
Qed.
