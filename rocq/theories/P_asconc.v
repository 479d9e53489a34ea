(** Lemmas about concurrent accesses of address spaces (C82). *)
From Coq Require Import ZArith List Bool Lia.
From Verif Require Import Py M_sparse M_memory M_buddy M_aspace S_aspace P_aspace P_aspacew P_aspaceh M_asconc S_asconc.
Import ListNotations.
Open Scope Z_scope.

(** ** a call that runs alone *)
Lemma finish_bind p f : forall h, finish h (pbind p f) = let '(h', r) := finish h p in match r with Ok d => finish h' (f d) | Err e => (h', Err e) end.
Proof.
  induction p as [r|c k IH]; intros h; cbn.
  - now destruct r.
  - destruct (exec h c) as [h1 r]. apply IH.
Qed.

(** programs are compared by what they do *)
Inductive psame : prog -> prog -> Prop :=
| ps_ret r : psame (PRet r) (PRet r)
| ps_acc c k k' : (forall r, psame (k r) (k' r)) -> psame (PAcc c k) (PAcc c k').
Lemma psame_refl p : psame p p.
Proof. induction p; constructor; auto. Qed.
Lemma psame_bind p q f g : psame p q -> (forall d, psame (f d) (g d)) -> psame (pbind p f) (pbind q g).
Proof. intros H Hf. induction H as [r|c k k' Hk IH]; cbn; [destruct r; auto; constructor|]. constructor. auto. Qed.
Lemma psame_finish p q : psame p q -> forall h, finish h p = finish h q.
Proof. intros H. induction H as [r|c k k' Hk IH]; intros h; cbn; auto. destruct (exec h c). apply IH. Qed.

Lemma sp_read_prog_same rdf rdf' : (forall i a n, psame (rdf i a n) (rdf' i a n)) -> forall segs a n d, psame (sp_read_prog rdf segs a n d) (sp_read_prog rdf' segs a n d).
Proof.
  intros H segs. induction segs as [|e segs IH]; intros a n d; cbn [sp_read_prog]; [constructor|]. destruct (a <? e_base e); [constructor|].
  apply psame_bind; auto.
Qed.
Lemma sp_write_prog_same rdf rdf' : (forall i a n, psame (rdf i a n) (rdf' i a n)) -> forall segs a s n d, psame (sp_write_prog rdf segs a s n d) (sp_write_prog rdf' segs a s n d).
Proof.
  intros H segs. induction segs as [|e segs IH]; intros a s n d; cbn [sp_write_prog]; [constructor|]. destruct (a <? e_base e); [constructor|].
  apply psame_bind; auto.
Qed.

Lemma rd_prog_same lim : forall h h' i a n, hskel h = hskel h' -> psame (rd_prog lim h i a n) (rd_prog lim h' i a n).
Proof.
  induction lim as [|lim IH]; intros h h' i a n Hs; [constructor|]. cbn [rd_prog].
  destruct (hget h i) as [o|] eqn:Hi.
  - destruct (skel_get h h' i o Hs Hi) as (o' & Hi' & E1 & _ & E3 & E4). rewrite Hi', E1, E3.
    destruct (o_kind o) as [| | |off al|regs al], (o_kind o') as [| | |off' al'|regs' al']; cbn in E4; try discriminate E4; try apply psame_refl.
    + inversion E4; subst. destruct (negb (range_ok (o_size o) a n)); [constructor|]. destruct (o_parent o); [auto|constructor].
    + inversion E4; subst. destruct (find_regions (o_size o) regs a n) as [[|e segs]|]; try constructor. apply sp_read_prog_same. auto.
  - assert (Hi' : hget h' i = None). { destruct (hget h' i) as [o|] eqn:E; auto. destruct (skel_get h' h i o (eq_sym Hs) E) as (o' & E' & _). congruence. }
    rewrite Hi'. constructor.
Qed.
Lemma wr_prog_same lim : forall h h' i a d, hskel h = hskel h' -> psame (wr_prog lim h i a d) (wr_prog lim h' i a d).
Proof.
  induction lim as [|lim IH]; intros h h' i a d Hs; [constructor|]. cbn [wr_prog].
  destruct (hget h i) as [o|] eqn:Hi.
  - destruct (skel_get h h' i o Hs Hi) as (o' & Hi' & E1 & _ & E3 & E4). rewrite Hi', E1, E3.
    destruct (o_kind o) as [| | |off al|regs al], (o_kind o') as [| | |off' al'|regs' al']; cbn in E4; try discriminate E4; try apply psame_refl.
    + inversion E4; subst. destruct (negb (range_ok (o_size o) a (zlen (pd_list d)))); [constructor|]. destruct (o_parent o); [auto|constructor].
    + inversion E4; subst. destruct (find_regions (o_size o) regs a (zlen (pd_list d))) as [[|e segs]|]; try constructor. apply sp_write_prog_same. auto.
  - assert (Hi' : hget h' i = None). { destruct (hget h' i) as [o|] eqn:E; auto. destruct (skel_get h' h i o (eq_sym Hs) E) as (o' & E' & _). congruence. }
    rewrite Hi'. constructor.
Qed.

Lemma rd_shape lim h i a n : hok h -> hskel (fst (rd_obj lim h i a n)) = hskel h /\ hok (fst (rd_obj lim h i a n)).
Proof.
  intros Hok. destruct (rd_obj lim h i a n) as [h' r] eqn:E. destruct (rd_obj_sound lim _ _ _ _ _ _ Hok E) as [Hs _]. cbn [fst]. split; [now apply strip_skel|].
  eapply hok_strip; [symmetry; exact Hs|exact Hok].
Qed.
Lemma exec_shape h c : hok h -> hskel (fst (exec h c)) = hskel h /\ hok (fst (exec h c)).
Proof.
  intros Hok. destruct c as [l x n|l x d]; unfold exec; [now apply rd_shape|].
  pose proof (wr_obj_shape 1 h l x d Hok) as H. destruct (wr_obj 1 h l x d). exact H.
Qed.

Lemma rd_alone lim : forall h i a n, hok h -> finish h (rd_prog lim h i a n) = rd_obj lim h i a n.
Proof.
  induction lim as [|lim IH]; intros h i a n Hok; [reflexivity|].
  assert (HL : forall segs h' a n acc, hok h' -> hskel h' = hskel h -> finish h' (sp_read_prog (rd_prog lim h) segs a n acc) = sp_read_loop (rd_obj lim) h' segs a n acc).
  { clear a n. induction segs as [|e segs IHs]; intros h' a n acc Hok' Hs; cbn [sp_read_prog sp_read_loop]; [now destruct (0 <? n)|].
    destruct (a <? e_base e); [reflexivity|]. rewrite finish_bind. rewrite (psame_finish _ _ (rd_prog_same lim h h' _ _ _ (eq_sym Hs))), IH by exact Hok'.
    match goal with |- context [rd_obj lim h' ?x ?y ?z] => destruct (rd_shape lim h' x y z Hok') as [H1 H2]; destruct (rd_obj lim h' x y z) as [h1 [d|er]] end; [|reflexivity].
    cbn [fst] in *. apply IHs; auto. congruence. }
  cbn [rd_prog rd_obj]. destruct (hget h i) as [o|] eqn:Hi; [|reflexivity]. destruct (o_kind o) as [mem|m|p|off al|regs al] eqn:Hk.
  1-3: destruct (negb (range_ok (o_size o) a n)) eqn:Er; [reflexivity|]; cbn [finish exec rd_obj]; rewrite Hi, Hk, Er; try reflexivity; now destruct (per_read p a n).
  - destruct (negb (range_ok (o_size o) a n)); [reflexivity|]. destruct (o_parent o); [now apply IH|reflexivity].
  - destruct (find_regions (o_size o) regs a n) as [[|e segs]|]; try reflexivity. now apply HL.
Qed.

Definition unit_of (x : heap * res unit) : heap * res (list Z) := (fst x, match snd x with Ok _ => Ok [] | Err e => Err e end).
Lemma wr_alone lim : forall h i a d, hok h -> finish h (wr_prog lim h i a d) = unit_of (wr_obj lim h i a d).
Proof.
  induction lim as [|lim IH]; intros h i a d Hok; [reflexivity|].
  assert (HL : forall segs h' a s n d, hok h' -> hskel h' = hskel h -> finish h' (sp_write_prog (wr_prog lim h) segs a s n d) = unit_of (sp_write_loop (wr_obj lim) h' segs a s n d)).
  { clear a d. induction segs as [|e segs IHs]; intros h' a s n d Hok' Hs; cbn [sp_write_prog sp_write_loop]; [now destruct (0 <? n)|].
    destruct (a <? e_base e); [reflexivity|]. rewrite finish_bind. rewrite (psame_finish _ _ (wr_prog_same lim h h' _ _ _ (eq_sym Hs))), IH by exact Hok'. unfold unit_of at 1.
    match goal with |- context [wr_obj lim h' ?x ?y ?z] => destruct (wr_obj_shape lim h' x y z Hok') as [H1 H2]; destruct (wr_obj lim h' x y z) as [h1 [u|er]] end; [|reflexivity].
    cbn [fst snd] in *. apply IHs; auto. congruence. }
  cbn [wr_prog wr_obj]. destruct (hget h i) as [o|] eqn:Hi; [|reflexivity]. destruct (o_kind o) as [mem|m|p|off al|regs al] eqn:Hk.
  1-3: destruct (negb (range_ok (o_size o) a (zlen (pd_list d)))) eqn:Er; [reflexivity|]; cbn [finish exec wr_obj]; rewrite Hi, Hk, Er.
  - now destruct d.
  - now destruct (sm_write m a (pd_list d)).
  - now destruct (per_write p a (pd_list d)).
  - destruct (negb (range_ok (o_size o) a (zlen (pd_list d)))); [reflexivity|]. destruct (o_parent o); [now apply IH|reflexivity].
  - destruct (find_regions (o_size o) regs a (zlen (pd_list d))) as [[|e segs]|]; try reflexivity. now apply HL.
Qed.

(** ** the accesses of a call *)
Inductive path : prog -> list (acc * res (list Z)) -> prog -> Prop :=
| path_nil p : path p [] p
| path_acc c k r es p' : path (k r) es p' -> path (PAcc c k) ((c, r) :: es) p'.
Definition plocs (es : list (acc * res (list Z))) : list (nat * Z) := flat_map (fun e => acc_locs (fst e)) es.
Definition pdata (es : list (acc * res (list Z))) : list Z := flat_map (fun e => acc_data (fst e)) es.
Lemma plocs_app es1 es2 : plocs (es1 ++ es2) = plocs es1 ++ plocs es2.
Proof. apply flat_map_app. Qed.
Lemma pdata_app es1 es2 : pdata (es1 ++ es2) = pdata es1 ++ pdata es2.
Proof. apply flat_map_app. Qed.

Lemma path_snoc p es c k r : path p es (PAcc c k) -> path p (es ++ [(c, r)]) (k r).
Proof. intros H. remember (PAcc c k) as q eqn:E. induction H as [p|c' k' r' es p' H IH]; subst; cbn; constructor; [constructor|auto]. Qed.
Lemma path_same p q es p' : psame p q -> path p es p' -> exists q', path q es q' /\ psame p' q'.
Proof.
  intros Hs H. revert q Hs. induction H as [p|c k r es p' H IH]; intros q Hs; [exists q; split; [constructor|auto]|].
  inversion Hs as [|? ? k' Hk]; subst. destruct (IH (k' r) (Hk r)) as (q' & H1 & H2). exists q'. split; [now constructor|auto].
Qed.
Lemma path_ret r es q : path (PRet r) es q -> es = [] /\ q = PRet r.
Proof. intros H. inversion H. auto. Qed.

Lemma bind_path p f : forall es q, path (pbind p f) es q ->
  (exists p1, path p es p1 /\ q = pbind p1 f /\ forall d, p1 <> PRet (Ok d)) \/
  (exists es1 es2 d, es = es1 ++ es2 /\ path p es1 (PRet (Ok d)) /\ path (f d) es2 q).
Proof.
  induction p as [r|c k IH]; intros es q H; cbn [pbind] in H.
  - destruct r as [d|e]; [right; exists [], es, d; repeat split; auto; constructor|]. apply path_ret in H as [-> ->]. left. exists (PRet (Err e)). repeat split; [constructor|discriminate].
  - inversion H as [|? ? r es' ? H']; subst.
    + left. exists (PAcc c k). repeat split; [constructor|discriminate].
    + destruct (IH r es' q H') as [(p1 & A & B & C)|(es1 & es2 & d & A & B & C)].
      * left. exists p1. repeat split; auto. now constructor.
      * right. exists ((c, r) :: es1), es2, d. subst. repeat split; auto. now constructor.
Qed.
Lemma bind_not_ok p f d : (forall d', p <> PRet (Ok d')) -> pbind p f <> PRet (Ok d).
Proof. intros H. destruct p as [[x|e]|c k]; cbn; [destruct (H x); auto|discriminate|discriminate]. Qed.

Lemma zlocs_len l x n : 0 <= n -> zlen (zlocs l x n) = n.
Proof. intros H. unfold zlocs, zrange. rewrite zlen_map. unfold zlen. rewrite zseq_length. lia. Qed.
Lemma zlocs_nth l x n j : 0 <= j < n -> znth (O, 0) (zlocs l x n) j = (l, x + j).
Proof.
  intros H. unfold zlocs, zrange. rewrite (znth_map _ 0 (O, 0)) by (unfold zlen; rewrite zseq_length; lia). f_equal. unfold znth. rewrite zseq_nth by lia. lia.
Qed.

Definition rgood (h : heap) (i : nat) (a n : Z) (es : list (acc * res (list Z))) (p' : prog) : Prop :=
  Forall (fun e => is_rd (fst e)) es /\
  exists m, 0 <= m <= Z.max n 0 /\ decoded h i a m (plocs es) /\
    forall data, p' = PRet (Ok data) -> 0 <= n /\ m = n /\ exists ds, map snd es = map (@Ok (list Z)) ds /\ data = concat ds.
Lemma rgood_none h i a n p' : (forall d, p' <> PRet (Ok d)) -> rgood h i a n [] p'.
Proof.
  intros H. split; [constructor|]. exists 0. split; [lia|]. split; [|intros d E; now destruct (H d)]. split; [reflexivity|]. intros j Hj. lia.
Qed.
Lemma rd_path lim : forall h i a n es p', hok h -> path (rd_prog lim h i a n) es p' -> rgood h i a n es p'.
Proof.
  induction lim as [|lim IH]; intros h i a n es p' Hok H.
  { apply path_ret in H as [-> ->]. apply rgood_none. discriminate. }
  cbn [rd_prog] in H. destruct (hget h i) as [o|] eqn:Hi; [|apply path_ret in H as [-> ->]; apply rgood_none; discriminate].
  assert (HL : forall regs al segs, o_kind o = KSpace regs al -> incl segs regs -> forall es p' a n acc, path (sp_read_prog (rd_prog lim h) segs a n acc) es p' ->
    Forall (fun e => is_rd (fst e)) es /\ exists m, 0 <= m <= Z.max n 0 /\ decoded h i a m (plocs es) /\
    forall data, p' = PRet (Ok data) -> 0 <= n -> m = n /\ exists ds, map snd es = map (@Ok (list Z)) ds /\ data = acc ++ concat ds).
  { clear es p' a n H. intros regs al segs Hk. induction segs as [|e segs IHs]; intros Hin es p' a n acc H; cbn [sp_read_prog] in H.
    - apply path_ret in H as [-> ->]. split; [constructor|]. exists 0. split; [lia|]. split; [split; [reflexivity|intros; lia]|]. intros data E Hn.
      destruct (0 <? n) eqn:En; [discriminate|]. inversion E; subst. split; [lia|]. exists []. split; auto. now rewrite app_nil_r.
    - destruct (a <? e_base e) eqn:Eb.
      { apply path_ret in H as [-> ->]. split; [constructor|]. exists 0. split; [lia|]. split; [split; [reflexivity|intros; lia]|]. discriminate. }
      set (sl := Z.min (e_size e - (a - e_base e)) n) in *. change (match e_off e with None => a | Some off => a - e_base e + off end) with (translated e a) in H.
      assert (Hdec : forall m ls, 0 <= m <= Z.max sl 0 -> decoded h (e_reg e) (translated e a) m ls -> decoded h i a m ls).
      { intros m ls Hm [D1 D2]. split; auto. intros j Hj. destruct (D2 j Hj) as (d & D). exists (S d). eapply dec_space; eauto; [apply Hin; now left|unfold covers; lia|].
        replace (translated e (a + j)) with (translated e a + j); auto. unfold translated. destruct (e_off e); lia. }
      apply bind_path in H as [(p1 & A & B & C)|(es1 & es2 & d & A & B & C)].
      + destruct (IH _ _ _ _ _ _ Hok A) as (R & m & Hm & D & _). split; auto. exists m. split; [lia|]. split; [now apply Hdec|]. intros data E. subst p'. exact (False_ind _ (bind_not_ok p1 _ data C E)).
      + subst es. destruct (IH _ _ _ _ _ _ Hok B) as (R & m & Hm & D & F). destruct (F d eq_refl) as (Hsl & -> & ds & F1 & F2).
        destruct (IHs (fun y Hy => Hin y (or_intror Hy)) _ _ _ _ _ C) as (R' & m' & Hm' & D' & F').
        split; [apply Forall_app; auto|]. apply Hdec in D; [|lia]. destruct D as [D1 D2], D' as [D1' D2']. exists (sl + m'). split; [lia|]. split.
        * rewrite plocs_app. split; [rewrite zlen_app; lia|]. intros j Hj. destruct (Z_lt_ge_dec j sl).
          -- rewrite znth_app1 by lia. apply D2. lia.
          -- rewrite znth_app2 by lia. destruct (D2' (j - sl) ltac:(lia)) as (d' & D'). exists d'. rewrite D1. now replace (a + j) with (a + sl + (j - sl)) by lia.
        * intros data E Hn. destruct (F' data E ltac:(lia)) as (-> & ds' & E1 & E2). split; [lia|]. exists (ds ++ ds'). rewrite !map_app, concat_app, F1, E1. split; auto. subst. now rewrite app_assoc. }
  destruct (o_kind o) as [mem|m|p|off al|regs al] eqn:Hk.
  1-3: (destruct (negb (range_ok (o_size o) a n)) eqn:Er; [apply path_ret in H as [-> ->]; apply rgood_none; discriminate|]; apply negb_false_iff, range_ok_spec in Er;
    inversion H as [|? ? r es' ? H']; subst; [apply rgood_none; discriminate|]; apply path_ret in H' as [-> ->]; split; [repeat constructor|]; exists n; split; [lia|]; split;
    [cbn [plocs flat_map acc_locs fst]; rewrite app_nil_r; split; [apply zlocs_len; lia|]; intros j Hj; rewrite zlocs_nth by lia; exists 1%nat; apply (dec_leaf h i (a + j) o); auto; [now rewrite Hk|lia]
    |intros data E; inversion E; subst; split; [lia|]; split; auto; exists [data]; cbn; rewrite app_nil_r; auto]).
  - destruct (negb (range_ok (o_size o) a n)) eqn:Er; [apply path_ret in H as [-> ->]; apply rgood_none; discriminate|]. apply negb_false_iff, range_ok_spec in Er.
    destruct (o_parent o) as [pa|] eqn:Hp; [|apply path_ret in H as [-> ->]; apply rgood_none; discriminate].
    destruct (IH _ _ _ _ _ _ Hok H) as (R & m & Hm & [D1 D2] & F). split; auto. exists m. split; auto. split; auto. split; auto. intros j Hj. destruct (D2 j Hj) as (d & D). exists (S d).
    eapply dec_window; eauto; [lia|]. now replace (a + j + off) with (a + off + j) by lia.
  - destruct (find_regions (o_size o) regs a n) as [[|e segs]|] eqn:Ef; try (apply path_ret in H as [-> ->]; apply rgood_none; discriminate).
    destruct (HL regs al (e :: segs) eq_refl (find_incl _ _ _ _ _ Ef) es p' a n [] H) as (R & m & Hm & D & F). split; auto. exists m. split; auto. split; auto.
    intros data E. destruct (find_In _ _ _ _ _ e Ef) as (_ & Hn & _). destruct (F data E Hn) as (F1 & ds & F2 & F3). split; [exact Hn|]. split; [exact F1|]. exists ds. split; [exact F2|exact F3].
Qed.

Definition wgood (h : heap) (i : nat) (a : Z) (D : list Z) (es : list (acc * res (list Z))) (p' : prog) : Prop :=
  Forall (fun e => is_wr (fst e)) es /\
  exists m, 0 <= m <= zlen D /\ decoded h i a m (plocs es) /\ pdata es = zslice D 0 m /\
    forall r, p' = PRet (Ok r) -> m = zlen D /\ exists us, map snd es = map (@Ok (list Z)) us.
Lemma wgood_none h i a D p' : (forall d, p' <> PRet (Ok d)) -> wgood h i a D [] p'.
Proof.
  intros H. split; [constructor|]. exists 0. pose proof (zlen_nonneg D). split; [lia|]. split; [|split; [reflexivity|intros d E; now destruct (H d)]]. split; [reflexivity|]. intros j Hj. lia.
Qed.
Lemma wr_path lim : forall h i a D es p', hok h -> path (wr_prog lim h i a D) es p' -> wgood h i a (pd_list D) es p'.
Proof.
  induction lim as [|lim IH]; intros h i a D es p' Hok H.
  { apply path_ret in H as [-> ->]. apply wgood_none. discriminate. }
  cbn [wr_prog] in H. destruct (hget h i) as [o|] eqn:Hi; [|apply path_ret in H as [-> ->]; apply wgood_none; discriminate].
  pose proof (zlen_nonneg (pd_list D)) as HD.
  assert (HL : forall regs al segs, o_kind o = KSpace regs al -> incl segs regs -> ForallOrdPairs before segs -> Forall (fun e => 0 <= e_size e) segs ->
    forall es p' a s n, (forall e, In e segs -> a <= e_base e + e_size e) -> 0 <= s -> 0 <= n -> s + n = zlen (pd_list D) ->
    path (sp_write_prog (wr_prog lim h) segs a s n D) es p' ->
    Forall (fun e => is_wr (fst e)) es /\ exists m, 0 <= m <= n /\ decoded h i a m (plocs es) /\ pdata es = zslice (pd_list D) s (s + m) /\
    forall r, p' = PRet (Ok r) -> m = n /\ exists us, map snd es = map (@Ok (list Z)) us).
  { clear es p' a H. intros regs al segs Hk. induction segs as [|e segs IHs]; intros Hin Hord Hpos es p' a s n Hge Hs Hn Hlen H; cbn [sp_write_prog] in H.
    - apply path_ret in H as [-> ->]. split; [constructor|]. exists 0. split; [lia|]. split; [split; [reflexivity|intros; lia]|]. split; [rewrite zslice_empty by lia; reflexivity|].
      intros r E. destruct (0 <? n) eqn:En; [discriminate|]. split; [lia|]. now exists [].
    - destruct (a <? e_base e) eqn:Eb.
      { apply path_ret in H as [-> ->]. split; [constructor|]. exists 0. split; [lia|]. split; [split; [reflexivity|intros; lia]|]. split; [rewrite zslice_empty by lia; reflexivity|]. discriminate. }
      set (sl := Z.min (e_size e - (a - e_base e)) n) in *. change (match e_off e with None => a | Some off => a - e_base e + off end) with (translated e a) in H.
      assert (Hsl : 0 <= sl) by (pose proof (Hge e (or_introl eq_refl)); lia).
      assert (Hzl : zlen (pd_list (pd_slice D s (s + sl))) = sl) by (rewrite pd_list_slice, zslice_length by lia; lia).
      assert (Hdec : forall m ls, 0 <= m <= sl -> decoded h (e_reg e) (translated e a) m ls -> decoded h i a m ls).
      { intros m ls Hm [D1 D2]. split; auto. intros j Hj. destruct (D2 j Hj) as (d & D0). exists (S d). eapply dec_space; eauto; [apply Hin; now left|unfold covers; lia|].
        replace (translated e (a + j)) with (translated e a + j); auto. unfold translated. destruct (e_off e); lia. }
      assert (Hpd : forall m, 0 <= m <= sl -> zslice (pd_list (pd_slice D s (s + sl))) 0 m = zslice (pd_list D) s (s + m)).
      { intros m Hm. rewrite pd_list_slice. unfold zslice. cbn [Z.to_nat skipn]. replace (Z.to_nat 0) with O by lia. cbn [skipn]. rewrite firstn_firstn. f_equal. lia. }
      apply bind_path in H as [(p1 & A & B & C)|(es1 & es2 & d & A & B & C)].
      + destruct (IH _ _ _ _ _ _ Hok A) as (R & m & Hm & D0 & P & _). rewrite Hzl in Hm. split; auto. exists m. split; [lia|]. split; [now apply Hdec|]. split; [now rewrite P, Hpd|].
        intros r E. subst p'. exact (False_ind _ (bind_not_ok p1 _ r C E)).
      + subst es. destruct (IH _ _ _ _ _ _ Hok B) as (R & m & Hm & D0 & P & F). destruct (F d eq_refl) as (Em & us & F1). rewrite Hzl in Em, Hm. subst m.
        inversion Hord as [|? ? Hbe Hord']; subst. inversion Hpos as [|? ? Hpe Hpos']; subst. rewrite Forall_forall in Hbe.
        assert (Hge' : forall y, In y segs -> a + sl <= e_base y + e_size y).
        { intros y Hy. specialize (Hbe y Hy). rewrite Forall_forall in Hpos'. specialize (Hpos' y Hy). unfold before in Hbe. cbn beta in Hpos'. lia. }
        destruct (IHs (fun y Hy => Hin y (or_intror Hy)) Hord' Hpos' _ _ (a + sl) (s + sl) (n - sl) Hge' ltac:(lia) ltac:(lia) ltac:(lia) C) as (R' & m' & Hm' & D' & P' & F').
        split; [apply Forall_app; auto|]. apply Hdec in D0; [|lia]. destruct D0 as [D1 D2], D' as [D1' D2']. exists (sl + m'). split; [lia|]. split; [|split].
        * rewrite plocs_app. split; [rewrite zlen_app; lia|]. intros j Hj. destruct (Z_lt_ge_dec j sl).
          -- rewrite znth_app1 by lia. apply D2. lia.
          -- rewrite znth_app2 by lia. destruct (D2' (j - sl) ltac:(lia)) as (d' & D'). exists d'. rewrite D1. now replace (a + j) with (a + sl + (j - sl)) by lia.
        * rewrite pdata_app, P, P', Hpd by lia. symmetry. rewrite (zslice_split _ s (s + sl) (s + (sl + m'))) by lia. f_equal. f_equal. lia.
        * intros r E. destruct (F' r E) as (-> & us' & E1). split; [lia|]. exists (us ++ us'). now rewrite !map_app, F1, E1. }
  destruct (o_kind o) as [mem|m|p|off al|regs al] eqn:Hk.
  1-3: (destruct (negb (range_ok (o_size o) a (zlen (pd_list D)))) eqn:Er; [apply path_ret in H as [-> ->]; apply wgood_none; discriminate|]; apply negb_false_iff, range_ok_spec in Er;
    inversion H as [|? ? r es' ? H']; subst; [apply wgood_none; discriminate|]; apply path_ret in H' as [-> ->]; split; [repeat constructor|]; exists (zlen (pd_list D)); split; [lia|]; split; [|split];
    [cbn [plocs flat_map acc_locs fst]; rewrite app_nil_r; split; [apply zlocs_len; lia|]; intros j Hj; rewrite zlocs_nth by lia; exists 1%nat; apply (dec_leaf h i (a + j) o); auto; [now rewrite Hk|lia]
    |cbn [pdata flat_map acc_data fst]; now rewrite app_nil_r, zslice_all by lia
    |intros r' E; inversion E; subst; split; auto; exists [r']; auto]).
  - destruct (negb (range_ok (o_size o) a (zlen (pd_list D)))) eqn:Er; [apply path_ret in H as [-> ->]; apply wgood_none; discriminate|]. apply negb_false_iff, range_ok_spec in Er.
    destruct (o_parent o) as [pa|] eqn:Hp; [|apply path_ret in H as [-> ->]; apply wgood_none; discriminate].
    destruct (IH _ _ _ _ _ _ Hok H) as (R & m & Hm & [D1 D2] & F). split; auto. exists m. split; auto. split; auto. split; auto. intros j Hj. destruct (D2 j Hj) as (d & D0). exists (S d).
    eapply dec_window; eauto; [lia|]. now replace (a + j + off) with (a + off + j) by lia.
  - pose proof (hok_get _ _ _ Hok Hi) as Ho. unfold okobj in Ho. rewrite Hk in Ho.
    destruct (find_regions (o_size o) regs a (zlen (pd_list D))) as [[|e segs]|] eqn:Ef; try (apply path_ret in H as [-> ->]; apply wgood_none; discriminate).
    pose proof (find_incl _ _ _ _ _ Ef) as Hincl. pose proof (find_before _ _ _ _ _ Ho Ef) as Hord.
    refine (HL regs al (e :: segs) eq_refl Hincl Hord _ es p' a 0 (zlen (pd_list D)) _ _ _ _ H); try lia.
    + apply Forall_forall. intros y Hy. apply Hincl in Hy. destruct Ho as [Ho _]. rewrite Forall_forall in Ho. apply Ho in Hy. lia.
    + intros y Hy. apply (find_In _ _ _ _ _ y) in Ef. destruct Ef as (_ & _ & Ef). apply Ef in Hy. lia.
Qed.

(** ** the machine *)
Definition evs (log : list event) : list (acc * res (list Z)) := map (fun e => (ev_acc e, ev_ans e)) log.
Lemma plocs_evs log : plocs (evs log) = locs_of log.
Proof. unfold plocs, evs, locs_of. induction log as [|e log IH]; cbn; auto. now rewrite IH. Qed.
Lemma pdata_evs log : pdata (evs log) = data_of log.
Proof. unfold pdata, evs, data_of. induction log as [|e log IH]; cbn; auto. now rewrite IH. Qed.
Lemma ans_evs log : map snd (evs log) = map ev_ans log.
Proof. unfold evs. rewrite map_map. reflexivity. Qed.
Lemma mine_app t l1 l2 : mine t (l1 ++ l2) = mine t l1 ++ mine t l2.
Proof. apply filter_app. Qed.

Lemma seqrun_app cs1 : forall h cs2, seqrun h (cs1 ++ cs2) = let '(h1, r1) := seqrun h cs1 in let '(h2, r2) := seqrun h1 cs2 in (h2, r1 ++ r2).
Proof.
  induction cs1 as [|c cs1 IH]; intros h cs2; cbn [seqrun app]; [now destruct (seqrun h cs2)|].
  destruct (exec h c) as [h1 r]. rewrite IH. destruct (seqrun h1 cs1) as [h2 r1]. now destruct (seqrun h2 cs2).
Qed.
Lemma seqrun_shape cs : forall h, hok h -> hskel (fst (seqrun h cs)) = hskel h /\ hok (fst (seqrun h cs)).
Proof.
  induction cs as [|c cs IH]; intros h Hok; cbn [seqrun]; [auto|]. destruct (exec_shape h c Hok) as [H1 H2]. destruct (exec h c) as [h1 r]. cbn [fst] in *.
  destruct (IH h1 H2) as [H3 H4]. destruct (seqrun h1 cs). cbn [fst] in *. split; auto. congruence.
Qed.
Lemma crun_seq lim hist : forall y y' l, crun lim y hist = (y', l) -> seqrun (c_h y) (map ev_acc l) = (c_h y', map ev_ans l).
Proof.
  induction hist as [|o hist IH]; intros y y' l E; cbn [crun] in E.
  - apply pair_equal_spec in E as [<- <-]. reflexivity.
  - destruct (cstep lim y o) as [y1 l1] eqn:E1. destruct (crun lim y1 hist) as [y2 l2] eqn:E2. apply pair_equal_spec in E as [<- <-].
    assert (H1 : seqrun (c_h y) (map ev_acc l1) = (c_h y1, map ev_ans l1)).
    { destruct o as [c|t]; cbn [cstep] in E1; [apply pair_equal_spec in E1 as [<- <-]; reflexivity|].
      destruct (nth_error (c_ts y) t) as [[r|c k]|]; try (apply pair_equal_spec in E1 as [<- <-]; reflexivity).
      destruct (exec (c_h y) c) as [h' r] eqn:Ee. apply pair_equal_spec in E1 as [<- <-]. cbn. now rewrite Ee. }
    specialize (IH _ _ _ E2). unfold event in *. rewrite !map_app, seqrun_app, H1, IH. reflexivity.
Qed.
Lemma crun_app lim hist1 : forall y hist2, crun lim y (hist1 ++ hist2) = let '(y1, l1) := crun lim y hist1 in let '(y2, l2) := crun lim y1 hist2 in (y2, l1 ++ l2).
Proof.
  induction hist1 as [|o hist1 IH]; intros y hist2; cbn [crun app]; [now destruct (crun lim y hist2)|].
  destruct (cstep lim y o) as [y1 l1]. rewrite IH. destruct (crun lim y1 hist1) as [y2 l2]. destruct (crun lim y2 hist2). now rewrite app_assoc.
Qed.

Lemma call_prog_same lim h h' c : hskel h = hskel h' -> psame (call_prog lim h c) (call_prog lim h' c).
Proof. destruct c; cbn; intros; [now apply rd_prog_same|now apply wr_prog_same]. Qed.

Record cinv (lim : nat) (h0 : heap) (cs : list ccall) (y : cst) (log : list event) : Prop := {
  v_ok : hok (c_h y);
  v_sk : hskel (c_h y) = hskel h0;
  v_len : length (c_ts y) = length cs;
  v_ids : Forall (fun e => (ev_call e < length cs)%nat) log;
  v_path : forall t c, nth_error cs t = Some c -> exists p p', nth_error (c_ts y) t = Some p /\ path (call_prog lim h0 c) (evs (mine t log)) p' /\ psame p' p }.

Lemma set_nth_len {A} (l : list A) n a : length (set_nth l n a) = length l.
Proof. revert n. induction l as [|b l IH]; intros [|n]; cbn; auto. Qed.
Lemma set_nth_at {A} (l : list A) n a b : nth_error l n = Some b -> nth_error (set_nth l n a) n = Some a.
Proof. revert n. induction l as [|c l IH]; intros [|n] H; cbn in *; try discriminate; auto. Qed.
Lemma set_nth_other {A} (l : list A) n m a : n <> m -> nth_error (set_nth l n a) m = nth_error l m.
Proof. revert n m. induction l as [|c l IH]; intros [|n] [|m] H; cbn in *; auto; try congruence. Qed.
Lemma mine_none t log n : Forall (fun e => (ev_call e < n)%nat) log -> (n <= t)%nat -> mine t log = [].
Proof. intros H Hn. induction H as [|e log He H IH]; cbn; auto. unfold mine in *. destruct (Nat.eqb_spec (ev_call e) t); [lia|auto]. Qed.

Lemma cinv_init lim h0 : hok h0 -> cinv lim h0 [] (c_init h0) [].
Proof. intros H. constructor; cbn; auto. intros [|t] c E; discriminate E. Qed.
Lemma cinv_step lim h0 cs y log o : cinv lim h0 cs y log -> cinv lim h0 (cs ++ calls [o]) (fst (cstep lim y o)) (log ++ snd (cstep lim y o)).
Proof.
  intros [V1 V2 V3 V4 V5]. destruct o as [c|t]; cbn [cstep calls flat_map app fst snd].
  - rewrite app_nil_r. constructor; cbn [c_h c_ts]; auto.
    + rewrite !app_length. cbn. lia.
    + eapply Forall_impl; [|exact V4]. cbn beta. intros. rewrite app_length. lia.
    + intros t c' E. destruct (Nat.lt_ge_cases t (length cs)) as [Ht|Ht].
      * rewrite nth_error_app1 in E by auto. rewrite nth_error_app1 by lia. auto.
      * rewrite nth_error_app2 in E by auto. rewrite nth_error_app2 by lia. rewrite V3. destruct (t - length cs)%nat as [|k] eqn:Ek; cbn in E; [|destruct k; discriminate]. inversion E; subst c'.
        exists (call_prog lim (c_h y) c), (call_prog lim h0 c). split; [reflexivity|]. rewrite (mine_none t log (length cs) V4 Ht). split; [constructor|]. now apply call_prog_same.
  - rewrite app_nil_r. destruct (nth_error (c_ts y) t) as [[r|c k]|] eqn:Et; cbn [fst snd]; rewrite ?app_nil_r; try (now constructor).
    destruct (exec_shape (c_h y) c V1) as [S1 S2]. destruct (exec (c_h y) c) as [h' r] eqn:Ee. cbn [fst snd] in *. constructor; cbn [c_h c_ts]; auto.
    + congruence.
    + now rewrite set_nth_len.
    + apply Forall_app. split; auto. constructor; [|constructor]. cbn. rewrite <- V3. apply nth_error_Some. congruence.
    + intros t' c' E. destruct (V5 t' c' E) as (p & p' & A & B & C). rewrite mine_app. cbn [mine filter ev_call fst]. destruct (Nat.eqb_spec t t') as [<-|Hn].
      * rewrite Et in A. inversion A; subst p. inversion C as [|c0 k0 k1 Hk]; subst. exists (k r), (k0 r). split; [eapply set_nth_at; eauto|]. split; [|apply Hk].
        unfold evs. rewrite map_app. cbn [map ev_acc ev_ans fst snd]. exact (path_snoc _ _ _ _ r B).
      * exists p, p'. rewrite app_nil_r, set_nth_other by auto. auto.
Qed.
Lemma cinv_run lim h0 hist : forall cs y log, cinv lim h0 cs y log -> cinv lim h0 (cs ++ calls hist) (fst (crun lim y hist)) (log ++ snd (crun lim y hist)).
Proof.
  induction hist as [|o hist IH]; intros cs y log V; cbn [crun].
  - cbn. now rewrite !app_nil_r.
  - pose proof (cinv_step lim h0 cs y log o V) as V1. destruct (cstep lim y o) as [y1 l1]. cbn [fst snd] in V1. specialize (IH _ _ _ V1). destruct (crun lim y1 hist) as [y2 l2]. cbn [fst snd] in *.
    rewrite <- !app_assoc in IH. replace (calls (o :: hist)) with (calls [o] ++ calls hist); [exact IH|]. unfold calls. cbn [flat_map]. now rewrite app_nil_r.
Qed.
Lemma cinv_all lim h0 hist y log : hok h0 -> crun lim (c_init h0) hist = (y, log) -> cinv lim h0 (calls hist) y log.
Proof. intros Hok E. pose proof (cinv_run lim h0 hist [] (c_init h0) [] (cinv_init lim h0 Hok)) as H. rewrite E in H. exact H. Qed.

Lemma psame_ret p r : psame p (PRet r) -> p = PRet r.
Proof. intros H. inversion H. reflexivity. Qed.

(** what the calls have done *)
Definition rdone (h : heap) (i : nat) (a n : Z) (es : list event) (p : prog) : Prop :=
  Forall (fun e => is_rd (ev_acc e)) es /\
  exists m, 0 <= m <= Z.max n 0 /\ decoded h i a m (locs_of es) /\
    forall data, p = PRet (Ok data) -> 0 <= n /\ m = n /\ exists ds, map ev_ans es = map (@Ok (list Z)) ds /\ data = concat ds.
Definition wdone (h : heap) (i : nat) (a : Z) (D : list Z) (es : list event) (p : prog) : Prop :=
  Forall (fun e => is_wr (ev_acc e)) es /\
  exists m, 0 <= m <= zlen D /\ decoded h i a m (locs_of es) /\ data_of es = zslice D 0 m /\
    forall r, p = PRet (Ok r) -> m = zlen D /\ exists us, map ev_ans es = map (@Ok (list Z)) us.
Lemma call_done lim h0 cs y log t c : hok h0 -> cinv lim h0 cs y log -> nth_error cs t = Some c -> exists p, nth_error (c_ts y) t = Some p /\
  match c with RCall i a n => rdone h0 i a n (mine t log) p | WCall i a d => wdone h0 i a (pd_list d) (mine t log) p end.
Proof.
  intros Hok V E. destruct (v_path _ _ _ _ _ V t c E) as (p & p' & A & B & C). exists p. split; auto. destruct c as [i a n|i a d]; cbn [call_prog] in B.
  - apply rd_path in B; auto. destruct B as (R & m & Hm & D & F). split.
    + unfold evs in R. rewrite Forall_map in R. exact R.
    + exists m. rewrite plocs_evs in D. split; auto. split; auto. intros data ->. apply psame_ret in C. rewrite ans_evs in F. auto.
  - apply wr_path in B; auto. destruct B as (R & m & Hm & D & P & F). split.
    + unfold evs in R. rewrite Forall_map in R. exact R.
    + exists m. rewrite plocs_evs in D. rewrite pdata_evs in P. split; auto. split; auto. split; auto. intros data ->. apply psame_ret in C. rewrite ans_evs in F. eauto.
Qed.

(** ** what the accesses do to the memories *)
Lemma in_zlocs l' x' l x n : In (l', x') (zlocs l x n) <-> l' = l /\ x <= x' < x + n.
Proof.
  unfold zlocs. rewrite in_map_iff. split.
  - intros (y & E & H). inversion E; subst. apply in_zrange in H. split; auto; lia.
  - intros [-> H]. exists x'. split; auto. apply in_zrange. lia.
Qed.
Lemma stores_at i : forall data c a l x, stores c (run_locs i a (length data)) data l x =
    if Nat.eqb i l && (a <=? x) && (x <? a + zlen data) then match c i x with Some _ => Some (znth 0 data (x - a)) | None => None end else c l x.
Proof.
  induction data as [|b data IH]; intros c a l x.
  - cbn [stores run_locs length zseq map]. change (zlen (@nil Z)) with 0. replace (Nat.eqb i l && (a <=? x) && (x <? a + 0)) with false by lia. reflexivity.
  - unfold run_locs. cbn [length zseq map stores]. fold (run_locs i (a + 1) (length data)). rewrite zlen_cons in *. pose proof (zlen_nonneg data). rewrite IH.
    unfold store. destruct (Nat.eqb_spec i l) as [->|Hn]; cbn [andb]; [|reflexivity]. rewrite Nat.eqb_refl. cbn [andb]. destruct (Z.eq_dec a x) as [->|Hx].
    + replace ((x + 1 <=? x) && (x <? x + 1 + zlen data)) with false by lia. replace ((x <=? x) && (x <? x + (1 + zlen data))) with true by lia.
      rewrite Z.eqb_refl. replace (x - x) with 0 by lia. now rewrite znth_cons0.
    + replace (a =? x) with false by lia. destruct ((a + 1 <=? x) && (x <? a + 1 + zlen data)) eqn:E.
      * replace ((a <=? x) && (x <? a + (1 + zlen data))) with true by lia. rewrite znth_cons by lia. now replace (x - a - 1) with (x - (a + 1)) by lia.
      * replace ((a <=? x) && (x <? a + (1 + zlen data))) with false by lia. reflexivity.
Qed.
Lemma decodes_one h d i a l x : (d <= 1)%nat -> decodes h d i a l x -> l = i /\ x = a.
Proof. intros Hd H. inversion H as [|? ? ? ? ? ? ? ? ? ? ? ? ? D|? ? ? ? ? ? ? ? ? ? ? ? ? D]; subst; auto; inversion D; subst; lia. Qed.

Lemma exec_rd h l x n h' r : hok h -> exec h (RdA l x n) = (h', r) ->
  (forall l' x', content h' l' x' = content h l' x') /\
  (lawful h -> forall d, r = Ok d -> 0 <= n /\ zlen d = n /\ forall j b, 0 <= j < n -> content h l (x + j) = Some b -> znth 0 d j = b).
Proof.
  intros Hok E. cbn [exec] in E. destruct (rd_obj_sound 1 _ _ _ _ _ _ Hok E) as [Hs H]. split; [intros; now apply content_strip|].
  intros HL d Ed. destruct (H d Ed HL) as (Hn & Hz & HB). split; auto. split; auto. intros j b Hj Hb. destruct (HB j Hj) as (dd & l' & x' & D & Hd & C).
  apply decodes_one in D as [-> ->]; auto. destruct C as [C|C]; congruence.
Qed.
Lemma exec_wr h l x d h' r : hok h -> are_bytes (pd_list d) -> exec h (WrA l x d) = (h', r) ->
  (forall l' x', ~ In (l', x') (zlocs l x (zlen (pd_list d))) -> content h' l' x' = content h l' x') /\
  (forall u, r = Ok u -> forall j, 0 <= j < zlen (pd_list d) -> content h l (x + j) <> None -> content h' l (x + j) = Some (znth 0 (pd_list d) j)) /\
  (forall l' x', content h l' x' <> None -> content h' l' x' <> None).
Proof.
  intros Hok Hb E. cbn [exec] in E. destruct (wr_obj 1 h l x d) as [h1 r1] eqn:E1. apply pair_equal_spec in E as [-> Er].
  destruct (wr_obj_sound 1 h l x d h' r1 Hok Hb E1) as (_ & _ & locs & Hle & Hf & HD & HC).
  assert (El : locs = run_locs l x (length locs)).
  { apply (nth_ext _ _ (O, 0) (O, 0)); [unfold run_locs; now rewrite map_length, zseq_length|]. intros k Hk. destruct (HD (Z.of_nat k) ltac:(unfold zlen; lia)) as (dd & Hd & D).
    apply decodes_one in D as [D1 D2]; auto. unfold znth, dloc in D1, D2. rewrite Nat2Z.id in D1, D2. unfold run_locs. rewrite (nth_indep (map (fun y => (l, y)) (zseq x (length locs))) (O, 0) ((fun y => (l, y)) 0)) by (rewrite map_length, zseq_length; lia).
    rewrite map_nth, zseq_nth by lia. destruct (nth k locs (O, 0)); cbn in *. subst. reflexivity. }
  assert (HC' : forall l' x', content h' l' x' = if Nat.eqb l l' && (x <=? x') && (x' <? x + zlen locs) then match content h l x' with Some _ => Some (znth 0 (pd_list d) (x' - x)) | None => None end else content h l' x').
  { intros l' x'. assert (HC2 : content h' l' x' = stores (content h) (run_locs l x (length locs)) (pd_list d) l' x') by (rewrite <- El; apply HC). rewrite HC2. clear HC HC2 HD Hf El.
    rewrite <- (firstn_skipn (length locs) (pd_list d)) at 1. rewrite stores_firstn by (unfold run_locs; rewrite map_length, zseq_length, firstn_length; lia).
    replace (length locs) with (length (firstn (length locs) (pd_list d))) at 1 by (rewrite firstn_length; lia). rewrite stores_at.
    assert (Ez : zlen (firstn (length locs) (pd_list d)) = zlen locs) by (unfold zlen; rewrite firstn_length; lia). rewrite Ez.
    destruct (Nat.eqb l l' && (x <=? x') && (x' <? x + zlen locs)) eqn:Ec; auto. destruct (content h l x'); auto. f_equal.
    unfold znth. rewrite <- (firstn_skipn (length locs) (pd_list d)) at 2. rewrite app_nth1; auto. rewrite firstn_length. unfold zlen in *. lia. }
  split; [|split].
  - intros l' x' Hn. rewrite HC'. destruct (Nat.eqb l l' && (x <=? x') && (x' <? x + zlen locs)) eqn:Ec; auto. exfalso. apply Hn. apply in_zlocs.
    rewrite !andb_true_iff in Ec. destruct Ec as [[Ec1 Ec2] Ec3]. apply Nat.eqb_eq in Ec1. split; auto. unfold zlen in *. lia.
  - intros u -> j Hj Hc. destruct r1 as [[]|]; [|discriminate]. specialize (Hf eq_refl). rewrite HC'. replace (Nat.eqb l l) with true by (symmetry; apply Nat.eqb_refl). unfold zlen in *. rewrite Hf.
    replace (true && (x <=? x + j) && (x + j <? x + Z.of_nat (length (pd_list d)))) with true by lia. destruct (content h l (x + j)); [|congruence]. f_equal. f_equal. lia.
  - intros l' x' Hn. rewrite HC'. destruct (Nat.eqb l l' && (x <=? x') && (x' <? x + zlen locs)) eqn:Ec; auto. rewrite !andb_true_iff in Ec. destruct Ec as [[Ec1 _] _]. apply Nat.eqb_eq in Ec1. subst l'.
    destruct (content h l x'); [discriminate|auto].
Qed.

Definition bytes_acc (c : acc) : Prop := are_bytes (acc_data c).
Lemma exec_keep h c l x : hok h -> bytes_acc c -> ~ (is_wr c /\ In (l, x) (acc_locs c)) -> content (fst (exec h c)) l x = content h l x.
Proof.
  intros Hok Hb Hn. destruct (exec h c) as [h' r] eqn:E. cbn [fst]. destruct c as [l' x' n|l' x' d].
  - apply exec_rd in E; auto. apply E.
  - apply exec_wr in E; auto. apply E. intros Hin. apply Hn. split; [exact I|auto].
Qed.
Lemma seq_keep log : forall h h' l x, hok h -> seqrun h (map ev_acc log) = (h', map ev_ans log) -> Forall (fun e => bytes_acc (ev_acc e)) log -> (forall e, In e log -> ~ writes_to e l x) ->
  content h' l x = content h l x.
Proof.
  induction log as [|e log IH]; intros h h' l x Hok E Hb Hn; cbn [map seqrun] in E.
  - apply pair_equal_spec in E as [-> _]. reflexivity.
  - inversion Hb as [|? ? Hb1 Hb2]; subst. destruct (exec_shape h (ev_acc e) Hok) as [_ Hok1]. pose proof (exec_keep h (ev_acc e) l x Hok Hb1 (Hn e (or_introl eq_refl))) as K.
    destruct (exec h (ev_acc e)) as [h1 r]. destruct (seqrun h1 (map ev_acc log)) as [h2 rs] eqn:E2. cbn [fst] in *. apply pair_equal_spec in E as [-> E]. inversion E; subst.
    rewrite (IH h1 h' l x Hok1 E2 Hb2); auto. intros e' He'. apply Hn. now right.
Qed.
Lemma log_at log : forall h h' la e lb, seqrun h (map ev_acc log) = (h', map ev_ans log) -> log = la ++ e :: lb ->
  exists h1 h2, seqrun h (map ev_acc la) = (h1, map ev_ans la) /\ exec h1 (ev_acc e) = (h2, ev_ans e) /\ seqrun h2 (map ev_acc lb) = (h', map ev_ans lb).
Proof.
  intros h h' la e lb E ->. rewrite !map_app, seqrun_app in E. cbn [map seqrun] in E. destruct (seqrun h (map ev_acc la)) as [h1 r1] eqn:E1. destruct (exec h1 (ev_acc e)) as [h2 r2] eqn:E2.
  destruct (seqrun h2 (map ev_acc lb)) as [h3 r3] eqn:E3. apply pair_equal_spec in E as [-> E]. assert (Hl : length r1 = length (map ev_ans la)).
  { clear - E1. revert h h1 r1 E1. induction la as [|e la IH]; intros h h1 r1 E1; cbn [map seqrun] in E1; [apply pair_equal_spec in E1 as [_ <-]; reflexivity|].
    destruct (exec h (ev_acc e)) as [h2 r]. destruct (seqrun h2 (map ev_acc la)) as [h3 rs] eqn:E. apply pair_equal_spec in E1 as [_ <-]. cbn. f_equal. rewrite (IH _ _ _ E). reflexivity. }
  assert (E' : r1 = map ev_ans la /\ r2 :: r3 = ev_ans e :: map ev_ans lb).
  { clear - E Hl. revert E Hl. generalize (map ev_ans la) as u. induction r1 as [|a r1 IH]; intros [|b u] E Hl; cbn in *; try discriminate; auto.
    inversion E; subst. destruct (IH u) as [-> Q]; auto. }
  destruct E' as [-> E']. inversion E'; subst. exists h1, h2. auto.
Qed.

Lemma exec_some h c l x : hok h -> bytes_acc c -> content h l x <> None -> content (fst (exec h c)) l x <> None.
Proof.
  intros Hok Hb Hn. destruct (exec h c) as [h' r] eqn:E. cbn [fst]. destruct c as [l' x' n|l' x' d].
  - apply exec_rd in E; auto. destruct E as [-> _]. auto.
  - apply exec_wr in E; auto. destruct E as (_ & _ & E). auto.
Qed.
Lemma seq_some cs : forall h l x, hok h -> Forall bytes_acc cs -> content h l x <> None -> content (fst (seqrun h cs)) l x <> None.
Proof.
  induction cs as [|c cs IH]; intros h l x Hok Hb Hn; cbn [seqrun]; auto. inversion Hb; subst. destruct (exec_shape h c Hok) as [_ Hok1]. pose proof (exec_some h c l x Hok ltac:(auto) Hn) as K.
  destruct (exec h c) as [h1 r]. cbn [fst] in *. specialize (IH h1 l x Hok1 ltac:(auto) K). now destruct (seqrun h1 cs).
Qed.

Lemma rd_index es : forall ds, Forall (fun e => is_rd (ev_acc e)) es -> map ev_ans es = map (@Ok (list Z)) ds ->
  (forall e l x n d, In e es -> ev_acc e = RdA l x n -> ev_ans e = Ok d -> 0 <= n /\ zlen d = n) ->
  zlen (concat ds) = zlen (locs_of es) /\
  forall j, 0 <= j < zlen (locs_of es) -> exists e l x n d k, In e es /\ ev_acc e = RdA l x n /\ ev_ans e = Ok d /\ 0 <= k < n /\
    znth (O, 0) (locs_of es) j = (l, x + k) /\ znth 0 (concat ds) j = znth 0 d k.
Proof.
  induction es as [|e es IH]; intros [|d ds] HR HA HL; cbn [map] in HA; try discriminate.
  - split; [reflexivity|]. cbn. intros j Hj. change (zlen (@nil (nat * Z))) with 0 in Hj. lia.
  - inversion HR as [|? ? R1 R2]; subst. inversion HA as [[A1 A2]]. destruct (IH ds R2 A2) as [I1 I2]; [intros; eapply HL; eauto; now right|].
    destruct (ev_acc e) as [l x n|] eqn:Ee; [|destruct R1]. destruct (HL e l x n d (or_introl eq_refl) Ee A1) as [Hn Hd].
    cbn [locs_of flat_map concat]. rewrite Ee. cbn [acc_locs]. fold (locs_of es). rewrite !zlen_app, zlocs_len by lia. split; [lia|]. intros j Hj. destruct (Z_lt_ge_dec j n) as [Hjn|Hjn].
    + exists e, l, x, n, d, j. rewrite !znth_app1 by (rewrite ?zlocs_len; lia). rewrite zlocs_nth by lia. repeat split; auto; try lia. now left.
    + destruct (I2 (j - n) ltac:(lia)) as (e' & l' & x' & n' & d' & k & B1 & B2 & B3 & B4 & B5 & B6). exists e', l', x', n', d', k.
      rewrite !znth_app2 by (rewrite ?zlocs_len; lia). rewrite zlocs_len, Hd by lia. repeat split; auto; try lia. now right.
Qed.
Lemma wr_index es : Forall (fun e => is_wr (ev_acc e)) es ->
  forall j, 0 <= j < zlen (locs_of es) -> exists e l x d k, In e es /\ ev_acc e = WrA l x d /\ 0 <= k < zlen (pd_list d) /\
    znth (O, 0) (locs_of es) j = (l, x + k) /\ znth 0 (data_of es) j = znth 0 (pd_list d) k.
Proof.
  induction es as [|e es IH]; intros HR j Hj.
  - cbn in Hj. change (zlen (@nil (nat * Z))) with 0 in Hj. lia.
  - inversion HR as [|? ? R1 R2]; subst. destruct (ev_acc e) as [|l x d] eqn:Ee; [destruct R1|]. pose proof (zlen_nonneg (pd_list d)) as Hn.
    cbn [locs_of data_of flat_map] in *. rewrite Ee in *. cbn [acc_locs acc_data] in *. fold (locs_of es) in *. fold (data_of es). rewrite !zlen_app, zlocs_len in Hj by lia. destruct (Z_lt_ge_dec j (zlen (pd_list d))) as [Hjn|Hjn].
    + exists e, l, x, d, j. rewrite !znth_app1 by (rewrite ?zlocs_len; lia). rewrite zlocs_nth by lia. repeat split; auto; try lia. now left.
    + destruct (IH R2 (j - zlen (pd_list d)) ltac:(lia)) as (e' & l' & x' & d' & k & B1 & B2 & B3 & B4 & B5). exists e', l', x', d', k.
      rewrite !znth_app2 by (rewrite ?zlocs_len; lia). rewrite zlocs_len by lia. repeat split; auto; try lia. now right.
Qed.

Lemma in_mine t e log : In e (mine t log) <-> In e log /\ ev_call e = t.
Proof. unfold mine. rewrite filter_In, Nat.eqb_eq. tauto. Qed.
Lemma log_bytes lim h0 cs y log : hok h0 -> cinv lim h0 cs y log -> byte_calls cs -> Forall (fun e => bytes_acc (ev_acc e)) log.
Proof.
  intros Hok V HB. apply Forall_forall. intros e He. pose proof (v_ids _ _ _ _ _ V) as Hi. rewrite Forall_forall in Hi. specialize (Hi e He). cbn beta in Hi.
  destruct (nth_error cs (ev_call e)) as [c|] eqn:Ec; [|apply nth_error_None in Ec; lia]. destruct (call_done lim h0 cs y log _ c Hok V Ec) as (p & _ & D).
  assert (Hm : In e (mine (ev_call e) log)) by now apply in_mine. destruct c as [i a n|i a d].
  - destruct D as [D _]. rewrite Forall_forall in D. specialize (D e Hm). cbn beta in D. unfold bytes_acc. destruct (ev_acc e); [constructor|destruct D].
  - destruct D as (_ & m & Hmm & _ & D & _). assert (Hd : are_bytes (data_of (mine (ev_call e) log))).
    { rewrite D. specialize (HB i a d (nth_error_In _ _ Ec)). apply Forall_forall. unfold are_bytes in HB. rewrite Forall_forall in HB. intros b Hb. apply HB. unfold zslice in Hb.
      rewrite <- (firstn_skipn (Z.to_nat 0) (pd_list d)). apply in_or_app. right. set (u := skipn (Z.to_nat 0) (pd_list d)) in *.
      rewrite <- (firstn_skipn (Z.to_nat (m - 0)) u). apply in_or_app. now left. }
    unfold bytes_acc, are_bytes in *. apply Forall_forall. rewrite Forall_forall in Hd. intros b Hb. apply Hd. unfold data_of. apply in_flat_map. eauto.
Qed.
