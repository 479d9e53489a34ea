(** C86: an APB slave whose target takes time *)
From Coq Require Import ZArith Lia List Bool.
From Coq Require Import ZifyBool ZifyNat.
From Verif Require Import Py S_flat M_sparse S_sparse M_memory P_memory M_axi S_axi P_axi P_axiram M_axil S_axil P_axil M_apb S_apb P_apb P_apbsys P_apbmem T_apb M_apbblk S_apbblk P_apbblk.
Import ListNotations.
Open Scope Z_scope.

Lemma done_nth {A} (done : list A) x rest : nth_error (done ++ x :: rest) (length done) = Some x.
Proof. rewrite nth_error_app2, Nat.sub_diag by lia. reflexivity. Qed.
Lemma word_calls_owd L w k data : 0 < L -> are_bytes (lc_data w) -> 0 <= k < ac_cycles L (ACW w) -> to_bytes (pw_data (owd L (ACW w) k)) L Little = Ok data ->
  word_calls L (ACW w) (Z.to_nat k) = sw_ops (pw_addr (owd L (ACW w) k) / L * L) data (pw_strb (owd L (ACW w) k)) (zrange 0 L) 0 None.
Proof.
  destruct w as [A D p]. cbn [lc_data]. intros HL HD Hk E. unfold word_calls. rewrite lite_write_spec by auto. cbn [fst]. rewrite law_of_pairs, lw_of_pairs, !nth_error_map.
  unfold ac_cycles in Hk. cbn [ac_addr ac_len lc_addr lc_data] in Hk.
  assert (En : nth_error (zrange 0 (lite_cycles L A (zlen D))) (Z.to_nat k) = Some k).
  { rewrite (zrange_split 0 k) by lia. rewrite nth_error_app2 by (rewrite zrange_length; lia). rewrite zrange_length.
    replace (Z.to_nat k - Z.to_nat (k - 0))%nat with O by lia. rewrite (zrange_cons k) by lia. reflexivity. }
  rewrite En. cbn [option_map owd pw_data pw_addr pw_strb lc_addr lc_data lc_prot] in *. rewrite E. reflexivity.
Qed.
Lemma sw_ops_len wd data strb is : forall i so, (length (sw_ops wd data strb is i so) <= length is + match so with Some _ => 1 | None => 0 end)%nat.
Proof.
  induction is as [|l is IH]; intros i so; cbn [sw_ops length].
  - destruct so as [s|]; [destruct (i =? s)|]; cbn; lia.
  - destruct (Z.testbit strb l).
    + specialize (IH (i + 1) (match so with None => Some i | Some s => Some s end)). destruct so; cbv iota in *; lia.
    + rewrite app_length. specialize (IH (i + 1) None). cbv iota in IH. destruct so as [s|]; [destruct (i =? s)|]; cbn [length]; cbv iota; lia.
Qed.
Section Facts.
Context {T : Type} (tw : T -> Z -> list Z -> T * res unit) (tr : T -> Z -> Z -> T * res (list Z)) (L : Z) (ep : bool) (t0 : T) (HL : 0 < L).
Local Notation serve := (serve_all tw tr L ep t0).

Lemma done_prefix ops se done rest t1 : serve done = (t1, se) -> ops = done ++ rest ->
  se = firstn (length done) (snd (serve ops)) /\ fst (serve (firstn (length done) ops)) = t1 /\ (length done <= length ops)%nat.
Proof.
  intros Hs ->. rewrite serve_all_app, Hs. destruct (serve_all tw tr L ep t1 rest) as [t2 r2]. cbn [snd].
  pose proof (serve_all_len L ep tw tr done t0) as Hl. rewrite Hs in Hl. cbn [snd] in Hl. rewrite <- Hl at 1.
  rewrite firstn_app, firstn_all, Nat.sub_diag, firstn_O, app_nil_r. split; [auto|].
  rewrite firstn_app, firstn_all, Nat.sub_diag, firstn_O, app_nil_r, Hs. split; auto. rewrite app_length. lia.
Qed.

Lemma sinv_system y ops se : sinv L ep tw tr t0 y ops se ->
  exists n j, (n <= length ops)%nat /\ se = firstn n (snd (serve ops)) /\
    v_t (k_s y) = match nth_error ops n with Some x => apb_part tw tr L (fst (serve (firstn n ops))) (snd x) j | None => fst (serve ops) end.
Proof.
  intros Hi. destruct y as [m v]. destruct Hi as (Hok & _ & [(H1 & H2 & done & t1 & Hs & Hm)|(done & t1 & r & Hs & Ht & Hops & Hw & Hm)]); cbn [k_m k_s] in *.
  - assert (Hq : forall q, ops = done ++ q -> v_t v = t1 -> exists n j, (n <= length ops)%nat /\ se = firstn n (snd (serve ops)) /\
      v_t v = match nth_error ops n with Some x => apb_part tw tr L (fst (serve (firstn n ops))) (snd x) j | None => fst (serve ops) end).
    { intros q Hops Hv. destruct (done_prefix ops se done q t1 Hs Hops) as (G1 & G2 & G3). exists (length done), O. split; [exact G3|]. split; [exact G1|]. rewrite G2, Hv.
      destruct q as [|x q]; [|rewrite Hops, done_nth; destruct (snd x); reflexivity].
      rewrite app_nil_r in Hops. rewrite Hops, (proj2 (nth_error_None done _)), Hs by lia. reflexivity. }
    assert (Hp : forall r q, ops = done ++ ru_op r :: q -> at_word L ep tw tr r t1 (v_t v) -> exists n j, (n <= length ops)%nat /\ se = firstn n (snd (serve ops)) /\
      v_t v = match nth_error ops n with Some x => apb_part tw tr L (fst (serve (firstn n ops))) (snd x) j | None => fst (serve ops) end).
    { intros r q Hops (Hx & Hkk & _ & _ & d & rs & Hp & _). destruct (done_prefix ops se done _ t1 Hs Hops) as (G1 & G2 & G3). exists (length done), (Z.to_nat (ru_k r)).
      split; [exact G3|]. split; [exact G1|]. rewrite G2, Hops, done_nth. symmetry. eapply prog_part; eauto. lia. }
    destruct (b_task m) as [| | |x|r|r|r|]; try (destruct Hm; fail).
    + destruct Hm as (Hops & Hv & _). eauto.
    + destruct Hm as (Hops & Hv & _). eauto.
    + destruct Hm as (Hops & Hv & _). eauto.
    + destruct Hm as (Hops & Ha & _). eauto.
    + destruct Hm as (Hops & Ha & _). eauto.
  - destruct (done_prefix ops se done _ t1 Hs Hops) as (G1 & G2 & G3).
    destruct Hm as [(_ & _ & (Hx & Hkk & _ & _ & d & rs & Hp & _))|(_ & _ & tk & x & e & (Hx & Hkk & _ & Hwd & d & rs & Hp & _) & Hacc & _)].
    + exists (length done), (Z.to_nat (ru_k r)). split; [exact G3|]. split; [exact G1|]. rewrite G2, Hops, done_nth. symmetry. eapply prog_part; eauto. lia.
    + exists (length done), (Z.to_nat (ru_k r + 1)). split; [exact G3|]. split; [exact G1|]. rewrite G2, Hops, done_nth.
      destruct (prog_S L HL tw tr _ _ _ _ _ _ Hx Hkk Hp) as (t2 & x' & e' & Hacc' & Hp' & _). rewrite <- Hwd, Hacc in Hacc'.
      injection Hacc' as <- <- <-. symmetry. eapply prog_part; eauto. lia.
Qed.

End Facts.

(** Master and slave, any interleaving with any pauses, any target that takes any time for its accesses: the completed operations are the first ones issued, their results
    are those of serving the operations one after the other; the target's state is that of serving them, of some words of the next operation and, while the slave
    waits for the target, of the first accesses of its next word. *)
Theorem C86_system : forall T (tw : T -> Z -> list Z -> T * res unit) tr L ep t0 h, 0 < L -> Forall gno_reset h -> Forall gop_ok h ->
  let '(y, o) := g_run tw tr L ep (gsys0 t0) h in
  exists n j,
    (n <= length (starts o))%nat /\
    sets o = firstn n (snd (serve_all tw tr L ep t0 (starts o))) /\
    match nth_error (starts o) n with
    | Some x => exists pre rest, g_t (g_s y) = fst (sw_perform tw (apb_part tw tr L (fst (serve_all tw tr L ep t0 (firstn n (starts o)))) (snd x) j) pre) /\
                  (if working y then word_calls L (snd x) j = pre ++ rest else pre = [])
    | None => working y = false /\ g_t (g_s y) = fst (serve_all tw tr L ep t0 (starts o))
    end.
Proof.
  intros T tw tr L ep t0 h HL Hn Hk. pose proof (g_run_inv L ep HL tw tr t0 h _ _ _ (gsys0_inv L ep tw tr t0) Hn Hk) as Hi.
  destruct (g_run tw tr L ep (gsys0 t0) h) as [y o]. cbn [app] in Hi. set (ops := starts o) in *. unfold ginv in Hi. unfold working.
  assert (W : forall r t, sinv L ep tw tr t0 (sview (VPaus (aw L r)) t y) ops (sets o) -> b_task (g_m y) = AAcc r ->
    exists n, (n <= length ops)%nat /\ sets o = firstn n (snd (serve_all tw tr L ep t0 ops)) /\ nth_error ops n = Some (ru_op r) /\ op_ok (snd (ru_op r)) /\ 0 <= ru_k r < ac_cycles L (snd (ru_op r)) /\
      ru_word r = owd L (snd (ru_op r)) (ru_k r) /\ apb_part tw tr L (fst (serve_all tw tr L ep t0 (firstn n ops))) (snd (ru_op r)) (Z.to_nat (ru_k r)) = t).
  { intros r t Hs Hr. destruct (paus_inv L ep tw tr t0 _ _ _ _ _ Hs) as (done & t1 & r' & Hd & Ht & Hops & _ & _ & _ & (Hx & Hkk & _ & Hwd & d & rs & Hp & _)). rewrite Hr in Ht. injection Ht as <-.
    destruct (done_prefix tw tr L ep t0 ops (sets o) done _ t1 Hd Hops) as (G1 & G2 & G3). exists (length done). split; [exact G3|]. split; [exact G1|]. split; [rewrite Hops; apply done_nth|].
    split; [exact Hx|]. split; [exact Hkk|]. split; [exact Hwd|]. rewrite G2. eapply prog_part; eauto. lia. }
  destruct (g_task (g_s y)) as [s|rest|ad].
  - destruct (sinv_system tw tr L ep t0 HL _ _ _ Hi) as (n & j & H1 & H2 & H3). exists n, j. split; [exact H1|]. split; [exact H2|]. cbn [sview k_s view v_t] in H3.
    destruct (nth_error ops n) as [x|]; [exists [], []; cbn; auto|auto].
  - destruct Hi as (tk & pre & r & data & Hr & Hi & Hne & Ew & Ed & Eo & Ep). destruct (W r tk Hi Hr) as (n & H1 & H2 & H3 & H4 & H5 & H6 & H7).
    exists n, (Z.to_nat (ru_k r)). split; [exact H1|]. split; [exact H2|]. rewrite H3. exists pre, rest. rewrite H7, Ep. split; [reflexivity|].
    destruct (snd (ru_op r)) as [w|c] eqn:Ec; [|rewrite H6 in Ew; discriminate]. rewrite <- Eo. unfold aw. rewrite H6 in Ed |- *. now apply word_calls_owd.
  - destruct Hi as (r & Hr & _ & Hi & Ew). destruct (W r _ Hi Hr) as (n & H1 & H2 & H3 & H4 & H5 & H6 & H7).
    exists n, (Z.to_nat (ru_k r)). split; [exact H1|]. split; [exact H2|]. rewrite H3. exists [], []. cbn [sw_perform fst app]. split; [now symmetry|].
    destruct (snd (ru_op r)) as [w|c]; [rewrite H6 in Ew; discriminate|reflexivity].
Qed.
Print Assumptions C86_system.

(** ** completion *)
Section Fin.
Context {T : Type} (tw : T -> Z -> list Z -> T * res unit) (tr : T -> Z -> Z -> T * res (list Z)) (L : Z) (ep : bool) (HL : 0 < L).
Local Notation go := (g_go tw tr L ep).
Fixpoint gos (k : nat) (v : gslv T) : gslv T := match k with O => v | S k => gos k (go v) end.
Lemma gos_run k : forall y, g_run tw tr L ep y (repeat GGo k) = ({| g_m := g_m y; g_s := gos k (g_s y) |}, []).
Proof. induction k as [|k IH]; intros [m v]; [reflexivity|]. cbn [repeat g_run g_step]. rewrite IH. reflexivity. Qed.
Lemma gos_still k : forall v s, g_task v = GT s -> gos k v = v.
Proof. induction k as [|k IH]; intros v s H; [reflexivity|]. cbn [gos]. unfold g_go. rewrite H. now apply (IH v s). Qed.
Lemma gos_wr ops : forall k v, ops <> [] -> g_task v = GWr ops -> (length ops <= k)%nat -> gos k v = let '(t', r) := sw_perform tw (g_t v) ops in g_finish ep t' None (v_err r) v.
Proof.
  induction ops as [|[a d] ops IH]; intros k v Hne Ht Hk; [congruence|]. destruct k as [|k]; cbn in Hk; [lia|]. cbn [gos sw_perform]. unfold g_go at 1. rewrite Ht.
  destruct (tw (g_t v) a d) as [t' [[]|e]]; [|now apply gos_still with (s := VAck)]. destruct ops as [|o ops]; [now apply gos_still with (s := VAck)|].
  rewrite (IH k {| g_task := GWr (o :: ops); g_pready := g_pready v; g_prdata := g_prdata v; g_pslverr := g_pslverr v; g_t := t' |} ltac:(discriminate) eq_refl) by (cbn [length] in *; lia). cbn [g_t]. destruct (sw_perform tw t' (o :: ops)). reflexivity.
Qed.
Lemma gos_rd ad k v : g_task v = GRd ad -> (0 < k)%nat -> gos k v = let '(t', r) := tr (g_t v) ad L in g_finish ep t' (Some (le_int (match r with Ok d => d | Err _ => zeros L end))) (v_err r) v.
Proof. intros Ht Hk. destruct k as [|k]; [lia|]. cbn [gos]. unfold g_go at 1. rewrite Ht. destruct (tr (g_t v) ad L) as [t' r]. now apply gos_still with (s := VAck). Qed.

(** after enough accesses the slave is one of M_apb.v *)
Definition as0 (y : gsys T) : asys T := sview (match g_task (g_s y) with GT s => s | _ => VKill end) (g_t (g_s y)) y.
Lemma begin_fin k ad w v : (Z.to_nat L <= k)%nat -> let v' := gos k (g_begin L ep ad w v) in working {| g_m := apb_init; g_s := v' |} = false /\
  view (match g_task v' with GT s => s | _ => VKill end) (g_t v') v' = v_serve tw tr L ep false ad w (view VIdle (g_t v) v).
Proof.
  intros Hk. cbv zeta. unfold g_begin, v_serve, v_access. cbn [view v_t v_pready v_prdata v_pslverr]. destruct (pw_write w).
  - destruct (to_bytes (pw_data w) L Little) as [data|e]; [|rewrite gos_still with (s := VKill) by reflexivity; split; reflexivity].
    pose proof (sw_ops_len ad data (pw_strb w) (zrange 0 L) 0 None) as Hl. rewrite zrange_length in Hl.
    destruct (sw_ops ad data (pw_strb w) (zrange 0 L) 0 None) as [|o ops] eqn:Eo.
    + rewrite gos_still with (s := VAck) by reflexivity. split; reflexivity.
    + rewrite (gos_wr (o :: ops) k (g_set v (GWr (o :: ops))) ltac:(discriminate) eq_refl) by (cbn [length] in *; lia). cbn [g_set g_t]. destruct (sw_perform tw (g_t v) (o :: ops)) as [t' r]. split; reflexivity.
  - rewrite (gos_rd ad k (g_set v (GRd ad)) eq_refl) by lia. cbn [g_set g_t]. destruct (tr (g_t v) ad L) as [t' r]. split; reflexivity.
Qed.
Lemma serve_task sp ad w s s' t (v : gslv T) : v_serve tw tr L ep sp ad w (view s t v) = v_serve tw tr L ep sp ad w (view s' t v).
Proof. reflexivity. Qed.

(** a round: as in M_apb.v *)
Lemma edge_fin k y s : (Z.to_nat L <= k)%nat -> g_task (g_s y) = GT s ->
  let '(y', o) := g_run tw tr L ep y (GK (KEdge false false) :: repeat GGo k) in
  working y' = false /\ (as0 y', o) = k_step tw tr L ep (as0 y) (KEdge false false).
Proof.
  intros Hk Et. cbn [g_run g_step k_step]. unfold as0 at 2. unfold as0 at 2. unfold as0 at 2. unfold as0 at 2. unfold as0 at 2. unfold as0 at 2. unfold as0 at 2. rewrite Et.
  cbn [sview k_m k_s view v_pready v_prdata v_pslverr].
  destruct (a_edge L ep false _ _ _ (g_m y)) as [m os]. rewrite gos_run. cbn [g_m g_s]. rewrite app_nil_r. unfold g_edge. rewrite Et.
  assert (St : forall v s, g_task v = GT s -> working {| g_m := m; g_s := gos k v |} = false /\ as0 {| g_m := m; g_s := gos k v |} = {| k_m := m; k_s := view s (g_t v) v |}).
  { intros v s' H. rewrite (gos_still k v s' H). unfold working, as0, sview. cbn [g_s g_m]. rewrite H. auto. }
  assert (B : forall ad w, working {| g_m := m; g_s := gos k (g_begin L ep ad w (g_s y)) |} = false /\
    as0 {| g_m := m; g_s := gos k (g_begin L ep ad w (g_s y)) |} = {| k_m := m; k_s := v_serve tw tr L ep false ad w (view VIdle (g_t (g_s y)) (g_s y)) |}).
  { intros ad w. destruct (begin_fin k ad w (g_s y) Hk) as [B1 B2]. split; [exact B1|]. unfold as0, sview. cbn [g_s g_m]. now rewrite B2. }
  unfold v_edge. cbn [view v_task]. destruct s as [| |ad|].
  - destruct (St (g_s y) VKill Et) as [-> ->]. auto.
  - destruct (b_psel (g_m y)); [|destruct (St (g_s y) VIdle Et) as [-> ->]; auto]. unfold g_serve. destruct (B (pw_addr (b_word (g_m y)) / L * L) (b_word (g_m y))) as [-> ->]. auto.
  - unfold g_serve. destruct (B ad (b_word (g_m y))) as [-> ->]. auto.
  - destruct (St {| g_task := GT VIdle; g_pready := false; g_prdata := g_prdata (g_s y); g_pslverr := g_pslverr (g_s y); g_t := g_t (g_s y) |} VIdle eq_refl) as [-> ->]. auto.
Qed.
Lemma g_run_app h1 : forall h2 y, g_run tw tr L ep y (h1 ++ h2) = let '(y1, o1) := g_run tw tr L ep y h1 in let '(y2, o2) := g_run tw tr L ep y1 h2 in (y2, o1 ++ o2).
Proof.
  induction h1 as [|o h1 IH]; intros h2 y; cbn [g_run app]; [now destruct (g_run tw tr L ep y h2)|]. destruct (g_step tw tr L ep y o) as [y1 o1]. rewrite IH.
  destruct (g_run tw tr L ep y1 h1) as [y2 o2]. destruct (g_run tw tr L ep y2 h2) as [y3 o3]. now rewrite app_assoc.
Qed.
Lemma round_fin k y s : (Z.to_nat L <= k)%nat -> g_task (g_s y) = GT s ->
  let '(y', o) := g_run tw tr L ep y (slow_round k) in working y' = false /\ (as0 y', o) = k_run tw tr L ep (as0 y) calm_round.
Proof.
  intros Hk Et. unfold slow_round, calm_round. change ([GK (KM BWake); GK (KEdge false false)] ++ repeat GGo k) with ([GK (KM BWake)] ++ (GK (KEdge false false) :: repeat GGo k)).
  destruct (b_step L ep (g_m y) BWake) as [m os] eqn:Eb. set (y1 := {| g_m := m; g_s := g_s y |}).
  assert (E0 : g_run tw tr L ep y [GK (KM BWake)] = (y1, os)) by (cbn [g_run g_step]; rewrite Eb, app_nil_r; reflexivity).
  assert (E1 : k_run tw tr L ep (as0 y) [KM BWake; KEdge false false] = let '(y2, o2) := k_step tw tr L ep (as0 y1) (KEdge false false) in (y2, os ++ o2)).
  { cbn [k_run]. replace (k_step tw tr L ep (as0 y) (KM BWake)) with (as0 y1, os); [destruct (k_step tw tr L ep (as0 y1) (KEdge false false)); now rewrite app_nil_r|].
    cbn [k_step]. change (k_m (as0 y)) with (g_m y). now rewrite Eb. }
  rewrite g_run_app, E0, E1. pose proof (edge_fin k y1 s Hk Et) as E. destruct (g_run tw tr L ep y1 (GK (KEdge false false) :: repeat GGo k)) as [y2 o2].
  destruct E as [Ea <-]. auto.
Qed.
Lemma rounds_fin k m : forall y s, (Z.to_nat L <= k)%nat -> g_task (g_s y) = GT s ->
  let '(y', o) := g_run tw tr L ep y (concat (repeat (slow_round k) m)) in working y' = false /\ (as0 y', o) = k_run tw tr L ep (as0 y) (concat (repeat calm_round m)).
Proof.
  induction m as [|m IH]; intros y s Hk Et; [cbn; unfold working; rewrite Et; auto|]. cbn [repeat concat]. rewrite g_run_app, k_run_app.
  pose proof (round_fin k y s Hk Et) as R. destruct (g_run tw tr L ep y (slow_round k)) as [y1 o1]. destruct R as [R1 R2]. rewrite <- R2.
  unfold working in R1. destruct (g_task (g_s y1)) as [s1| |] eqn:E1; try discriminate. specialize (IH y1 s1 Hk E1).
  destruct (g_run tw tr L ep y1 (concat (repeat (slow_round k) m))) as [y2 o2]. destruct IH as [I1 I2]. rewrite <- I2. auto.
Qed.
End Fin.

(** From every state reached: once the accesses in work are done, finitely many rounds of a clock edge without pauses and of as many accesses as a word can have complete everything that
    was issued. *)
Theorem C86_completes : forall T (tw : T -> Z -> list Z -> T * res unit) tr L ep t0 h, 0 < L -> Forall gno_reset h -> Forall gop_ok h ->
  exists N, forall n k, (N <= n)%nat -> (Z.to_nat L <= k)%nat ->
  let '(y, o) := g_run tw tr L ep (gsys0 t0) (h ++ repeat GGo k ++ concat (repeat (slow_round k) n)) in
  working y = false /\ starts o = starts (snd (g_run tw tr L ep (gsys0 t0) h)) /\
  sets o = snd (serve_all tw tr L ep t0 (starts o)) /\ g_t (g_s y) = fst (serve_all tw tr L ep t0 (starts o)).
Proof.
  intros T tw tr L ep t0 h HL Hn Hk. pose proof (g_run_inv L ep HL tw tr t0 h _ _ _ (gsys0_inv L ep tw tr t0) Hn Hk) as Hi.
  destruct (g_run tw tr L ep (gsys0 t0) h) as [y o] eqn:E. cbn [app snd] in *.
  (* the state after the accesses does not depend on their number *)
  assert (HF : exists y1 s, g_task (g_s y1) = GT s /\ ginv L ep tw tr t0 y1 (starts o) (sets o) /\ forall k, (Z.to_nat L <= k)%nat -> g_run tw tr L ep y (repeat GGo k) = (y1, [])).
  { set (K := Z.to_nat L).
    assert (I1 : forall k v, ginv L ep tw tr t0 {| g_m := g_m y; g_s := v |} (starts o) (sets o) -> ginv L ep tw tr t0 {| g_m := g_m y; g_s := gos tw tr L ep k v |} (starts o) (sets o)).
    { induction k as [|k IH]; intros v Hv; [exact Hv|]. cbn [gos]. apply IH. exact (go_inv L ep HL tw tr t0 _ _ _ Hv). }
    assert (I2 : exists s v1, g_task v1 = GT s /\ forall k, (K <= k)%nat -> gos tw tr L ep k (g_s y) = v1).
    { unfold ginv in Hi. destruct (g_task (g_s y)) as [s|rest|ad] eqn:Et.
      - exists s, (g_s y). split; [exact Et|]. intros k _. now apply gos_still with (s := s).
      - destruct Hi as (tk & pre & r & data & _ & _ & Hne & _ & _ & Eo & _). pose proof (sw_ops_len (aw L r) data (pw_strb (ru_word r)) (zrange 0 L) 0 None) as Hl.
        rewrite Eo, app_length, zrange_length in Hl. pose proof (fun k Hk => gos_wr tw tr L ep rest k (g_s y) Hne Et Hk) as G. destruct (sw_perform tw (g_t (g_s y)) rest) as [t' q].
        exists VAck, (g_finish ep t' None (v_err q) (g_s y)). split; [reflexivity|]. intros k Hkk. apply G. unfold K in Hkk. lia.
      - pose proof (fun k Hk => gos_rd tw tr L ep ad k (g_s y) Et Hk) as G. destruct (tr (g_t (g_s y)) ad L) as [t' q]. eexists VAck, _. split; [|intros k Hkk; apply G; unfold K in Hkk; lia]. reflexivity. }
    destruct I2 as (s & v1 & E1 & E2). exists {| g_m := g_m y; g_s := v1 |}, s. split; [exact E1|]. split.
    - rewrite <- (E2 K (le_n _)). apply I1. destruct y; exact Hi.
    - intros k Hkk. rewrite gos_run, (E2 k Hkk). reflexivity. }
  destruct HF as (y1 & s & Es & Hi1 & HF). assert (Hs : sinv L ep tw tr t0 (as0 y1) (starts o) (sets o)) by (unfold ginv in Hi1; unfold as0; rewrite Es in *; exact Hi1).
  exists (Z.to_nat (mu L (as0 y1))). intros n k Hle Hkk. pose proof (mu_nonneg L ep HL tw tr t0 _ _ _ Hs) as Hmu.
  rewrite g_run_app, E, g_run_app, (HF k Hkk). pose proof (rounds_fin tw tr L ep HL k n y1 s Hkk Es) as R.
  destruct (g_run tw tr L ep y1 (concat (repeat (slow_round k) n))) as [y2 o2]. destruct R as [R1 R2]. cbn [app].
  pose proof (rounds_done L ep HL tw tr t0 n _ _ _ Hs ltac:(lia)) as HR. rewrite <- R2 in HR. destruct HR as (H1 & H2 & H3).
  rewrite starts_app, H1, app_nil_r, sets_app. split; [exact R1|]. split; [reflexivity|]. exact (mu_0 L ep HL tw tr t0 _ _ _ H2 H3).
Qed.
Print Assumptions C86_completes.

(** On a byte memory: results and memory are those of performing the operations in the order of the calls. *)
Theorem C86_memory : forall T L ep lo hi phi (inv : T -> Prop) view tw tr,
  flat_target L lo hi phi inv view tw tr -> 0 < L -> lo mod L = 0 -> hi mod L = 0 ->
  forall t0 h, inv t0 -> Forall gno_reset h -> Forall gop_ok h ->
  Forall (fun x => op_in lo hi (snd x)) (starts (snd (g_run tw tr L ep (gsys0 t0) h))) ->
  let '(y, o) := g_run tw tr L ep (gsys0 t0) h in
  (exists n, (n <= length (starts o))%nat /\ sets o = firstn n (snd (mem_serve phi (view t0) (starts o)))) /\
  (length (sets o) = length (starts o) -> view (g_t (g_s y)) =f fst (mem_serve phi (view t0) (starts o))).
Proof.
  intros T L ep lo hi phi inv view tw tr Hft HL Hlo Hhi t0 h Hi Hn Hk Hin.
  pose proof (C86_system T tw tr L ep t0 h HL Hn Hk) as HS. destruct (g_run tw tr L ep (gsys0 t0) h) as [y o]. cbn [snd] in Hin.
  destruct HS as (n & j & H1 & H2 & H3).
  destruct (serve_flat L ep lo hi phi inv view tw tr Hft HL Hlo Hhi _ t0 Hi Hin) as (t' & E & Hi' & Hv).
  pose proof (serve_all_len L ep tw tr (starts o) t0) as Hl. rewrite E in *. cbn [fst snd] in *. split.
  - exists n. auto.
  - intros Hall. assert (n = length (starts o)) as -> by (rewrite H2, firstn_length in Hall; lia).
    rewrite (proj2 (nth_error_None (starts o) _)) in H3 by lia. destruct H3 as [_ ->]. exact Hv.
Qed.
Print Assumptions C86_memory.

(** Two writes and a read; each access takes two clock edges.  In between the slave is working, pready is low and the target still as before. *)
Example C86_nontrivial :
  let e := GK (KEdge false false) in let w := GK (KM BWake) in
  let h1 := [GK (KM (BIssue (ex_w 6 [1; 2; 3]))); GK (KM (BIssue (ex_w 7 [9]))); GK (KM (BIssue (ex_r 5 4))); e; w; e; e; e] in
  let h2 := concat (repeat [w; e; e; GGo] 20) in
  (let y := fst (g_run ram_write ram_read 4 true (gsys0 (sm_init 16)) h1) in
     working y = true /\ g_pready (g_s y) = false /\ map (peek (g_t (g_s y))) [6; 7; 8] = [0; 0; 0]) /\
  (let y := fst (g_run ram_write ram_read 4 true (gsys0 (sm_init 16)) (h1 ++ [GGo])) in
     working y = false /\ g_pready (g_s y) = true /\ map (peek (g_t (g_s y))) [6; 7; 8] = [1; 2; 0]) /\
  (let '(y, o) := g_run ram_write ram_read 4 true (gsys0 (sm_init 16)) (h1 ++ h2) in
     map snd (sets o) = [Some (AWResp 6 3 OKAY); Some (AWResp 7 1 OKAY); Some (ARResp 5 [0; 1; 9; 3] OKAY)] /\
     map (peek (g_t (g_s y))) [5; 6; 7; 8; 9] = [0; 1; 9; 3; 0]).
Proof. vm_compute. repeat split. Qed.

(** ** resets *)

(** In every history, with resets of both sides at any time: pready is asserted only when the slave is
    done with its accesses; reset takes it back and ends the access in progress: until the release no
    access takes effect and pready stays low. *)
Definition ack_only {T} (v : gslv T) : Prop := g_pready v = true -> g_task v = GT VAck.

Lemma ack_step T (tw : T -> Z -> list Z -> T * res unit) tr L ep y o : ack_only (g_s y) -> ack_only (g_s (fst (g_step tw tr L ep y o))).
Proof.
  intros H. destruct o as [o|].
  - destruct o as [o|mp sp|b]; cbn [g_step].
    + destruct o; try exact H; destruct (b_step L ep (g_m y) _); exact H.
    + destruct (a_edge L ep mp _ _ _ (g_m y)) as [m os]. cbn [fst g_s].
      destruct (g_s y) as [tk pr pd pe t]. unfold ack_only in *. cbn [g_pready g_task] in *. unfold g_edge. cbn [g_task].
      assert (Hb : forall a w, pr = false \/ tk = GT VAck -> tk <> GT VAck -> ack_only (g_begin L ep a w {| g_task := tk; g_pready := pr; g_prdata := pd; g_pslverr := pe; g_t := t |})).
      { intros a w [->|Hp] Hne; [|contradiction]. unfold g_begin, ack_only. destruct (pw_write w); [|discriminate].
        destruct (to_bytes _ _ _); [|discriminate]. destruct (sw_ops _ _ _ _ _ _); [reflexivity|discriminate]. }
      assert (Hp : pr = false \/ tk = GT VAck) by (destruct pr; auto).
      destruct tk as [s|ops|ad]; try exact H. destruct s as [|ad| |]; try exact H.
      * destruct (b_psel (g_m y)); [|exact H]. unfold g_serve. destruct sp; [destruct Hp as [->|]; discriminate|]. apply Hb; [auto|discriminate].
      * unfold g_serve. destruct sp; [destruct Hp as [->|]; discriminate|]. apply Hb; [auto|discriminate].
      * discriminate.
    + cbn [fst g_s]. unfold g_reset. destruct b; [discriminate|]. destruct (g_task (g_s y)) as [[| | |]|?|?] eqn:E; try exact H; discriminate.
  - cbn [g_step fst g_s]. unfold g_go. destruct (g_task (g_s y)) as [s|[|[a d] ops]|ad] eqn:E; try exact H.
    + destruct (tw _ a d) as [t' [?|?]]; [|now unfold ack_only]. destruct ops; [now unfold ack_only|].
      intros Hp. cbn [g_pready] in Hp. specialize (H Hp). congruence.
    + destruct (tr _ ad L) as [t' r]. now unfold ack_only.
Qed.

Theorem C86_pready_only_when_done : forall T (tw : T -> Z -> list Z -> T * res unit) tr L ep t0 h,
  let y := fst (g_run tw tr L ep (gsys0 t0) h) in
  g_pready (g_s y) = true -> working y = false.
Proof.
  intros T tw tr L ep t0 h y Hp. assert (H : ack_only (g_s y)).
  { unfold y. clear. assert (G : forall y, ack_only (g_s y) -> ack_only (g_s (fst (g_run tw tr L ep y h)))).
    { induction h as [|o h IH]; intros y H; cbn [g_run]; [exact H|]. pose proof (ack_step T tw tr L ep y o H) as H1.
      destruct (g_step tw tr L ep y o) as [y1 o1]. specialize (IH y1 H1). destruct (g_run tw tr L ep y1 h) as [y2 o2]. exact IH. }
    apply G. discriminate. }
  specialize (H Hp). unfold working. now rewrite H.
Qed.
Print Assumptions C86_pready_only_when_done.

Theorem C86_reset_ends_access : forall T (tw : T -> Z -> list Z -> T * res unit) tr L ep y h,
  Forall (fun o => o <> GK (KReset false)) h ->
  let y1 := fst (g_run tw tr L ep y (GK (KReset true) :: h)) in
  g_pready (g_s y1) = false /\ working y1 = false /\ g_t (g_s y1) = g_t (g_s y).
Proof.
  intros T tw tr L ep y h HF. cbn [g_run g_step].
  assert (G : forall y, g_task (g_s y) = GT VKill -> g_pready (g_s y) = false ->
    let y1 := fst (g_run tw tr L ep y h) in g_task (g_s y1) = GT VKill /\ g_pready (g_s y1) = false /\ g_t (g_s y1) = g_t (g_s y)).
  { clear y. induction HF as [|o h Ho HF IH]; intros y Hk Hp; cbn [g_run]; [auto|].
    assert (S1 : let y1 := fst (g_step tw tr L ep y o) in g_task (g_s y1) = GT VKill /\ g_pready (g_s y1) = false /\ g_t (g_s y1) = g_t (g_s y)).
    { destruct o as [[o|mp sp|b]|]; cbn [g_step].
      - destruct o; try (destruct (b_step L ep (g_m y) _)); cbn [fst g_s]; auto.
      - destruct (a_edge L ep mp _ _ _ (g_m y)). cbn [fst g_s]. unfold g_edge. rewrite Hk. auto.
      - destruct b; [|contradiction]. cbn. auto.
      - cbn [fst g_s]. unfold g_go. rewrite Hk. auto. }
    destruct (g_step tw tr L ep y o) as [y1 o1]. cbn [fst] in S1. destruct S1 as (S1 & S2 & S3).
    specialize (IH y1 S1 S2). destruct (g_run tw tr L ep y1 h) as [y2 o2]. cbn [fst] in *. rewrite <- S3. exact IH. }
  specialize (G {| g_m := g_m y; g_s := g_reset (g_s y) true |} eq_refl eq_refl).
  destruct (g_run tw tr L ep _ h) as [y2 o2]. cbn [fst] in *. destruct G as (G1 & G2 & G3).
  split; [exact G2|]. split; [unfold working; now rewrite G1|exact G3].
Qed.
Print Assumptions C86_reset_ends_access.

(** A write whose access was begun when reset came: it never takes effect, although the target would be done. *)
Example C86_reset_nontrivial :
  let e := GK (KEdge false false) in let w := GK (KM BWake) in
  let h1 := [GK (KM (BIssue (ex_w 6 [1; 2; 3]))); e; w; e; e; e] in
  let y0 := fst (g_run ram_write ram_read 4 true (gsys0 (sm_init 16)) h1) in
  let y := fst (g_run ram_write ram_read 4 true y0 [GK (KReset true); e; GGo; e]) in
  working y0 = true /\ working y = false /\ g_pready (g_s y) = false /\ map (peek (g_t (g_s y))) [6; 7; 8] = [0; 0; 0].
Proof. vm_compute. repeat split. Qed.
