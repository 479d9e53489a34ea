(** Property theorems for APB: C35, C36, C61, and the APB parts of C31 and C32. *)
From Coq Require Import ZArith Lia List Bool.
From Coq Require Import ZifyBool ZifyNat.
From Verif Require Import Py S_flat M_sparse S_sparse M_memory P_memory M_axi S_axi P_axi P_axislave P_axiop P_axiram P_axicomp
  M_axil S_axil P_axil M_apb S_apb P_apb P_apbsys P_apbmem P_apblife.
Import ListNotations.
Open Scope Z_scope.

(** ** C36 *)
(** Whatever the slave does and whenever calls, pauses and resets happen, consecutive samples of the master's signals follow the protocol. *)
Theorem C36_protocol : forall L ep h, apb_legal VRst (b_trace L ep apb_init h).
Proof. intros L ep h. apply b_trace_legal; cbn; auto. Qed.
Print Assumptions C36_protocol.

Definition ex_w (a : Z) (d : list Z) : acmd := ACW {| lc_addr := a; lc_data := d; lc_prot := 2 |}.
Definition ex_r (a n : Z) : acmd := ACR {| lr_addr := a; lr_len := n; lr_prot := 2 |}.
Example C36_nontrivial :
  let e := BEdge false false 0 false in let k := BEdge false true 0 false in
  map (fun v => match v with VEdge s e w _ => (s, e, pw_addr w, pw_strb w) | VRst => (false, false, -1, -1) end)
    (b_trace 4 true apb_init [e; BIssue (ex_w 6 [1; 2; 3]); BWake; e; e; e; k; e; BReset true; e]) =
  [(false, false, 0, 0); (false, false, 0, 0); (true, false, 6, 12); (true, true, 6, 12); (true, true, 6, 12); (true, false, 8, 1);
   (false, false, -1, -1); (false, false, 8, 1)].
Proof. vm_compute. reflexivity. Qed.

(** ** C61 *)
(** After a clock edge at which the master is paused psel is asserted exactly when a transfer was in progress that this edge does not end,
    and then the transfer's signals are unchanged: a paused master starts nothing and breaks off nothing.  If it ends a transfer (pready
    seen) psel falls. *)
Theorem C61_master_pause : forall L ep h pready prdata pslverr,
  let s := fst (b_run L ep apb_init h) in
  let s' := fst (b_step L ep s (BEdge true pready prdata pslverr)) in
  b_psel s' = b_psel s && negb (b_penable s && pready) /\ b_word s' = b_word s.
Proof.
  intros L ep h pready prdata pslverr s s'.
  assert (Hs : sig_inv s). { unfold s. generalize apb_init (conj eq_refl eq_refl : sig_inv apb_init). clear.
    induction h as [|o h IH]; intros s Hs; cbn [b_run]; auto. pose proof (b_step_sig L ep s o Hs) as H.
    destruct (b_step L ep s o) as [s1 o1]. specialize (IH s1 H). destruct (b_run L ep s1 h). exact IH. }
  assert (Hbeat : forall s x k off d r, b_psel (fst (a_beat L true s x k off d r)) = b_psel s /\ b_word (fst (a_beat L true s x k off d r)) = b_word s).
  { clear. intros s x k off d r. unfold a_beat. destruct (a_word L (snd x) k off) as [[w off']|e]; cbn; auto. }
  assert (Hloop : forall q s, b_psel (fst (a_loop L true q s)) = b_psel s /\ b_word (fst (a_loop L true q s)) = b_word s).
  { induction q as [|x q IH]; intros y; cbn [a_loop]; [cbn; auto|]. destruct (0 <? ac_cycles L (snd x)); [exact (Hbeat (b_set_cur (b_set_q y q) (Some x)) x 0 0 [] OKAY)|].
    set (y1 := b_complete _ x _). specialize (IH y1). destruct (a_loop L true q y1) as [y2 o]. exact IH. }
  unfold s'. cbn [b_step]. unfold a_edge. unfold sig_inv in Hs.
  destruct (b_task s) as [| | |x|r|r|r|]; destruct Hs as [H1 H2]; rewrite ?H1, ?H2; cbn [fst andb negb]; rewrite ?H1; auto.
  - rewrite <- H1. apply Hloop.
  - rewrite <- H1. apply Hloop.
  - destruct pready; cbn [fst negb]; auto. unfold a_ack. cbv zeta. destruct (ru_k r + 1 <? ac_cycles L (snd (ru_op r))).
    + exact (Hbeat (b_set_sig s false false (b_word s)) (ru_op r) _ _ _ _).
    + match goal with |- context [a_loop L true ?q ?y] => pose proof (Hloop q y) as Hl; destruct (a_loop L true q y) as [s2 o] end. exact Hl.
Qed.
Print Assumptions C61_master_pause.

(** A clock edge at which the slave is paused leaves the target alone (no write, no read) and pready is low after it, whatever the
    master does, including resets on either side. *)
Theorem C61_slave_pause : forall T (tw : T -> Z -> list Z -> T * res unit) tr L ep t0 h mp,
  let y := fst (k_run tw tr L ep (sys0 t0) h) in
  let y' := fst (k_step tw tr L ep y (KEdge mp true)) in
  v_t (k_s y') = v_t (k_s y) /\ v_pready (k_s y') = false.
Proof.
  intros T tw tr L ep t0 h mp y y'.
  assert (Hy : v_task (k_s y) <> VAck -> v_pready (k_s y) = false).
  { unfold y. assert (H0 : v_task (k_s (sys0 t0)) <> VAck -> v_pready (k_s (sys0 t0)) = false) by reflexivity. revert H0.
    generalize (sys0 t0). clear. induction h as [|o h IH]; intros y Hy; cbn [k_run]; auto.
    assert (Hy1 : v_task (k_s (fst (k_step tw tr L ep y o))) <> VAck -> v_pready (k_s (fst (k_step tw tr L ep y o))) = false).
    { assert (Hm : forall o, v_task (k_s (fst (let '(m, os) := b_step L ep (k_m y) o in ({| k_m := m; k_s := k_s y |}, os)))) <> VAck ->
        v_pready (k_s (fst (let '(m, os) := b_step L ep (k_m y) o in ({| k_m := m; k_s := k_s y |}, os)))) = false)
        by (intros o'; destruct (b_step L ep (k_m y) o'); exact Hy).
      assert (Hv : forall p a w v, (v_task v <> VAck -> v_pready v = false) -> v_task v <> VAck ->
        v_task (v_serve tw tr L ep p a w v) <> VAck -> v_pready (v_serve tw tr L ep p a w v) = false).
      { clear. intros p a w v H Hn. unfold v_serve. destruct p; cbn; auto. destruct (v_access tw tr L a w (v_t v)) as [[[t' d] e]|e]; cbn; auto. congruence. }
      destruct o as [[c|c|n| |n|p pr pd pe|b]|mp sp|b]; cbn [k_step]; auto.
      - destruct (a_edge _ _ _ _ _ _ _) as [m os]. cbn [fst k_s]. unfold v_edge. destruct (v_task (k_s y)) eqn:E; cbn [v_pready]; auto; try (rewrite E; auto; fail).
        + destruct (b_psel (k_m y)); [apply Hv; rewrite E; auto; congruence|]. rewrite E. auto.
        + apply Hv; rewrite E; auto; congruence.
      - cbn [fst k_s]. unfold v_reset. destruct b; cbn; auto. destruct (v_task (k_s y)) eqn:E; cbn [v_pready]; auto; rewrite E; auto. }
    destruct (k_step tw tr L ep y o) as [y1 o1]. specialize (IH y1 Hy1). destruct (k_run tw tr L ep y1 h). exact IH. }
  unfold y'. cbn [k_step]. destruct (a_edge _ _ _ _ _ _ _) as [m os]. cbn [fst k_s]. unfold v_edge, v_serve.
  destruct (v_task (k_s y)) eqn:E; cbn; try (split; [reflexivity|]); auto; try (apply Hy; congruence).
  destruct (b_psel (k_m y)); cbn; split; auto; apply Hy; congruence.
Qed.
Print Assumptions C61_slave_pause.

(** a master paused before the first word and between the words, a slave paused while the master waits *)
Example C61_nontrivial :
  let r n p := concat (repeat [KM BWake; KEdge p false] n) in
  let '(h1, h2) := (KM (BIssue (ex_w 2 [1; 2; 3; 4])) :: r 3%nat true, [KEdge false false; KEdge false false; KEdge false true; KEdge false true]) in
  let st h := let y := fst (k_run ram_write ram_read 4 true (sys0 (sm_init 16)) h) in (b_psel (k_m y), b_penable (k_m y), v_pready (k_s y), map (peek (v_t (k_s y))) [2; 3; 4]) in
  map st [h1; h1 ++ [KEdge false false]; h1 ++ h2; h1 ++ h2 ++ [KEdge true false]; h1 ++ h2 ++ [KEdge true false; KEdge true false; KEdge true false]]
  = [(false, false, false, [0; 0; 0]); (true, false, false, [0; 0; 0]); (true, true, false, [1; 2; 0]); (true, true, true, [1; 2; 3]);
     (false, false, false, [1; 2; 3])].
Proof. vm_compute. reflexivity. Qed.

(** ** C35 *)
(** The commands are numbered in the order of the calls. *)
Theorem C35_issue_order : forall T (tw : T -> Z -> list Z -> T * res unit) tr L ep t0 h, Forall no_init h ->
  map snd (starts (snd (k_run tw tr L ep (sys0 t0) h))) = issued h.
Proof.
  intros T tw tr L ep t0 h Hh. enough (HG : forall h (y : asys T), Forall no_init h -> b_pend (k_m y) = [] ->
    map snd (starts (snd (k_run tw tr L ep y h))) = issued h) by (now apply HG).
  clear. induction h as [|o h IH]; intros y Hh Hp; cbn [k_run]; auto.
  apply Forall_cons_iff in Hh as [Ho Hh]. unfold issued. cbn [flat_map]. fold (issued h).
  assert (HA : forall p q s, starts (snd (a_loop L p q s)) = [] /\ b_pend (fst (a_loop L p q s)) = b_pend s).
  { intros p q. induction q as [|x q IHq]; intros s; cbn [a_loop]; auto. destruct (0 <? _).
    - unfold a_beat. destruct (a_word _ _ _ _) as [[]|]; destruct p; split; reflexivity.
    - set (s1 := b_complete _ _ _). specialize (IHq s1). destruct (a_loop L p q s1). exact IHq. }
  assert (HB : forall m a b c d, starts (snd (a_edge L ep a b c d m)) = [] /\ b_pend (fst (a_edge L ep a b c d m)) = b_pend m).
  { intros m a b c d. unfold a_edge. destruct (b_task m); auto; try (now apply HA); try (destruct a; auto; fail). destruct b; auto. unfold a_ack. cbv zeta. destruct (_ <? _).
    - unfold a_beat. destruct (a_word _ _ _ _) as [[]|]; destruct a; split; reflexivity.
    - match goal with |- context [a_loop L a ?q ?s] => specialize (HA a q s); destruct (a_loop L a q s) end. exact HA. }
  assert (HS : starts (snd (k_step tw tr L ep y o)) = match o with KM (BIssue c) => [(b_next (k_m y), c)] | _ => [] end /\
               b_pend (k_m (fst (k_step tw tr L ep y o))) = []).
  { destruct o as [[c|c|n| |n|p pr pd pe|b]|mp sp|b]; cbn [k_step b_step]; try (now destruct Ho); auto.
    - rewrite Hp. destruct n; auto.
    - destruct (b_task (k_m y)); auto. destruct (b_q (k_m y)); auto.
    - destruct (nth_error (b_wait (k_m y)) n) as [[? [|]]|]; auto.
    - destruct b; cbn; [|destruct (b_task (k_m y)); auto]. split; [|exact Hp]. induction (_ ++ _); cbn; auto.
    - specialize (HB (k_m y) mp (v_pready (k_s y)) (v_prdata (k_s y)) (v_pslverr (k_s y))).
      destruct (a_edge L ep mp _ _ _ (k_m y)). cbn in *. destruct HB. split; congruence. }
  destruct (k_step tw tr L ep y o) as [y1 o1]. cbn [fst snd] in HS. destruct HS as [HS1 HS2]. specialize (IH y1 Hh HS2).
  destruct (k_run tw tr L ep y1 h) as [y2 o2]. cbn [snd] in *. rewrite starts_app, map_app, HS1, IH.
  destruct o as [[]|?|?]; reflexivity.
Qed.
Print Assumptions C35_issue_order.

(** Master and slave, any interleaving with any pauses, any target: the completed operations are the first ones issued, their results
    and the target's state those of serving the operations one after the other, the next operation perhaps in part. *)
Theorem C35_system : forall T (tw : T -> Z -> list Z -> T * res unit) tr L ep t0 h, 0 < L -> Forall no_reset h -> Forall kop_ok h ->
  let '(y, o) := k_run tw tr L ep (sys0 t0) h in
  exists n j,
    (n <= length (starts o))%nat /\
    sets o = firstn n (snd (serve_all tw tr L ep t0 (starts o))) /\
    v_t (k_s y) = match nth_error (starts o) n with
                  | Some x => apb_part tw tr L (fst (serve_all tw tr L ep t0 (firstn n (starts o)))) (snd x) j
                  | None => fst (serve_all tw tr L ep t0 (starts o))
                  end.
Proof.
  intros T tw tr L ep t0 h HL Hn Hk. pose proof (k_run_inv L ep HL tw tr t0 h _ _ _ (sys0_inv L ep tw tr t0) Hn Hk) as Hi.
  destruct (k_run tw tr L ep (sys0 t0) h) as [y o]. cbn [app] in Hi. set (ops := starts o) in *.
  assert (HG : forall done rest t1, serve_all tw tr L ep t0 done = (t1, sets o) -> ops = done ++ rest ->
    sets o = firstn (length done) (snd (serve_all tw tr L ep t0 ops)) /\ fst (serve_all tw tr L ep t0 (firstn (length done) ops)) = t1 /\
    (length done <= length ops)%nat).
  { intros done rest t1 Hs ->. rewrite serve_all_app, Hs. destruct (serve_all tw tr L ep t1 rest) as [t2 r2]. cbn [snd].
    pose proof (serve_all_len L ep tw tr done t0) as Hl. rewrite Hs in Hl. cbn [snd] in Hl. rewrite <- Hl at 1.
    rewrite firstn_app, firstn_all, Nat.sub_diag, firstn_O, app_nil_r. split; [auto|].
    rewrite firstn_app, firstn_all, Nat.sub_diag, firstn_O, app_nil_r, Hs. split; auto. rewrite app_length. lia. }
  assert (HN : forall done x rest, ops = done ++ x :: rest -> nth_error ops (length done) = Some x).
  { intros done x rest ->. rewrite nth_error_app2, Nat.sub_diag by lia. reflexivity. }
  destruct y as [m v]. destruct Hi as (Hok & _ & [(H1 & H2 & done & t1 & Hs & Hm)|(done & t1 & r & Hs & Ht & Hops & Hw & Hm)]); cbn [k_m k_s] in *.
  - destruct (b_task m) as [| | |x|r|r|r|]; try destruct Hm as [Hops Hm].
    + destruct Hm.
    + destruct (HG _ _ _ Hs Hops) as (G1 & G2 & G3). exists (length done), O. split; [exact G3|]. split; [exact G1|]. destruct Hm as [-> _].
      destruct (b_q m) as [|x q]; [|rewrite (HN _ _ _ Hops), G2; destruct (snd x); reflexivity].
      rewrite app_nil_r in Hops. rewrite Hops, (proj2 (nth_error_None done _)), Hs by lia. reflexivity.
    + destruct (HG _ _ _ Hs Hops) as (G1 & G2 & G3). exists (length done), O. split; [exact G3|]. split; [exact G1|]. destruct Hm as [-> _].
      destruct (b_q m) as [|x q]; [|rewrite (HN _ _ _ Hops), G2; destruct (snd x); reflexivity].
      rewrite app_nil_r in Hops. rewrite Hops, (proj2 (nth_error_None done _)), Hs by lia. reflexivity.
    + destruct (HG _ _ _ Hs Hops) as (G1 & G2 & G3). exists (length done), O. split; [exact G3|]. split; [exact G1|]. destruct Hm as [-> _].
      rewrite (HN _ _ _ Hops), G2. destruct (snd x); reflexivity.
    + destruct (HG _ _ _ Hs Hops) as (G1 & G2 & G3). destruct Hm as [(Hx & Hkk & _ & _ & d & rs & Hp & _) _].
      exists (length done), (Z.to_nat (ru_k r)). split; [exact G3|]. split; [exact G1|]. rewrite (HN _ _ _ Hops), G2.
      symmetry. eapply prog_part; eauto. lia.
    + destruct (HG _ _ _ Hs Hops) as (G1 & G2 & G3). destruct Hm as [(Hx & Hkk & _ & _ & d & rs & Hp & _) _].
      exists (length done), (Z.to_nat (ru_k r)). split; [exact G3|]. split; [exact G1|]. rewrite (HN _ _ _ Hops), G2.
      symmetry. eapply prog_part; eauto. lia.
    + destruct Hm.
    + destruct Hm.
  - destruct (HG _ _ _ Hs Hops) as (G1 & G2 & G3).
    destruct Hm as [(_ & _ & (Hx & Hkk & _ & _ & d & rs & Hp & _))|(_ & _ & tk & x & e & (Hx & Hkk & _ & Hwd & d & rs & Hp & _) & Hacc & _)].
    + exists (length done), (Z.to_nat (ru_k r)). split; [exact G3|]. split; [exact G1|]. rewrite (HN _ _ _ Hops), G2.
      symmetry. eapply prog_part; eauto. lia.
    + exists (length done), (Z.to_nat (ru_k r + 1)). split; [exact G3|]. split; [exact G1|]. rewrite (HN _ _ _ Hops), G2.
      destruct (prog_S L HL tw tr _ _ _ _ _ _ Hx Hkk Hp) as (t2 & x' & e' & Hacc' & Hp' & _). rewrite <- Hwd, Hacc in Hacc'.
      injection Hacc' as <- <- <-. symmetry. eapply prog_part; eauto. lia.
Qed.
Print Assumptions C35_system.

(** From every state reached, finitely many clock edges without pauses complete everything that was issued. *)
Theorem C35_completes : forall T (tw : T -> Z -> list Z -> T * res unit) tr L ep t0 h, 0 < L -> Forall no_reset h -> Forall kop_ok h ->
  exists N, forall n, (N <= n)%nat ->
  let '(y, o) := k_run tw tr L ep (sys0 t0) (h ++ concat (repeat calm_round n)) in
  starts o = starts (snd (k_run tw tr L ep (sys0 t0) h)) /\
  sets o = snd (serve_all tw tr L ep t0 (starts o)) /\ v_t (k_s y) = fst (serve_all tw tr L ep t0 (starts o)).
Proof.
  intros T tw tr L ep t0 h HL Hn Hk. pose proof (k_run_inv L ep HL tw tr t0 h _ _ _ (sys0_inv L ep tw tr t0) Hn Hk) as Hi.
  destruct (k_run tw tr L ep (sys0 t0) h) as [y o] eqn:E. cbn [app] in Hi. exists (Z.to_nat (mu L y)). intros n Hle.
  pose proof (mu_nonneg L ep HL tw tr t0 _ _ _ Hi) as Hmu. rewrite k_run_app, E.
  pose proof (rounds_done L ep HL tw tr t0 n y _ _ Hi ltac:(lia)) as HR.
  destruct (k_run tw tr L ep y (concat (repeat calm_round n))) as [y' o']. destruct HR as (H1 & H2 & H3).
  rewrite starts_app, H1, app_nil_r, sets_app. cbn [snd]. split; [reflexivity|].
  exact (mu_0 L ep HL tw tr t0 _ _ _ H2 H3).
Qed.
Print Assumptions C35_completes.

(** The target calls of a write and of a read operation: the strobed bytes of the words of C33, ascending; SLVERR if one raised and pslverr is present,
    failed words of a read deliver zeros. *)
Theorem C35_write_calls : forall T (tw : T -> Z -> list Z -> T * res unit) tr L ep w t, 0 < L -> are_bytes (lc_data w) ->
  let evs := fst (lite_write L w) in
  exists t' ans,
    apb_serve (log_write tw) tr L ep (t, []) (ACW w) =
      ((t', concat ans), AWResp (lc_addr w) (zlen (lc_data w)) (if ep && existsb failed (concat ans) then SLVERR else OKAY)) /\
    Forall2 (fun p x => lite_calls L true (fst p) (snd p) x) (combine (law_of evs) (lw_of evs)) ans.
Proof.
  intros T tw tr L ep [A D p] t HL HD evs. cbn [apb_serve lc_addr lc_data]. unfold evs. rewrite lite_write_spec by auto. cbn [fst].
  rewrite law_of_pairs, lw_of_pairs, combine_map. set (C := lite_cycles L A (zlen D)).
  set (pairs := map (fun x => (lw_a L A p x, lw_w L A D x)) (zrange 0 C)).
  destruct (lite_slave_write_any tw L HL true pairs t [] [] []) as (t' & ans & E & HF).
  { apply Forall_forall. intros q Hq. apply in_map_iff in Hq as (k & <- & Hk). apply in_zrange in Hk. apply lw_w_fits; auto. }
  { auto. }
  exists t', ans. split; [|exact HF]. unfold pairs in E. rewrite !map_map, !app_nil_r in E. cbn [fst snd app] in E.
  change (fun x => lw_a L A p x) with (lw_a L A p) in E. change (fun x => lw_w L A D x) with (lw_w L A D) in E. fold C. rewrite E.
  f_equal. f_equal. destruct ep; auto. cbn [andb]. unfold lite_write_resp. clear.
  assert (HG : forall r, fold_left agg_resp (map (fun x => if existsb failed x then SLVERR else OKAY) ans) r =
                         if existsb failed (concat ans) then SLVERR else r).
  { induction ans as [|x ans IH]; intros r; cbn [map fold_left concat]; auto. rewrite IH, existsb_app.
    destruct (existsb failed x), (existsb failed (concat ans)); reflexivity. }
  apply HG.
Qed.
Print Assumptions C35_write_calls.
Theorem C35_read_calls : forall T (tr : T -> Z -> Z -> T * res (list Z)) tw L ep r t, 0 < L -> 0 <= lr_len r ->
  exists t' ans,
    apb_serve tw (log_read tr) L ep (t, []) (ACR r) =
      ((t', ans), ARResp (lr_addr r) (fst (lite_read_resp L r (map (fun x => {| lr_data := match snd x with Ok d => le_int d | Err _ => 0 end; lr_resp := OKAY |}) ans)))
                    (if ep && existsb (fun x => is_err (snd x)) ans then SLVERR else OKAY)) /\
    map fst ans = map (fun a => (down L (la_addr a), L)) (lite_read L r).
Proof.
  intros T tr tw L ep r t HL Hlen. cbn [apb_serve]. destruct (lite_slave_read_any tr L HL (lite_read L r) t []) as (t' & ans & E & HF).
  exists t', ans. split; [|exact HF]. rewrite E. cbn [app]. f_equal. f_equal.
  - unfold lite_read_resp. generalize (lite_cycles L (lr_addr r) (lr_len r)) as C. intros C.
    enough (HG : forall l k d r1 r2,
      fst (lite_read_loop L r C k (map (fun x : Z * Z * res (list Z) => {| lr_data := match snd x with Ok d => le_int d | Err _ => 0 end; lr_resp := if is_err (snd x) then SLVERR else OKAY |}) l) d r1) =
      fst (lite_read_loop L r C k (map (fun x => {| lr_data := match snd x with Ok d => le_int d | Err _ => 0 end; lr_resp := OKAY |}) l) d r2)) by apply HG.
    clear. induction l as [|x l IH]; intros k d r1 r2; cbn [map lite_read_loop]; auto.
  - destruct ep; auto. cbn [andb]. unfold lite_read_resp. rewrite lite_read_loop_resp, map_map. cbn [lr_resp]. clear.
    assert (HG : forall r, fold_left agg_resp (map (fun x => if is_err (snd x) then SLVERR else OKAY) ans) r =
                           if existsb (fun x : Z * Z * res (list Z) => is_err (snd x)) ans then SLVERR else r).
    { induction ans as [|x ans IH]; intros r; cbn [map fold_left existsb]; auto. rewrite IH.
      destruct (is_err (snd x)), (existsb _ ans); reflexivity. }
    apply HG.
Qed.
Print Assumptions C35_read_calls.

(** On a byte memory: results and memory are those of performing the operations in the order of the calls. *)
Theorem C35_memory : forall T L ep lo hi phi (inv : T -> Prop) view tw tr,
  flat_target L lo hi phi inv view tw tr -> 0 < L -> lo mod L = 0 -> hi mod L = 0 ->
  forall t0 h, inv t0 -> Forall no_reset h -> Forall kop_ok h ->
  Forall (fun x => op_in lo hi (snd x)) (starts (snd (k_run tw tr L ep (sys0 t0) h))) ->
  let '(y, o) := k_run tw tr L ep (sys0 t0) h in
  (exists n, (n <= length (starts o))%nat /\ sets o = firstn n (snd (mem_serve phi (view t0) (starts o)))) /\
  (length (sets o) = length (starts o) -> view (v_t (k_s y)) =f fst (mem_serve phi (view t0) (starts o))).
Proof.
  intros T L ep lo hi phi inv view tw tr Hft HL Hlo Hhi t0 h Hi Hn Hk Hin.
  pose proof (C35_system T tw tr L ep t0 h HL Hn Hk) as HS. destruct (k_run tw tr L ep (sys0 t0) h) as [y o]. cbn [snd] in Hin.
  destruct HS as (n & j & H1 & H2 & H3).
  destruct (serve_flat L ep lo hi phi inv view tw tr Hft HL Hlo Hhi _ t0 Hi Hin) as (t' & E & Hi' & Hv).
  pose proof (serve_all_len L ep tw tr (starts o) t0) as Hl. rewrite E in *. cbn [fst snd] in *. split.
  - exists n. auto.
  - intros Hall. assert (n = length (starts o)) as -> by (rewrite H2, firstn_length in Hall; lia).
    rewrite (proj2 (nth_error_None (starts o) _)) in H3 by lia. rewrite H3. exact Hv.
Qed.
Print Assumptions C35_memory.

(** ApbRam of [size] bytes *)
Theorem C35_ram : forall size L ep hi m0 h, 0 < size -> 0 < L -> size mod L = 0 -> hi mod L = 0 -> sm_reachable size m0 ->
  Forall no_reset h -> Forall kop_ok h ->
  Forall (fun x => op_in 0 hi (snd x)) (starts (snd (k_run ram_write ram_read L ep (sys0 m0) h))) ->
  let '(y, o) := k_run ram_write ram_read L ep (sys0 m0) h in
  (exists n, (n <= length (starts o))%nat /\ sets o = firstn n (snd (mem_serve (fun a => a mod size) (peek m0) (starts o)))) /\
  (length (sets o) = length (starts o) -> peek (v_t (k_s y)) =f fst (mem_serve (fun a => a mod size) (peek m0) (starts o))).
Proof.
  intros size L ep hi m0 h Hs HL Hm Hhi Hr Hn Hk Hin.
  exact (C35_memory _ L ep 0 hi _ _ _ _ _ (ram_flat L size 0 hi HL Hs Hm) HL (Z.mod_0_l L ltac:(lia)) Hhi m0 h Hr Hn Hk Hin).
Qed.
Print Assumptions C35_ram.

(** two writes and a read, with pauses on both sides *)
Example C35_nontrivial :
  let h := [KM (BIssue (ex_w 6 [1; 2; 3])); KEdge true false; KM (BIssue (ex_w 7 [9])); KM (BIssue (ex_r 5 4)); KEdge false true] ++
           concat (repeat [KM BWake; KEdge false false; KEdge true true] 20) in
  let '(y, o) := k_run ram_write ram_read 4 true (sys0 (sm_init 16)) h in
  map snd (sets o) = [Some (AWResp 6 3 OKAY); Some (AWResp 7 1 OKAY); Some (ARResp 5 [0; 1; 9; 3] OKAY)] /\
  map (peek (v_t (k_s y))) [5; 6; 7; 8; 9] = [0; 1; 9; 3; 0].
Proof. vm_compute. auto. Qed.

(** without pslverr a failed access is reported as OKAY *)
Example C35_no_pslverr :
  let tw := fun (t : Z) (_ : Z) (_ : list Z) => (t, @Err unit ValueError) in
  let tr := fun (t : Z) (_ _ : Z) => (t, @Err (list Z) ValueError) in
  let h := KM (BIssue (ex_w 0 [1])) :: KM (BIssue (ex_r 0 2)) :: concat (repeat calm_round 10) in
  map snd (sets (snd (k_run tw tr 4 false (sys0 0) h))) = [Some (AWResp 0 1 OKAY); Some (ARResp 0 [0; 0] OKAY)] /\
  map snd (sets (snd (k_run tw tr 4 true (sys0 0) h))) = [Some (AWResp 0 1 SLVERR); Some (ARResp 0 [0; 0] SLVERR)].
Proof. vm_compute. auto. Qed.

(** ** C31, C32 for ApbMaster: any slave, resets included *)
Lemma life_of L ep h : 0 < L -> Forall bop_ok h -> let '(s, o) := b_run L ep apb_init h in life L s o.
Proof. intros HL Hh. exact (life_run L ep HL h apb_init [] (life_init L) Hh). Qed.

(** write() and read() return only what their event was set to; no operation has its event set twice but by resets; the task never crashes *)
Theorem C31_apb_returns : forall L ep h, 0 < L -> Forall bop_ok h ->
  let '(s, o) := b_run L ep apb_init h in
  (forall x d, In (ORet x d) o -> In (x, d) (sets o)) /\ ~ In OCrash o /\ b_task s <> ADead /\
  (forall x, In x (starts o) -> In x (map fst (sets o)) -> (exists d, In (ORet x d) o) \/ exists n d, nth_error (b_wait s) n = Some (x, Some d)).
Proof.
  intros L ep h HL Hh. pose proof (life_of L ep h HL Hh) as H.
  assert (Hcr : ~ In OCrash (snd (b_run L ep apb_init h))).
  { enough (HG : forall h s o, life L s o -> Forall bop_ok h -> ~ In OCrash (snd (b_run L ep s h))) by (apply (HG h apb_init []); auto; apply life_init).
    clear - HL. induction h as [|op h IH]; intros s o Hl Hh; cbn [b_run]; [intros []|].
    apply Forall_cons_iff in Hh as [Hop Hh]. pose proof (life_step L ep HL s o op Hl Hop) as H1.
    assert (Hc : ~ In OCrash (snd (b_step L ep s op))).
    { destruct op as [c|c|n| |n|p pr pd pe|b]; cbn [b_step].
      - intros [Hx|[]]. discriminate.
      - intros [].
      - destruct (nth_error (b_pend s) n); [intros [Hx|[]]; discriminate|intros []].
      - destruct (b_task s); try (intros []; fail). destruct (b_q s); intros [].
      - destruct (nth_error (b_wait s) n) as [[? [|]]|]; try (intros []; fail). intros [Hx|[]]. discriminate.
      - assert (HA : forall q s, Forall (fun x => op_ok (snd x)) q -> ~ In OCrash (snd (a_loop L p q s))).
        { induction q as [|x q IHq]; intros s' Hq; cbn [a_loop]; [intros []|]. apply Forall_cons_iff in Hq as [Hx Hq].
          destruct (Z.ltb_spec 0 (ac_cycles L (snd x))) as [Hc|Hc].
          - unfold a_beat. pose proof (a_word_spec L HL (snd x) 0 Hx ltac:(lia)) as Ew. rewrite ooff_0 in Ew by lia. rewrite Ew. intros [].
          - set (s1 := b_complete _ _ _). specialize (IHq s1 Hq). destruct (a_loop L p q s1). cbn [snd] in *. intros [Hx'|Hx']; [discriminate|auto]. }
        destruct Hl. assert (Hok : Forall (fun x => op_ok (snd x)) (outst s)) by (rewrite Forall_forall in *; auto).
        unfold a_edge. unfold outst in Hok. destruct (b_task s) as [| | |x|r|r|r|]; cbn [held app task_ok] in *; try (intros []; fail); auto.
        destruct pr; [|intros []]. unfold a_ack. cbv zeta. apply Forall_cons_iff in Hok as [Hx Hok]. destruct lf_task as [Hk Hoff].
        destruct (Z.ltb_spec (ru_k r + 1) (ac_cycles L (snd (ru_op r)))) as [Hc|Hc].
        + unfold a_beat. rewrite Hoff. rewrite a_word_spec by (auto; lia). intros [].
        + match goal with |- context [a_loop L p ?q ?s] => specialize (HA q s Hok); destruct (a_loop L p q s) end.
          cbn [snd] in *. intros [Hx'|Hx']; [discriminate|auto].
      - destruct b; cbn [a_reset snd]; [|destruct (b_task s); intros []]. intros Hin. apply in_map_iff in Hin as (x & Hx & _). discriminate. }
    destruct (b_step L ep s op) as [s1 o1]. specialize (IH s1 _ H1 Hh). destruct (b_run L ep s1 h) as [s2 o2]. cbn [snd] in *.
    intros Hin. apply in_app_or in Hin as [Hin|Hin]; auto. }
  destruct (b_run L ep apb_init h) as [s o]. cbn [snd] in Hcr. destruct H.
  assert (Hret : forall x d, In (ORet x d) o <-> In (x, d) (rets o)).
  { intros x d. clear. induction o as [|e o IH]; [cbn; tauto|]. destruct e; cbn [In rets]; rewrite <- IH;
    try (split; [intros [H|H]; [discriminate|exact H]|intros H; right; exact H]). split; (intros [H|H]; [left; congruence|right; exact H]). }
  split; [intros x d Hx; apply lf_ret; now apply Hret|]. split; [exact Hcr|]. split; [intros E; rewrite E in lf_task; exact lf_task|].
  intros x Hx Hs. destruct (lf_here x Hx) as [Hr|Hw].
  - left. apply in_map_iff in Hr as ((y & d) & E & Hr). cbn in E. subst y. exists d. now apply Hret.
  - right. apply in_map_iff in Hw as ((y & e) & E & Hw). cbn in E. subst y. destruct (lf_data x e Hw) as [_ Hnone].
    destruct e as [d|]; [|now destruct (Hnone eq_refl)]. apply In_nth_error in Hw as (n & Hw). eauto.
Qed.
Print Assumptions C31_apb_returns.

(** idle() holds exactly when every operation issued has its event set -- missing: histories that assert reset between lines 341 and 345 *)
Theorem C31_apb_idle_partial : forall L ep h, 0 < L -> Forall bop_ok h -> no_reset_in_window L ep apb_init h ->
  let '(s, o) := b_run L ep apb_init h in
  (b_is_idle s = true <-> forall x, In x (starts o) -> In x (map fst (sets o))) /\ b_idle s = b_is_idle s.
Proof.
  intros L ep h HL Hh Hw. pose proof (life_of L ep h HL Hh) as H.
  pose proof (kept_run L ep HL h apb_init [] (life_init L) (fun x Hx => False_ind _ Hx) Hh Hw) as K.
  destruct (b_run L ep apb_init h) as [s o]. cbn [app] in K. destruct H. unfold b_is_idle. split; [|exact lf_idle].
  rewrite lf_cnt. pose proof (zlen_nonneg (outst s)). split.
  - intros E x Hx. destruct (K x Hx) as [|Ho]; auto. destruct (outst s); [destruct Ho|]. rewrite zlen_cons in *. pose proof (zlen_nonneg l). lia.
  - intros Hall. destruct (outst s) as [|x l] eqn:Eo; [reflexivity|]. exfalso.
    apply (lf_open x); [left; reflexivity|]. apply Hall. apply lf_out. left. reflexivity.
Qed.
Print Assumptions C31_apb_idle_partial.

(** after a reset every operation issued has its event set and idle() holds -- missing: as above *)
Theorem C32_apb_reset_partial : forall L ep h, 0 < L -> Forall bop_ok h -> no_reset_in_window L ep apb_init (h ++ [BReset true]) ->
  let '(s, o) := b_run L ep apb_init (h ++ [BReset true]) in
  b_is_idle s = true /\ b_psel s = false /\ b_penable s = false /\ forall x, In x (starts o) -> In x (map fst (sets o)).
Proof.
  intros L ep h HL Hh Hw.
  assert (Hh' : Forall bop_ok (h ++ [BReset true])) by (apply Forall_app; split; [auto|repeat constructor]).
  pose proof (C31_apb_idle_partial L ep _ HL Hh' Hw) as H. rewrite b_run_app in *.
  destruct (b_run L ep apb_init h) as [s o]. cbn [b_run b_step a_reset] in *. destruct H as [H _].
  split; [reflexivity|]. split; [reflexivity|]. split; [reflexivity|]. now apply H.
Qed.
Print Assumptions C32_apb_reset_partial.

Example C32_apb_nontrivial :
  let h := [BEdge false false 0 false; BIssue (ex_w 6 [1; 2; 3]); BIssue (ex_r 0 4); BWake; BEdge false false 0 false; BEdge false false 0 false] in
  let '(s, o) := b_run 4 true apb_init (h ++ [BReset true; BReturn 0; BReturn 0]) in
  no_reset_in_window 4 true apb_init (h ++ [BReset true]) /\
  map snd (sets o) = [None; None] /\ b_is_idle (fst (b_run 4 true apb_init h)) = false /\ length (b_wait s) = O /\ b_is_idle s = true.
Proof. vm_compute. repeat split; auto; intros; discriminate. Qed.

(** An operation taken from the queue when reset is asserted before the next clock edge is lost: idle() holds, but write() never returns,
    whatever happens afterwards. *)
Theorem C32_apb_lost_refuted : exists h x, forall L ep h', 0 < L -> Forall bop_ok h' ->
  In (OStart x) (snd (b_run L ep apb_init h)) /\ b_is_idle (fst (b_run L ep apb_init h)) = true /\
  forall d, ~ In (OSet x d) (snd (b_run L ep apb_init (h ++ h'))) /\ ~ In (ORet x d) (snd (b_run L ep apb_init (h ++ h'))).
Proof.
  exists [BEdge false false 0 false; BIssue (ex_w 6 [1; 2; 3]); BWake; BReset true], (0, ex_w 6 [1; 2; 3]). intros L ep h' HL Hh'.
  set (h := [BEdge false false 0 false; BIssue (ex_w 6 [1; 2; 3]); BWake; BReset true]). set (x := (0, ex_w 6 [1; 2; 3])).
  assert (Hh : Forall bop_ok h). { repeat constructor; cbn; try lia. }
  pose proof (life_of L ep h HL Hh) as Hl. pose proof (life_of L ep (h ++ h') HL ltac:(apply Forall_app; auto)) as Hl2.
  rewrite b_run_app in *. cbn in Hl.
  assert (E : exists s o, b_run L ep apb_init h = (s, o) /\ gone x s o /\ In (OStart x) o /\ b_is_idle s = true /\ life L s o).
  { eexists. eexists. split; [cbn; reflexivity|]. split; [unfold gone, x; cbn; repeat split; auto; intros []|]. split; [left; reflexivity|]. split; [reflexivity|exact Hl]. }
  destruct E as (s & o & E & G & Hst & Hid & Hlf). rewrite E in *. cbn [fst snd]. split; auto. split; auto.
  pose proof (gone_run L ep HL x h' s o Hlf G Hh') as G2. destruct (b_run L ep s h') as [s2 o2]. cbn [snd].
  destruct G2 as (_ & _ & _ & G4). destruct Hl2. intros d.
  assert (Hs : ~ In (x, d) (sets (o ++ o2))) by (intros Hin; apply G4; apply (in_map fst) in Hin; exact Hin).
  split; intros Hin; apply Hs.
  - revert Hin. clear. induction (o ++ o2) as [|e l IH]; [intros []|]. intros [->|Hin]; [left; reflexivity|destruct e; cbn; auto].
  - apply lf_ret. revert Hin. clear. induction (o ++ o2) as [|e l IH]; [intros []|]. intros [->|Hin]; [left; reflexivity|destruct e; cbn; auto].
Qed.
Print Assumptions C32_apb_lost_refuted.

(** current_command is not cleared when an operation completes (line 457 assigns another attribute): a reset asserted before the caller of read() continues
    replaces its result by None. *)
Theorem C32_apb_result_refuted : exists h x r,
  let '(s, o) := b_run 4 true apb_init h in
  In (OSet x (Some r)) o /\ b_is_idle s = true /\ b_wait s = [(x, Some (Some r))] /\
  snd (b_run 4 true s [BReset true; BReturn 0]) = [OSet x None; ORet x None] /\ snd (b_run 4 true s [BReturn 0; BReset true]) = [ORet x (Some r); OSet x None].
Proof.
  exists [BIssue (ex_r 0 4); BEdge false false 0 false; BEdge false false 0 false; BEdge false true 67305985 false], (0, ex_r 0 4), (ARResp 0 [1; 2; 3; 4] OKAY).
  vm_compute. auto 10.
Qed.
Print Assumptions C32_apb_result_refuted.
