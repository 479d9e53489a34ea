(** AXI-Lite systems (M_litesys.v): every step of a task or a channel that does something lowers a measure. *)
From Coq Require Import ZArith Lia List Bool Permutation.
From Coq Require Import ZifyBool ZifyNat.
From Verif Require Import Py M_axi M_axil M_liteeng S_liteeng P_liteeng M_sys S_sys M_litesys S_litesys S_live P_fair P_litesys.
Import ListNotations.
Open Scope nat_scope.

(** weights of the transfers in a channel *)
Definition lsum {A} (f : A -> nat) (l : list A) : nat := list_sum (map f l).
Lemma lsum_app {A} (f : A -> nat) a b : lsum f (a ++ b) = lsum f a + lsum f b.
Proof. unfold lsum. rewrite map_app, list_sum_app. reflexivity. Qed.
Lemma lsum_cons {A} (f : A -> nat) a b : lsum f (a :: b) = f a + lsum f b.
Proof. reflexivity. Qed.
Lemma lsum_nil {A} (f : A -> nat) : lsum f [] = 0. Proof. reflexivity. Qed.
Definition chw {A} (f : A -> nat) (c : chan A) : nat :=
  lsum (fun x => f x + 2) (ch_src c) + match ch_reg c with Some x => f x + 1 | None => 0 end + lsum f (ch_snk c).
Lemma chw_push {A} (f : A -> nat) c x : chw f (ch_push c x) = chw f c + f x + 2.
Proof. unfold chw, ch_push. cbn [ch_src ch_reg ch_snk]. rewrite lsum_app. cbn. lia. Qed.
Lemma chw_pop {A} (f : A -> nat) c x q : ch_snk c = x :: q -> chw f (ch_pop c q) + f x = chw f c.
Proof. intros E. unfold chw, ch_pop. cbn [ch_src ch_reg ch_snk]. rewrite E, lsum_cons. lia. Qed.

Definition can_load {A} (c : chan A) : bool := match ch_reg c, ch_src c with None, _ :: _ => true | _, _ => false end.
Definition can_xfer {A} (c : chan A) : bool := match ch_reg c with Some _ => q_room (ch_snk c) | None => false end.
Lemma load_en {A} (f : A -> nat) (c : chan A) : can_load c = true -> chw f (ch_load c) < chw f c.
Proof.
  unfold can_load, ch_load, chw. destruct (ch_reg c), (ch_src c); try discriminate. intros _. cbn [ch_src ch_reg ch_snk].
  rewrite lsum_cons. lia.
Qed.
Lemma load_dis {A} (c : chan A) : can_load c = false -> ch_load c = c.
Proof. unfold can_load, ch_load. destruct (ch_reg c), (ch_src c); try discriminate; reflexivity. Qed.
Lemma xfer_en {A} (f : A -> nat) (c : chan A) : can_xfer c = true -> chw f (ch_xfer c) < chw f c.
Proof.
  unfold can_xfer, ch_xfer, chw. destruct (ch_reg c); try discriminate. intros ->. cbn [ch_src ch_reg ch_snk].
  rewrite lsum_app. cbn. lia.
Qed.
Lemma xfer_dis {A} (c : chan A) : can_xfer c = false -> ch_xfer c = c.
Proof. unfold can_xfer, ch_xfer. destruct (ch_reg c); try reflexivity. intros ->. reflexivity. Qed.

(** the slave's next step is of the same form *)
Definition same_act {R S} (a b : sact R S) : Prop :=
  match a, b with
  | AWait k, AWait k' => k = k'
  | AEmit _ _, AEmit _ _ | ATau _, ATau _ | ADead, ADead => True
  | _, _ => False
  end.

Section Live.
Context {C E R S : Type}.
Variable sends : C -> list E.
Variable need : C -> nat.
Variable kind : E -> bool.
Variable act : S -> sact R S.
Variable sin : S -> E -> S.
Variable pot : S -> nat.
Variable wt : E -> nat.
Hypothesis Hwait : forall s k e, act s = AWait k -> pot (sin s e) < pot s + wt e.
Hypothesis Hemit : forall s r s', act s = AEmit r s' -> pot s' + 4 <= pot s.
Hypothesis Htau : forall s s', act s = ATau s' -> pot s' < pot s.
Notation step := (u_step sends need kind act sin).
Notation run := (u_run sends need kind act sin).

Definition cw (c : C) : nat := lsum (fun e => wt e + 3) (sends c).
Definition curw (o : option (C * list E)) : nat := match o with Some (_, l) => lsum (fun e => wt e + 3) l | None => 0 end.
Definition gw (m : eng C E R) : nat :=
  lsum (fun c => cw c + 3) (g_pend m) + lsum (fun c => cw c + 2) (g_q m) + curw (g_cur m) + length (g_rq m).
Definition umu (y : usys C E R S) : nat :=
  gw (u_m y) + chw wt (u_a y) + chw wt (u_w y) + chw (fun _ => 1) (u_b y) + pot (u_s y).

Definition u_en (y : usys C E R S) (o : uop C S) : bool :=
  match o with
  | UIssue _ | UInit _ | UPoke _ => false
  | UStart n => match nth_error (g_pend (u_m y)) n with Some _ => true | None => false end
  | UGet => match g_wtask (u_m y), g_cur (u_m y), g_q (u_m y) with true, None, _ :: _ => true | _, _, _ => false end
  | USend => match unext (u_m y) with Some e => q_room (ch_src (ufwd y (kind e))) | None => false end
  | URGet => match g_rtask (u_m y), g_rcur (u_m y), g_rq (u_m y) with true, None, _ :: _ => true | _, _, _ => false end
  | URecv => match uwaits (u_m y), ch_snk (u_b y) with true, _ :: _ => true | _, _ => false end
  | ULoad k => can_load (ufwd y k)
  | UXfer k => can_xfer (ufwd y k)
  | ULoadB => can_load (u_b y)
  | UXferB => can_xfer (u_b y)
  | USlave => match act (u_s y) with
              | AWait k => match ch_snk (ufwd y k) with _ :: _ => true | [] => false end
              | AEmit _ _ => q_room (ch_src (u_b y))
              | ATau _ => true
              | ADead => false
              end
  end.

Lemma umu_fwd y k c : umu (uset_fwd y k c) + chw wt (ufwd y k) = umu y + chw wt c.
Proof. unfold umu, uset_fwd, ufwd. destruct k; cbn [u_m u_a u_w u_b u_s]; lia. Qed.
Lemma umu_b y c : umu (uset_b y c) + chw (fun _ => 1) (u_b y) = umu y + chw (fun _ => 1) c.
Proof. unfold umu, uset_b. cbn [u_m u_a u_w u_b u_s]. lia. Qed.
Lemma umu_s y s : umu (uset_s y s) + pot (u_s y) = umu y + pot s.
Proof. unfold umu, uset_s. cbn [u_m u_a u_w u_b u_s]. lia. Qed.
Lemma umu_m y m : umu (uset_m y m) + gw (u_m y) = umu y + gw m.
Proof. unfold umu, uset_m. cbn [u_m u_a u_w u_b u_s]. lia. Qed.
Lemma lsum_remove {A} (f : A -> nat) l : forall n x, nth_error l n = Some x ->
  lsum f (firstn n l ++ skipn (Datatypes.S n) l) + f x = lsum f l.
Proof.
  induction l as [|a l IH]; intros [|n] x Hx; try discriminate Hx; cbn [nth_error] in Hx.
  - injection Hx as <-. cbn [firstn skipn app]. rewrite lsum_cons. lia.
  - cbn [firstn skipn app]. rewrite !lsum_cons. specialize (IH n x Hx). cbn [skipn] in IH. lia.
Qed.
Lemma left_of_w (c : C) l : curw (left_of c l) = lsum (fun e => wt e + 3) l.
Proof. destruct l; reflexivity. Qed.

Ltac flds := cbn [g_pend g_q g_cur g_rq g_rcur g_wtask g_rtask eng_issue eng_set_pend eng_get eng_sent] in *.

Lemma resp_gw s c rq got : fst (eng_resp need s c rq got) = fst (eng_resp need s c rq got) ->
  gw (fst (eng_resp (E := E) need s c rq got)) + length (g_rq s) = gw s + length rq.
Proof. intros _. unfold eng_resp, gw. destruct (Nat.leb _ _); cbn [fst]; flds; lia. Qed.

Lemma u_en_lt y o : uinternal o -> u_en y o = true -> umu (fst (step y o)) < umu y.
Proof.
  intros Hi. destruct o as [c|c|n| | | | |k|k| | | |f]; cbn [uinternal] in Hi; try tauto; cbn [u_en u_step]; unfold um_step; cbn [eng_step].
  - destruct (nth_error _ n) as [c|] eqn:En; [|discriminate]. intros _. cbn [fst].
    pose proof (umu_m y (eng_issue (eng_set_pend (u_m y) (firstn n (g_pend (u_m y)) ++ skipn (Datatypes.S n) (g_pend (u_m y)))) c)) as M.
    unfold gw in M. flds. rewrite (lsum_app _ (g_q (u_m y))), lsum_cons, lsum_nil in M.
    pose proof (lsum_remove (fun c => cw c + 3) _ _ _ En) as Hrm. cbn beta in *. lia.
  - destruct (g_wtask (u_m y)); [|discriminate]. destruct (g_cur (u_m y)) eqn:Ec; [discriminate|].
    destruct (g_q (u_m y)) as [|c q] eqn:Eq; [discriminate|]. intros _. cbn [fst].
    pose proof (umu_m y (eng_get sends (u_m y) c q)) as M.
    unfold gw in M. flds. rewrite left_of_w, app_length, Ec, Eq, lsum_cons in M. cbn [curw length] in M. fold (cw c) in M. lia.
  - unfold unext. destruct (g_wtask (u_m y)) eqn:Ew; [|discriminate]. destruct (g_cur (u_m y)) as [[c [|e l]]|] eqn:Ec; try discriminate.
    intros Hr. rewrite Hr. unfold um_step.
    assert (Em : u_m (uset_fwd y (kind e) (ch_push (ufwd y (kind e)) e)) = u_m y) by (unfold uset_fwd; destruct (kind e); reflexivity).
    rewrite Em. cbn [eng_step]. rewrite Ew, Ec. cbn [fst].
    pose proof (umu_m (uset_fwd y (kind e) (ch_push (ufwd y (kind e)) e)) (eng_sent (u_m y) c l)) as M. rewrite Em in M.
    pose proof (umu_fwd y (kind e) (ch_push (ufwd y (kind e)) e)) as F. rewrite chw_push in F.
    unfold gw in M. flds. rewrite left_of_w, Ec in M. cbn [curw] in M. rewrite lsum_cons in M. lia.
  - destruct (g_rtask (u_m y)); [|discriminate]. destruct (g_rcur (u_m y)) eqn:Ec; [discriminate|].
    destruct (g_rq (u_m y)) as [|c q] eqn:Eq; [discriminate|]. intros _.
    pose proof (resp_gw (u_m y) c q [] eq_refl) as G. destruct (eng_resp need (u_m y) c q []) as [m os]. cbn [fst] in *.
    pose proof (umu_m y m) as M. rewrite Eq in G. cbn [length] in G. lia.
  - unfold uwaits. destruct (g_rtask (u_m y)) eqn:Er; [|discriminate]. destruct (g_rcur (u_m y)) as [[c got]|] eqn:Ec; [|discriminate].
    destruct (ch_snk (u_b y)) as [|r q] eqn:Eb; [discriminate|]. intros _. unfold um_step. cbn [uset_b u_m eng_step]. rewrite Er, Ec.
    pose proof (resp_gw (u_m y) c (g_rq (u_m y)) (got ++ [r]) eq_refl) as G.
    destruct (eng_resp need (u_m y) c (g_rq (u_m y)) (got ++ [r])) as [m os]. cbn [fst] in *.
    pose proof (umu_m (uset_b y (ch_pop (u_b y) q)) m) as M. cbn [uset_b u_m] in M.
    pose proof (umu_b y (ch_pop (u_b y) q)) as B. pose proof (chw_pop (fun _ => 1) (u_b y) r q Eb) as P. cbn beta in P. unfold uset_b in *. lia.
  - intros H. cbn [fst]. pose proof (umu_fwd y k (ch_load (ufwd y k))). pose proof (load_en wt _ H). lia.
  - intros H. cbn [fst]. pose proof (umu_fwd y k (ch_xfer (ufwd y k))). pose proof (xfer_en wt _ H). lia.
  - intros H. cbn [fst]. pose proof (umu_b y (ch_load (u_b y))). pose proof (load_en (fun _ => 1) _ H). lia.
  - intros H. cbn [fst]. pose proof (umu_b y (ch_xfer (u_b y))). pose proof (xfer_en (fun _ => 1) _ H). lia.
  - destruct (act (u_s y)) as [k|r s|s|] eqn:Ea.
    + destruct (ch_snk (ufwd y k)) as [|e q] eqn:Es; [discriminate|]. intros _. cbn [fst].
      pose proof (umu_s (uset_fwd y k (ch_pop (ufwd y k) q)) (sin (u_s y) e)) as A.
      replace (u_s (uset_fwd y k (ch_pop (ufwd y k) q))) with (u_s y) in A by (unfold uset_fwd; destruct k; reflexivity).
      pose proof (umu_fwd y k (ch_pop (ufwd y k) q)) as B. pose proof (chw_pop wt _ _ _ Es) as P. pose proof (Hwait _ _ e Ea). lia.
    + intros Hr. rewrite Hr. cbn [fst].
      pose proof (umu_s (uset_b y (ch_push (u_b y) r)) s) as A. cbn [uset_b u_s] in A. unfold uset_b in *.
      pose proof (umu_b y (ch_push (u_b y) r)) as B. rewrite chw_push in B. pose proof (Hemit _ _ _ Ea). unfold uset_b in *. lia.
    + intros _. cbn [fst]. pose proof (umu_s y s). pose proof (Htau _ _ Ea). lia.
    + discriminate.
Qed.

Lemma uset_m_id (y : usys C E R S) : uset_m y (u_m y) = y. Proof. destruct y; reflexivity. Qed.
Lemma uset_b_id (y : usys C E R S) : uset_b y (u_b y) = y. Proof. destruct y; reflexivity. Qed.
Lemma uset_fwd_id (y : usys C E R S) k : uset_fwd y k (ufwd y k) = y. Proof. destruct y, k; reflexivity. Qed.

Lemma u_en_no y o : uinternal o -> u_en y o = false -> step y o = (y, []).
Proof.
  intros Hi. destruct o as [c|c|n| | | | |k|k| | | |f]; cbn [uinternal] in Hi; try tauto; cbn [u_en u_step]; unfold um_step; cbn [eng_step].
  - destruct (nth_error _ n); [discriminate|]. now rewrite uset_m_id.
  - destruct (g_wtask (u_m y)), (g_cur (u_m y)), (g_q (u_m y)); try discriminate; now rewrite uset_m_id.
  - destruct (unext (u_m y)) as [e|]; auto. intros ->. reflexivity.
  - destruct (g_rtask (u_m y)), (g_rcur (u_m y)), (g_rq (u_m y)); try discriminate; now rewrite uset_m_id.
  - destruct (uwaits (u_m y)), (ch_snk (u_b y)); auto; discriminate.
  - intros H. rewrite (load_dis _ H), uset_fwd_id. reflexivity.
  - intros H. rewrite (xfer_dis _ H), uset_fwd_id. reflexivity.
  - intros H. rewrite (load_dis _ H), uset_b_id. reflexivity.
  - intros H. rewrite (xfer_dis _ H), uset_b_id. reflexivity.
  - destruct (act (u_s y)) as [k|r s|s|]; auto; try discriminate.
    + destruct (ch_snk (ufwd y k)); auto; discriminate.
    + intros ->. reflexivity.
Qed.

(** changing the target changes neither the measure nor what can run *)
Definition pok (f : S -> S) : Prop := forall s, pot (f s) = pot s /\ same_act (act s) (act (f s)).
Lemma poke_same y f : pok f -> umu (uset_s y (f (u_s y))) = umu y /\ forall o, u_en (uset_s y (f (u_s y))) o = u_en y o.
Proof.
  intros H. destruct (H (u_s y)) as [H1 H2]. split; [pose proof (umu_s y (f (u_s y))); lia|].
  intros [c|c|n| | | | |k|k| | | |g]; try reflexivity. cbn [u_en uset_s u_s].
  destruct (act (u_s y)) as [k|r s|s|] eqn:E1, (act (f (u_s y))) as [k'|r' s'|s'|] eqn:E2; cbn [same_act] in H2; try tauto; try reflexivity.
  subst k'. destruct k; reflexivity.
Qed.

Definition uok (o : uop C S) : Prop := match o with UIssue _ | UInit _ => False | UPoke f => pok f | _ => True end.
Lemma u_ok_step y o : uok o -> umu (fst (step y o)) < umu y \/
  (umu (fst (step y o)) = umu y /\ forall o', u_en (fst (step y o)) o' = u_en y o').
Proof.
  intros H. destruct o as [c|c|n| | | | |k|k| | | |f] eqn:Eo; cbn [uok] in H; try tauto;
    try (destruct (u_en y o) eqn:En; rewrite <- Eo; [left; apply u_en_lt; [subst o; exact I|exact En]|right; rewrite u_en_no; [split; auto|subst o; exact I|exact En]]).
  right. apply poke_same. exact H.
Qed.

Definition ubase (y : usys C E R S) : list (uop C S) :=
  [UStart 0; UGet; USend; URGet; URecv; ULoad true; ULoad false; UXfer true; UXfer false; ULoadB; UXferB; USlave].
Lemma ubase_int y : Forall uinternal (ubase y).
Proof. unfold ubase. repeat (apply Forall_cons; [exact I|]). apply Forall_nil. Qed.
Lemma ubase_all y : (forall o, In o (ubase y) -> u_en y o = false) -> forall o, uinternal o -> u_en y o = false.
Proof.
  intros H [c|c|n| | | | |k|k| | | |f] Hi; cbn [uinternal] in Hi; try tauto; try (apply H; cbn [ubase In]; tauto).
  - specialize (H (UStart 0) (or_introl eq_refl)). cbn [u_en] in *. destruct (g_pend (u_m y)); [destruct n; reflexivity|discriminate].
  - apply H. cbn [ubase In]. destruct k; tauto.
  - apply H. cbn [ubase In]. destruct k; tauto.
Qed.

Lemma run_at (sched : nat -> uop C S) y N : fst (run y (first_steps sched N)) = at_ (fun y o => fst (step y o)) sched y N.
Proof.
  induction N as [|N IH]; [reflexivity|]. rewrite first_steps_S, (u_run_app sends need kind act sin). cbn [at_]. rewrite <- IH.
  destruct (run y (first_steps sched N)) as [y1 l1]. cbn [u_run fst]. destruct (step y1 (sched N)) as [y2 l2]. reflexivity.
Qed.

Lemma u_stay y o : uok o -> (uinternal o -> u_en y o = false) -> forall o', u_en (fst (step y o)) o' = u_en y o'.
Proof.
  intros Hok H. destruct o as [c|c|n| | | | |k|k| | | |f] eqn:Eo; cbn [uok] in Hok; try tauto;
    try (rewrite <- Eo in *; rewrite u_en_no; [reflexivity|subst o; exact I|apply H; subst o; exact I]).
  apply poke_same. exact Hok.
Qed.
Lemma u_ends (sched : nat -> uop C S) y : (forall m, uok (sched m)) -> (forall o, uinternal o -> forall n, exists m, n <= m /\ sched m = o) ->
  exists N, forall M, N <= M -> uquiescent step (at_ (fun y o => fst (step y o)) sched y M).
Proof.
  intros Hok Hf.
  destruct (fair_ends (fun y o => fst (step y o)) u_en umu uinternal uok ubase u_ok_step u_en_lt ubase_int ubase_all sched Hok Hf u_stay y) as [N HN].
  exists N. intros M HM o Ho. apply u_en_no; auto.
Qed.
Theorem u_completes (sched : nat -> uop C S) y : (forall m, uok (sched m)) -> fair uinternal sched ->
  exists N, forall M, N <= M -> uquiescent step (fst (run y (first_steps sched M))).
Proof. intros Hok Hf. destruct (u_ends sched y Hok Hf) as [N HN]. exists N. intros M HM. rewrite run_at. auto. Qed.

(** every issued operation was started or waits for its wrapper task *)
Lemma u_submitted h : forall y, let '(y', l) := run y h in
  Permutation (usubmitted h ++ g_pend (u_m y)) (started l ++ g_pend (u_m y')).
Proof.
  induction h as [|o h IH]; intros y; [apply Permutation_refl|]. cbn [u_run].
  destruct (step y o) as [y1 l1] eqn:Es. specialize (IH y1). destruct (run y1 h) as [y2 l2].
  rewrite started_app. cbn [usubmitted flat_map]. fold (usubmitted h).
  cut (Permutation ((match o with UIssue c | UInit c => [c] | _ => [] end) ++ g_pend (u_m y)) (started l1 ++ g_pend (u_m y1))).
  { intros P. rewrite <- !app_assoc. rewrite (Permutation_app_swap_app _ (usubmitted h)). rewrite P.
    rewrite (Permutation_app_swap_app (usubmitted h)). rewrite IH. apply Permutation_refl. }
  assert (Hm : forall y0 o', u_m y0 = u_m y -> um_step sends need y0 o' = (y1, l1) ->
     match o' with GReset _ => False | _ => True end ->
     Permutation ((match o' with GIssue c | GInit c => [c] | _ => [] end) ++ g_pend (u_m y)) (started l1 ++ g_pend (u_m y1))).
  { intros y0 o' Ey. unfold um_step. rewrite Ey. destruct (eng_step sends need (u_m y) o') as [m os] eqn:Em. intros Q Hr. injection Q as <- <-.
    cbn [uset_m u_m]. destruct o' as [c|c|n| | | |r|b]; cbn [eng_step] in Em; try tauto.
    - injection Em as <- <-. reflexivity.
    - injection Em as <- <-. cbn [eng_set_pend g_pend]. rewrite Permutation_app_comm. reflexivity.
    - destruct (nth_error (g_pend (u_m y)) n) as [c|] eqn:En; injection Em as <- <-; [|reflexivity].
      cbn [eng_issue eng_set_pend g_pend app started flat_map]. apply nth_split_perm. exact En.
    - destruct (g_wtask (u_m y)), (g_cur (u_m y)), (g_q (u_m y)); injection Em as <- <-; reflexivity.
    - destruct (g_wtask (u_m y)), (g_cur (u_m y)) as [[c [|e l]]|]; injection Em as <- <-; reflexivity.
    - destruct (g_rtask (u_m y)), (g_rcur (u_m y)), (g_rq (u_m y)); unfold eng_resp in Em; try destruct (Nat.leb _ _);
        injection Em as <- <-; reflexivity.
    - destruct (g_rtask (u_m y)), (g_rcur (u_m y)) as [[c got]|]; unfold eng_resp in Em; try destruct (Nat.leb _ _);
        injection Em as <- <-; reflexivity. }
  destruct o as [c|c|n| | | | |k|k| | | |f]; cbn [u_step] in Es;
    try (apply (Hm y _ eq_refl) in Es; [exact Es|exact I]);
    try (injection Es as <- <-; try destruct k; reflexivity).
  - destruct (unext (u_m y)) as [e|]; [|injection Es as <- <-; reflexivity].
    destruct (q_room _); [|injection Es as <- <-; reflexivity].
    apply Hm in Es; [exact Es| |exact I]. unfold uset_fwd. destruct (kind e); reflexivity.
  - destruct (uwaits (u_m y)), (ch_snk (u_b y)) as [|r q]; try (injection Es as <- <-; reflexivity).
    apply Hm in Es; [exact Es|reflexivity|exact I].
  - destruct (act (u_s y)) as [k|r s|s|]; try (injection Es as <- <-; reflexivity).
    + destruct (ch_snk (ufwd y k)); injection Es as <- <-; [reflexivity|]. destruct k; reflexivity.
    + destruct (q_room _); injection Es as <- <-; reflexivity.
Qed.
End Live.
