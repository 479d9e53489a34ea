(** C85: wait(timeout) of the stream receivers. *)
From Coq Require Import ZArith Lia List Bool.
From Coq Require Import ZifyBool ZifyNat.
From Verif Require Import Py M_stream S_stream M_axisframe M_axis S_axis S_axisrun P_axis P_axischan M_rxwait T_axis T_rxwait M_rxtime.
Import ListNotations.
Open Scope Z_scope.

(** time does not go back, timeouts are not negative *)
Definition top_ok {E} (o : top E) : Prop := match o with TEv _ => True | TWait _ n => 0 <= n | TTime d => 0 <= d end.
Definition times {E} (l : list (top E)) (t : Z) : nat := length (filter (fun o => match o with TWait t' _ => t' =? t | _ => false end) l).
Definition evs {E} (l : list (top E)) : list E := flat_map (fun o => match o with TEv e => [e] | _ => [] end) l.

(** The call of wait() with tag t and timeout n that follows l1; l2 is what happens afterwards.  [at_ p]: the receiver, the time and the calls once p of l2 happened.
    Either the call blocks: nothing was received so far and its time is not over.  Or it returned exactly once, at time tc: when the first item was there, or
    when its time was over and nothing had been received before. *)
Definition wait_timed {S E X} (qq : S -> list X) (at_ : list (top E) -> S * rxt) (now0 t n : Z) (l2 : list (top E)) : Prop :=
  let w := snd (at_ l2) in
  let empty_until (P : list (top E) -> Prop) := forall p s, l2 = p ++ s -> P p -> qq (fst (at_ p)) = [] in
  (In t (map fst (t_blocked w)) /\ ~ In t (map fst (t_done w)) /\ empty_until (fun _ => True) /\ (0 < n -> t_now w < now0 + n)) \/
  (~ In t (map fst (t_blocked w)) /\ exists tc, filter (fun e => fst e =? t) (t_done w) = [(t, tc)] /\ now0 <= tc <= t_now w /\ (0 < n -> tc <= now0 + n) /\
     ((exists p s, l2 = p ++ s /\ t_now (snd (at_ p)) = tc /\ qq (fst (at_ p)) <> [] /\ empty_until (fun p' => (length p' < length p)%nat)) \/
      (0 < n /\ tc = now0 + n /\ empty_until (fun p => t_now (snd (at_ p)) < now0 + n)))).

Section Rx.
Context {S E X : Type} (step : S -> E -> S) (qq : S -> list X) (kind : E -> rxkind).
Hypothesis Hkind : forall s e, match kind e with
  | RArr => exists fs, qq (step s e) = qq s ++ fs | RTake => exists p, p ++ qq (step s e) = qq s | RClr => qq (step s e) = [] | RNone => qq (step s e) = qq s end.
Notation tstep := (t_step step qq kind).

Definition evi (x : S * rxt) : Prop := t_ev (snd x) = negb (isnil (qq (fst x))).
Lemma evi_step x o : evi x -> evi (tstep x o).
Proof.
  unfold evi. destruct x as [s w]. cbn [fst snd]. intros H. destruct o as [e|t n|d]; cbn [t_step fst snd].
  - pose proof (Hkind s e) as K. destruct (kind e); cbn [t_event].
    + destruct K as [fs ->]. destruct fs as [|f fs]; [rewrite app_nil_r, Nat.ltb_irrefl; exact H|].
      assert (Ea : (length (qq s) <? length (qq s ++ f :: fs))%nat = true) by (apply Nat.ltb_lt; rewrite app_length; cbn; lia). rewrite Ea. cbn. now destruct (qq s).
    + destruct K as [p Ep]. rewrite <- Ep in *. destruct (qq (step s e)) as [|y q]; cbn [isnil].
      * rewrite andb_true_r, app_nil_r in *. destruct p; cbn; [exact H|reflexivity].
      * rewrite andb_false_r, H. now destruct p.
    + now rewrite K.
    + now rewrite K.
  - unfold t_wait. destruct (_ || _); exact H.
  - exact H.
Qed.
Lemma evi_run l : forall x, evi x -> evi (fold_left tstep l x).
Proof. induction l; intros x H; [exact H|]. cbn. apply IHl. now apply evi_step. Qed.

(** entries of a call *)
Definition nb (t : Z) (w : rxt) : nat := length (filter (fun b => fst b =? t) (t_blocked w)).
Definition nd (t : Z) (w : rxt) : nat := length (filter (fun b => fst b =? t) (t_done w)).
Lemma filter_map_fst {Y} (g : Z * Y -> Z * Z) t l : (forall b, fst (g b) = fst b) -> filter (fun b => fst b =? t) (map g l) = map g (filter (fun b => fst b =? t) l).
Proof. intros Hg. induction l as [|b l IH]; [reflexivity|]. cbn. rewrite Hg. destruct (_ =? _); cbn; now rewrite IH. Qed.
Lemma filter_split t f (l : list (Z * option Z)) :
  Nat.add (length (filter (fun b => fst b =? t) (filter (fun b => negb (f b)) l))) (length (filter (fun b => fst b =? t) (filter f l))) = length (filter (fun b => fst b =? t) l).
Proof. induction l as [|b l IH]; [reflexivity|]. cbn. destruct (f b); cbn; destruct (_ =? _); cbn; lia. Qed.
Lemma cnt_step x o t : (nb t (snd (tstep x o)) + nd t (snd (tstep x o)) = nb t (snd x) + nd t (snd x) + times [o] t)%nat.
Proof.
  destruct x as [s w]. unfold nb, nd, times. destruct o as [e|t' n|d]; cbn [t_step fst snd filter].
  - cbn [length]. destruct (kind e); cbn [t_event]; try lia.
    + destruct (_ <? _)%nat; [|lia]. cbn [t_blocked t_done]. rewrite filter_app, app_length, filter_map_fst, map_length by reflexivity. cbn. lia.
    + destruct (_ && _); cbn; lia.
    + cbn; lia.
  - unfold t_wait. destruct (_ || _); cbn [t_blocked t_done]; rewrite filter_app, app_length; cbn [filter fst]; destruct (t' =? t); cbn [length]; lia.
  - cbn [length]. unfold t_time. cbn [t_blocked t_done]. rewrite filter_app, app_length, filter_map_fst, map_length by reflexivity.
    pose proof (filter_split t (t_due (t_now w + d)) (t_blocked w)). lia.
Qed.
Lemma times_cons o (l : list (top E)) t : times (o :: l) t = (times [o] t + times l t)%nat.
Proof. unfold times. cbn. destruct o; try destruct (_ =? _); reflexivity. Qed.
Lemma times_app (l l' : list (top E)) t : times (l ++ l') t = (times l t + times l' t)%nat.
Proof. unfold times. now rewrite filter_app, app_length. Qed.
Lemma cnt_run l : forall x t, (nb t (snd (fold_left tstep l x)) + nd t (snd (fold_left tstep l x)) = nb t (snd x) + nd t (snd x) + times l t)%nat.
Proof. induction l as [|o l IH]; intros x t; [unfold times; cbn; lia|]. cbn [fold_left]. rewrite IH, cnt_step, (times_cons o l). lia. Qed.

Lemma nb_in t w : In t (map fst (t_blocked w)) <-> (0 < nb t w)%nat.
Proof.
  unfold nb. induction (t_blocked w) as [|b l IH]; cbn; [split; [intros []|lia]|]. rewrite IH. destruct (fst b =? t) eqn:Eb; cbn.
  - split; [lia|]. intros _. left. lia.
  - split; [intros [H|H]; [lia|exact H]|auto].
Qed.
Lemma nd_in t w : In t (map fst (t_done w)) <-> (0 < nd t w)%nat.
Proof.
  unfold nd. induction (t_done w) as [|b l IH]; cbn; [split; [intros []|lia]|]. rewrite IH. destruct (fst b =? t) eqn:Eb; cbn.
  - split; [lia|]. intros _. left. lia.
  - split; [intros [H|H]; [lia|exact H]|auto].
Qed.

Lemma now_mono x o : top_ok o -> t_now (snd x) <= t_now (snd (tstep x o)).
Proof.
  destruct x as [s w]. destruct o as [e|t n|d]; cbn [t_step snd top_ok]; intros H.
  - destruct (kind e); cbn [t_event]; try (cbn; lia); [destruct (_ <? _)%nat|destruct (_ && _)]; cbn; lia.
  - unfold t_wait. destruct (_ || _); cbn; lia.
  - cbn. lia.
Qed.

Definition dl (now0 n : Z) : option Z := if n =? 0 then None else Some (now0 + n).
Definition deadline (t : Z) (d : option Z) (w : rxt) : Prop := forall b, In b (t_blocked w) -> fst b = t -> snd b = d.

(** a step after which the call still blocks, or in which it returns, or nothing of it changes *)
Lemma filter_single {Y} t (g : Z * Y -> bool) (l : list (Z * Y)) d : length (filter (fun b => fst b =? t) l) = 1%nat -> (forall b, In b l -> fst b = t -> snd b = d) ->
  filter (fun b => fst b =? t) (filter g l) = (if g (t, d) then [(t, d)] else []).
Proof.
  induction l as [|b l IH]; intros H1 H2; [discriminate|]. cbn in H1. cbn [filter]. destruct (fst b =? t) eqn:Eb.
  - assert (Ef : b = (t, d)) by (destruct b as [b1 b2]; cbn in *; f_equal; [lia|apply (H2 (b1, b2)); [now left|cbn; lia]]). cbn in H1.
    assert (E0 : filter (fun b => fst b =? t) l = []) by (apply length_zero_iff_nil; lia).
    assert (E1 : filter (fun b => fst b =? t) (filter g l) = []).
    { clear - E0. induction l as [|c l IH]; [reflexivity|]. cbn in *. destruct (fst c =? t) eqn:Ec; [discriminate|]. destruct (g c); cbn; rewrite ?Ec; auto. }
    subst b. destruct (g (t, d)); cbn; rewrite ?Z.eqb_refl, ?E1; reflexivity.
  - specialize (IH H1 (fun b' Hb' => H2 b' (or_intror Hb'))). destruct (g b); cbn; rewrite ?Eb; exact IH.
Qed.

Lemma wait_step x o t now0 n : evi x -> top_ok o -> times [o] t = O -> 0 <= n -> now0 <= t_now (snd x) ->
  nb t (snd x) = 1%nat -> nd t (snd x) = O -> deadline t (dl now0 n) (snd x) -> qq (fst x) = [] -> (0 < n -> t_now (snd x) < now0 + n) ->
  let x' := tstep x o in
  (nb t (snd x') = 1%nat /\ nd t (snd x') = O /\ deadline t (dl now0 n) (snd x') /\ qq (fst x') = [] /\ (0 < n -> t_now (snd x') < now0 + n)) \/
  (nb t (snd x') = O /\ exists tc, filter (fun e => fst e =? t) (t_done (snd x')) = [(t, tc)] /\ now0 <= tc <= t_now (snd x') /\
    ((qq (fst x') <> [] /\ t_now (snd x') = tc /\ (0 < n -> tc <= now0 + n)) \/ (0 < n /\ tc = now0 + n /\ qq (fst x') = []))).
Proof.
  destruct x as [s w]. cbn [fst snd]. intros He Ho Ht Hn Hnow H1 H2 H3 H4 H5. cbv zeta. unfold nb, nd in *.
  assert (E2 : filter (fun e => fst e =? t) (t_done w) = []) by (apply length_zero_iff_nil; exact H2).
  assert (Esame : t_blocked w = t_blocked w) by reflexivity. clear Esame.
  destruct o as [e|t' n'|d]; cbn [t_step fst snd top_ok] in *.
  - pose proof (Hkind s e) as K. rewrite H4 in *. destruct (kind e); cbn [t_event].
    + destruct K as [fs Ef]. cbn [app] in Ef. rewrite Ef. destruct fs as [|f fs]; cbn [length Nat.ltb Nat.leb]; [left; auto|]. right. cbn [t_blocked filter length t_done t_now].
      split; [reflexivity|]. exists (t_now w). rewrite filter_app, E2, filter_map_fst by reflexivity. cbn [app].
      pose proof (filter_single t (fun _ => true) (t_blocked w) (dl now0 n) H1 H3) as Es. assert (Eid : filter (fun _ => true) (t_blocked w) = t_blocked w) by (clear; induction (t_blocked w); cbn; congruence).
      rewrite Eid in Es. rewrite Es. cbn [map fst]. split; [reflexivity|]. split; [lia|]. left. split; [discriminate|]. split; [reflexivity|]. intros Hp. specialize (H5 Hp). lia.
    + destruct K as [p Ep]. apply app_eq_nil in Ep as [_ Ep]. rewrite Ep. cbn. left. auto.
    + left. cbn. rewrite K. auto.
    + left. rewrite K. auto.
  - unfold evi in He. cbn [fst snd] in He. unfold t_wait. rewrite He, H4. cbn [isnil negb orb t_blocked t_done t_now]. left.
    assert (Et : t' =? t = false) by (unfold times in Ht; cbn in Ht; destruct (t' =? t); [discriminate|reflexivity]).
    rewrite filter_app. cbn [filter fst]. rewrite Et, app_nil_r. split; [exact H1|]. split; [exact H2|]. split; [|auto].
    intros b Hb Eb. cbn [t_blocked] in Hb. apply in_app_or in Hb as [Hb|[<-|[]]]; [exact (H3 b Hb Eb)|]. cbn in Eb. lia.
  - cbn [t_time t_blocked t_done t_now]. set (now' := t_now w + d).
    pose proof (filter_single t (fun b => negb (t_due now' b)) (t_blocked w) (dl now0 n) H1 H3) as Eb.
    pose proof (filter_single t (t_due now') (t_blocked w) (dl now0 n) H1 H3) as Ed.
    rewrite filter_app, E2, filter_map_fst, Eb, Ed by reflexivity. cbn [app]. destruct (t_due now' (t, dl now0 n)) eqn:Edue; cbn [negb length map fst snd].
    + right. split; [reflexivity|]. unfold t_due, dl in *. cbn [snd] in *. destruct (n =? 0) eqn:En; [discriminate|]. exists (now0 + n). split; [reflexivity|]. split; [lia|]. right. split; [lia|]. auto.
    + left. split; [reflexivity|]. split; [reflexivity|]. split.
      * intros b Hb. cbn [t_blocked] in Hb. apply filter_In in Hb as [Hb _]. exact (H3 b Hb).
      * split; [exact H4|]. intros Hp. unfold t_due, dl in Edue. cbn [snd] in Edue. destruct (n =? 0) eqn:En; lia.
Qed.

(** once it has returned, nothing of the call changes *)
Lemma done_step x o t tc : times [o] t = O -> nb t (snd x) = O -> filter (fun e => fst e =? t) (t_done (snd x)) = [(t, tc)] ->
  nb t (snd (tstep x o)) = O /\ filter (fun e => fst e =? t) (t_done (snd (tstep x o))) = [(t, tc)].
Proof.
  destruct x as [s w]. cbn [snd]. intros Ht H1 H2. unfold nb in *. apply length_zero_iff_nil in H1. destruct o as [e|t' n'|d]; cbn [t_step fst snd].
  - destruct (kind e); cbn [t_event]; try (cbn; rewrite H1; auto; fail).
    + destruct (_ <? _)%nat; [|rewrite H1; auto]. cbn [t_blocked t_done filter length]. rewrite filter_app, H2, filter_map_fst, H1 by reflexivity. auto.
    + destruct (_ && _); cbn; rewrite H1; auto.
  - assert (Et : t' =? t = false) by (unfold times in Ht; cbn in Ht; destruct (t' =? t); [discriminate|reflexivity]).
    unfold t_wait. destruct (_ || _); cbn [t_blocked t_done]; rewrite ?filter_app; cbn [filter fst]; rewrite Et, ?app_nil_r, H1, H2; auto.
  - cbn [t_time t_blocked t_done]. rewrite filter_app, filter_map_fst by reflexivity.
    assert (Ef : forall f, filter (fun b => fst b =? t) (filter f (t_blocked w)) = []).
    { intros f. clear - H1. induction (t_blocked w) as [|c l IH]; [reflexivity|]. cbn in *. destruct (fst c =? t) eqn:Ec; [discriminate|]. destruct (f c); cbn; rewrite ?Ec; auto. }
    rewrite !Ef, H2. auto.
Qed.

Lemma snoc_split {Y} (l : list Y) a p s : l ++ [a] = p ++ s -> (s = [] /\ p = l ++ [a]) \/ exists s', s = s' ++ [a] /\ l = p ++ s'.
Proof.
  destruct s as [|b s] using rev_ind; intros H; [left; rewrite app_nil_r in H; auto|]. right. exists s. rewrite app_assoc in H. apply app_inj_tail in H as [H ->]. auto.
Qed.

Theorem rx_timed l1 t n l2 x0 : evi x0 -> nb t (snd x0) = O -> nd t (snd x0) = O -> Forall top_ok (l1 ++ TWait t n :: l2) -> times (l1 ++ l2) t = O ->
  wait_timed qq (fun p => fold_left tstep (l1 ++ TWait t n :: p) x0) (t_now (snd (fold_left tstep l1 x0))) t n l2.
Proof.
  intros He0 Hb0 Hd0 Hok Ht. rewrite times_app in Ht. apply Forall_app in Hok as [_ Hok]. inversion Hok as [|a b Hn Hok2 E1]; subst a b. clear Hok. cbn [top_ok] in Hn.
  set (x1 := fold_left tstep l1 x0). set (now0 := t_now (snd x1)). assert (He1 : evi x1) by (apply evi_run; exact He0).
  pose proof (cnt_run l1 x0 t) as Hc. fold x1 in Hc. assert (Hc' : nb t (snd x1) = O /\ nd t (snd x1) = O) by lia. clear Hc. destruct Hc' as [Hb1 Hd1].
  set (R := fun p => fold_left tstep (l1 ++ TWait t n :: p) x0). assert (ER : forall p a, R (p ++ [a]) = tstep (R p) a).
  { intros p a. unfold R. now rewrite app_comm_cons, app_assoc, fold_left_app. }
  assert (ER0 : R [] = tstep x1 (TWait t n)) by (unfold R; now rewrite fold_left_app).
  change (wait_timed qq R now0 t n l2).
  assert (Hev : forall p, evi (R p)) by (intros p; apply evi_run; exact He0).
  (* the strengthened statement *)
  assert (K : now0 <= t_now (snd (R l2)) /\
    ((nb t (snd (R l2)) = 1%nat /\ nd t (snd (R l2)) = O /\ deadline t (dl now0 n) (snd (R l2)) /\ (forall p s, l2 = p ++ s -> qq (fst (R p)) = []) /\ (0 < n -> t_now (snd (R l2)) < now0 + n)) \/
     (nb t (snd (R l2)) = O /\ exists tc, filter (fun e => fst e =? t) (t_done (snd (R l2))) = [(t, tc)] /\ now0 <= tc <= t_now (snd (R l2)) /\ (0 < n -> tc <= now0 + n) /\
       ((exists p s, l2 = p ++ s /\ t_now (snd (R p)) = tc /\ qq (fst (R p)) <> [] /\ (forall p' s', l2 = p' ++ s' -> (length p' < length p)%nat -> qq (fst (R p')) = [])) \/
        (0 < n /\ tc = now0 + n /\ tc <= t_now (snd (R l2)) /\ forall p s, l2 = p ++ s -> t_now (snd (R p)) < now0 + n -> qq (fst (R p)) = []))))).
  { assert (Ht2 : times l2 t = O) by lia. clear Ht. revert Hok2 Ht2. induction l2 as [|a l IH] using rev_ind; intros Hok2 Ht2.
    - rewrite ER0. destruct x1 as [s1 w1] eqn:Ex1. cbn [t_step fst snd] in *. unfold evi in He1. cbn [fst snd] in He1. unfold t_wait. rewrite He1, orb_diag. unfold nb, nd in *. cbn [snd] in *.
      apply length_zero_iff_nil in Hb1, Hd1. destruct (qq s1) as [|y q] eqn:Eq; cbn [isnil negb t_now t_blocked t_done].
      + split; [unfold now0; cbn; lia|]. left. rewrite filter_app, Hb1, Hd1. cbn [filter fst app]. rewrite Z.eqb_refl. split; [reflexivity|]. split; [reflexivity|]. split; [|split].
        * intros b Hb Efb. cbn [t_blocked] in Hb. apply in_app_or in Hb as [Hb|[<-|[]]]; [|reflexivity].
          assert (Hin : In b (filter (fun b => fst b =? t) (t_blocked w1))) by (apply filter_In; split; [exact Hb|lia]). rewrite Hb1 in Hin. destruct Hin.
        * intros p s Ep. symmetry in Ep. apply app_eq_nil in Ep as [-> _]. rewrite ER0. cbn [t_step fst]. exact Eq.
        * unfold now0. cbn. lia.
      + split; [unfold now0; cbn; lia|]. right. rewrite Hb1, filter_app, Hd1. cbn [filter fst app]. rewrite Z.eqb_refl. split; [reflexivity|]. exists (t_now w1). split; [reflexivity|].
        split; [unfold now0; cbn; lia|]. split; [unfold now0; cbn; lia|]. left. exists [], []. rewrite ER0. cbn [t_step fst snd]. split; [reflexivity|]. split; [unfold t_wait; destruct (_ || _); reflexivity|].
        rewrite Eq. split; [discriminate|]. intros p' s' _ Hl. cbn in Hl. lia.
    - apply Forall_app in Hok2 as [Hokl Hoka]. inversion Hoka as [|a' b' Hoa _ E1]; subst a' b'. rewrite times_app in Ht2.
      assert (Hta : times [a] t = O) by lia. specialize (IH Hokl ltac:(lia)). destruct IH as [Hnow IH].
      pose proof (now_mono (R l) a Hoa) as Hm. rewrite <- ER in Hm. split; [lia|]. destruct IH as [(I1 & I2 & I3 & I4 & I5)|(I1 & tc & I2 & I3 & I4 & I5)].
      + pose proof (I4 l [] (eq_sym (app_nil_r l))) as Eq. pose proof (wait_step (R l) a t now0 n (Hev l) Hoa Hta Hn Hnow I1 I2 I3 Eq I5) as W. cbv zeta in W. rewrite <- ER in W.
        destruct W as [(W1 & W2 & W3 & W4 & W5)|(W1 & tc & W2 & W3 & W4)].
        * left. split; [exact W1|]. split; [exact W2|]. split; [exact W3|]. split; [|exact W5].
          intros p s Ep. apply snoc_split in Ep as [[_ ->]|(s' & _ & Ep)]; [exact W4|exact (I4 p s' Ep)].
        * right. split; [exact W1|]. exists tc. split; [exact W2|]. split; [lia|]. destruct W4 as [(Q1 & Q2 & Q3)|(Q1 & Q2 & Q3)].
          -- split; [exact Q3|]. left. exists (l ++ [a]), []. split; [symmetry; apply app_nil_r|]. split; [exact Q2|]. split; [exact Q1|].
             intros p' s' Ep Hl. apply snoc_split in Ep as [[_ ->]|(s'' & _ & Ep)]; [lia|exact (I4 p' s'' Ep)].
          -- split; [lia|]. right. split; [exact Q1|]. split; [exact Q2|]. split; [lia|].
             intros p s Ep _. apply snoc_split in Ep as [[_ ->]|(s' & _ & Ep)]; [exact Q3|exact (I4 p s' Ep)].
      + right. destruct (done_step (R l) a t tc Hta I1 I2) as [W1 W2]. rewrite <- ER in W1, W2. split; [exact W1|]. exists tc. split; [exact W2|]. split; [lia|]. split; [exact I4|].
        destruct I5 as [(p & s & Ep & P1 & P2 & P3)|(Q1 & Q2 & Q3 & Q4)].
        * left. exists p, (s ++ [a]). split; [now rewrite Ep, app_assoc|]. split; [exact P1|]. split; [exact P2|].
          intros p' s' Ep' Hl. apply snoc_split in Ep' as [[_ ->]|(s'' & _ & Ep')]; [|exact (P3 p' s'' Ep' Hl)].
          exfalso. rewrite Ep, app_length, app_length in Hl. cbn in Hl. lia.
        * right. split; [exact Q1|]. split; [exact Q2|]. split; [lia|]. intros p s Ep Hl. apply snoc_split in Ep as [[_ ->]|(s' & _ & Ep)]; [lia|exact (Q4 p s' Ep Hl)]. }
  destruct K as [Hnow [(I1 & I2 & _ & I4 & I5)|(I1 & tc & I2 & I3 & I4 & I5)]].
  - left. split; [apply nb_in; lia|]. split; [rewrite nd_in; lia|]. split; [intros p s Ep _; exact (I4 p s Ep)|exact I5].
  - right. split; [rewrite nb_in; lia|]. exists tc. split; [exact I2|]. split; [exact I3|]. split; [exact I4|]. destruct I5 as [I5|(Q1 & Q2 & Q3 & Q4)]; [left; exact I5|right; auto].
Qed.

Lemma rx_undisturbed l : forall x, fst (fold_left tstep l x) = fold_left step (evs l) (fst x).
Proof. induction l as [|o l IH]; intros x; [reflexivity|]. cbn [fold_left]. rewrite IH. unfold evs. cbn [flat_map]. rewrite fold_left_app. destruct o; reflexivity. Qed.
End Rx.

(** the kinds of the events *)
Lemma mon_kind A hr (m : mon A) e : match mkind e with
  | RArr => exists fs, m_q (mon_step hr m e) = m_q m ++ fs | RTake => exists p, p ++ m_q (mon_step hr m e) = m_q m | RClr => m_q (mon_step hr m e) = [] | RNone => m_q (mon_step hr m e) = m_q m end.
Proof.
  destruct e as [v r d| | |b| |]; cbn [mkind mon_step]; try reflexivity.
  - cbn [m_q]. destruct (m_q m) as [|x q]; cbn [tl]; [exists []|exists [x]]; reflexivity.
  - destruct b; reflexivity.
  - unfold mon_edge. destruct (m_task (mon_start m)); try (exists []; rewrite app_nil_r; reflexivity). destruct (_ && _); cbn; [eauto|exists []; now rewrite app_nil_r].
Qed.
Lemma snk_kind A hr (k : snk A) e : match kkind e with
  | RArr => exists fs, k_q (kev_step hr k e) = k_q k ++ fs | RTake => exists p, p ++ k_q (kev_step hr k e) = k_q k | RClr => k_q (kev_step hr k e) = [] | RNone => k_q (kev_step hr k e) = k_q k end.
Proof.
  destruct e as [o|v d|]; cbn [kkind kev_step]; [|unfold snk_edge; destruct (k_task (snk_run k)); try (exists []; rewrite app_nil_r; reflexivity); cbn [k_q snk_run k_ready]; destruct (_ && v); [eauto|exists []; now rewrite app_nil_r]|reflexivity].
  destruct o as [b|n| | |b|]; cbn [snk_step]; try reflexivity.
  - destruct (Bool.eqb _ _); reflexivity.
  - destruct (k_q k) as [|x q] eqn:Eq; [exists []; exact Eq|exists [x]; reflexivity].
  - destruct b; reflexivity.
Qed.
Lemma amon_kind c m e : match nkind e with
  | RArr => exists fs, n_q (amon_step c m e) = n_q m ++ fs | RTake => exists p, p ++ n_q (amon_step c m e) = n_q m | RClr => n_q (amon_step c m e) = [] | RNone => n_q (amon_step c m e) = n_q m end.
Proof.
  destruct e as [v r d|r| |b| |]; cbn [nkind amon_step]; try reflexivity.
  - eexists. exact (mrecv_taken m r).
  - destruct b; reflexivity.
  - unfold amon_edge. destruct (n_task (amon_start m)); try (exists []; rewrite app_nil_r; reflexivity).
    destruct (_ && _); [|exists []; rewrite app_nil_r; reflexivity]. destruct (rx_beat _ _ _) as [p fs]. cbn. eauto.
Qed.
Lemma asnk_kind c k e : match zkind e with
  | RArr => exists fs, z_q (zev_step c k e) = z_q k ++ fs | RTake => exists p, p ++ z_q (zev_step c k e) = z_q k | RClr => z_q (zev_step c k e) = [] | RNone => z_q (zev_step c k e) = z_q k end.
Proof.
  destruct e as [o|v d|]; cbn [zkind zev_step].
  - destruct o as [b|lb lf|r| |b|]; cbn [asnk_step]; try reflexivity; [destruct (Bool.eqb _ _); reflexivity|eexists; exact (recv_taken k r)|destruct b; reflexivity].
  - unfold asnk_edge. destruct (z_task (asnk_run k)); try (exists []; rewrite app_nil_r; reflexivity).
    match goal with |- context [let '(x, y) := ?e in _] => destruct e as [p fs] end. cbn. eauto.
  - reflexivity.
Qed.

(** Every history of all operations of the receiver, of passing time and of calls of wait() with and without a timeout; a call in it whose tag occurs once.
    Beside: waiting does not disturb the receiver. *)
Definition timed_receiver {S E X} (step : S -> E -> S) (qq : S -> list X) (kind : E -> rxkind) (s0 : S) : Prop :=
  let run l := fold_left (t_step step qq kind) l (s0, t_init) in
  (forall l1 t n l2, Forall top_ok (l1 ++ TWait t n :: l2) -> times (l1 ++ l2) t = O ->
     wait_timed qq (fun p => run (l1 ++ TWait t n :: p)) (t_now (snd (run l1))) t n l2) /\
  (forall l, fst (run l) = fold_left step (evs l) s0).
Theorem C85_wait_timeout : forall A hr (c : scfg) v r (d : A) b limit lb lf,
  timed_receiver (mon_step hr) m_q mkind (mon_init v r d) /\
  timed_receiver (kev_step hr) k_q kkind (snk_init limit : snk A) /\
  timed_receiver (amon_step c) n_q nkind (amon_init v r b) /\
  timed_receiver (zev_step c) z_q zkind (asnk_init lb lf).
Proof.
  intros A hr c v r d b limit lb lf.
  split; [|split; [|split]]; (split; [intros l1 t n l2 H1 H2|intros l; apply rx_undisturbed]).
  - exact (rx_timed _ _ _ (mon_kind A hr) l1 t n l2 (mon_init v r d, t_init) eq_refl eq_refl eq_refl H1 H2).
  - exact (rx_timed _ _ _ (snk_kind A hr) l1 t n l2 (snk_init limit, t_init) eq_refl eq_refl eq_refl H1 H2).
  - exact (rx_timed _ _ _ (amon_kind c) l1 t n l2 (amon_init v r b, t_init) eq_refl eq_refl eq_refl H1 H2).
  - exact (rx_timed _ _ _ (asnk_kind c) l1 t n l2 (asnk_init lb lf, t_init) eq_refl eq_refl eq_refl H1 H2).
Qed.
Print Assumptions C85_wait_timeout.

(** Calls 1 (timeout 25), 2 (none), 3 (timeout 100) wait from time 10; call 1 times out, a frame ends at 40; 4 returns at once; after the frame was read 5 waits again and times out, 6 still waits. *)
Example C85_nontrivial :
  let l := [TEv (ZClkE false zero_beat); TTime 10; TWait 1 25; TWait 2 0; TWait 3 100; TEv ZWakeE; TEv (ZClkE true (wbeat 5 false)); TTime 30; TEv (ZClkE true (wbeat 7 true)); TTime 1; TWait 4 7;
            TEv (ZOp (ZRecv (RRecv true))); TWait 5 9; TWait 6 0; TTime 50] in
  let x := fold_left (t_step (zev_step abus) z_q zkind) l (asnk_init (-1) (-1), t_init) in
  t_done (snd x) = [(1, 35); (2, 40); (3, 40); (4, 41); (5, 50)] /\ t_blocked (snd x) = [(6, None)] /\ t_now (snd x) = 91 /\ Forall top_ok l /\ times l 3 = 1%nat.
Proof. vm_compute. repeat split; repeat constructor; discriminate. Qed.
