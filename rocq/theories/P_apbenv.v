(** An APB master and slave on a memory that others change: every schedule.  Master and slave only see the answers of the target, so the
    run can be replayed on a target that gives these answers and records the calls; C35 holds for it. *)
From Coq Require Import ZArith Lia List Bool.
From Coq Require Import ZifyBool ZifyNat.
From Verif Require Import Py S_flat M_axi S_axi P_axi P_axislave P_axiop P_axicomp P_axiram M_axil S_axil P_axil
  M_liteeng S_liteeng P_liteeng M_axieng S_axieng P_axieng P_axiattr T_axieng M_sys S_sys P_sys P_syswr P_sysrd T_sys T_sysrd M_axisys S_axisys P_sysram
  M_litesys S_litesys P_litesys P_litewr P_literd T_litesys M_literw S_literw P_literw M_mport S_mport P_mport
  M_apb S_apb P_apb P_apbsys T_apb M_apbenv S_apbenv.
Import ListNotations.
Open Scope Z_scope.

(** ** the same component state on another target *)
Definition slift {T X} (x : X) (v : aslv T) : aslv X :=
  {| v_task := v_task v; v_pready := v_pready v; v_prdata := v_prdata v; v_pslverr := v_pslverr v; v_t := x |}.
Definition ylift {T X} (x : X) (y : asys T) : asys X := {| k_m := k_m y; k_s := slift x (k_s y) |}.

Notation wt X := (X -> Z -> list Z -> X * res unit).
Notation rt X := (X -> Z -> Z -> X * res (list Z)).
Definition script := (list call * list rcall)%type.
Definition plays {X} (tw : wt X) (tr : rt X) (x : X) (s : script) (x' : X) : Prop :=
  snd s = [] /\ replays tw x (fst s) x' \/ fst s = [] /\ (length (snd s) <= 1)%nat /\ rreplays tr x (snd s) x'.
Fixpoint plays_all {X} (tw : wt X) (tr : rt X) (x : X) (l : list script) (x' : X) : Prop :=
  match l with [] => x' = x | s :: l' => exists x1, plays tw tr x s x1 /\ plays_all tw tr x1 l' x' end.
Lemma plays_nil {X} (tw : wt X) tr x x' : plays tw tr x ([], []) x' -> x' = x.
Proof. intros [[_ H]|(_ & _ & H)]; exact H. Qed.

Section Det.
Context {T : Type}.
Variable tw : T -> Z -> list Z -> T * res unit.
Variable tr : T -> Z -> Z -> T * res (list Z).
Variable L : Z.
Variable ep : bool.
Hypothesis HL : 0 < L.

Lemma perform_det ops : forall t t' r, sw_perform tw t ops = (t', r) -> exists nw rest, replays tw t nw t' /\ ops = map fst nw ++ rest /\
  forall X (tw' : wt X) x x', replays tw' x nw x' -> sw_perform tw' x ops = (x', r).
Proof.
  induction ops as [|[a d] ops IH]; intros t t' r H; cbn [sw_perform] in H.
  - injection H as <- <-. exists [], []. split; [reflexivity|]. split; [reflexivity|]. intros X tw' x x' E. cbn in E |- *. now subst.
  - destruct (tw t a d) as [t1 r1] eqn:E. destruct r1 as [[]|e].
    + destruct (IH _ _ _ H) as (nw & rest & I1 & I2 & I3). exists ((a, d, Ok tt) :: nw), rest. split; [cbn [replays]; rewrite E; auto|].
      split; [cbn [map fst app]; now rewrite I2|]. intros X tw' x x' [K1 K2]. cbn [sw_perform]. destruct (tw' x a d) as [x1 r1]. cbn [fst snd] in *. subst r1. now apply I3.
    + injection H as <- <-. exists [(a, d, Err e)], ops. split; [cbn [replays]; rewrite E; auto|]. split; [reflexivity|].
      intros X tw' x x' [K1 K2]. cbn [sw_perform]. destruct (tw' x a d) as [x1 r1]. cbn [fst snd replays] in *. subst. reflexivity.
Qed.

Lemma access_det addr w t : addr mod L = 0 ->
  match v_access tw tr L addr w t with
  | Ok (t', d, e) => exists s, Forall (call_ok L) (fst s) /\ plays tw tr t s t' /\
      forall X (tw' : wt X) tr' x x', plays tw' tr' x s x' -> v_access tw' tr' L addr w x = Ok (x', d, e)
  | Err er => forall X (tw' : wt X) tr' x, v_access tw' tr' L addr w x = Err er
  end.
Proof.
  intros Ha. unfold v_access. destruct (pw_write w) eqn:Ew.
  - destruct (to_bytes (pw_data w) L Little) as [data|e] eqn:Ed; [|reflexivity].
    destruct (sw_perform tw t _) as [t' r] eqn:E. destruct (perform_det _ _ _ _ E) as (nw & rest & H1 & H2 & H3). exists (nw, []). cbn [fst snd].
    split; [|split; [left; auto|]].
    + destruct (beat_ops L addr {| w_data := pw_data w; w_strb := pw_strb w; w_last := false; w_user := 0 |} data Ed ltac:(lia)) as (_ & Ho). cbn zeta in Ho. cbn [w_strb] in Ho.
      exact (call_ok_of tw {| m_lanes := L; m_mbl := 0 |} addr _ nw rest HL Ha Ho H2).
    + intros X tw' tr' x x' [[_ K]|(K1 & _ & K)]; cbn [fst snd] in *; [|subst nw; cbn in K; subst x'].
      * now rewrite (H3 _ tw' x x' K).
      * now rewrite (H3 _ tw' x x eq_refl).
  - destruct (tr t addr L) as [t' r] eqn:E. exists ([], [(addr, L, r)]). cbn [fst snd]. split; [constructor|]. split; [right; cbn [rreplays length fst snd]; rewrite E; auto|].
    intros X tw' tr' x x' [[K _]|(_ & _ & K1 & K2)]; cbn [fst snd] in *; [discriminate|]. destruct (tr' x addr L) as [x1 r1]. cbn [fst snd rreplays] in *. now subst.
Qed.

Definition aligned (v : aslv T) : Prop := match v_task v with VPaus a => a mod L = 0 | _ => True end.

Lemma serve_det p addr w v : addr mod L = 0 -> let v' := v_serve tw tr L ep p addr w v in
  aligned v' /\ exists s, Forall (call_ok L) (fst s) /\ plays tw tr (v_t v) s (v_t v') /\
    forall X (tw' : wt X) tr' x x', plays tw' tr' x s x' -> v_serve tw' tr' L ep p addr w (slift x v) = slift x' v'.
Proof.
  intros Ha. unfold v_serve. destruct p; cbn zeta.
  - split; [exact Ha|]. exists ([], []). split; [constructor|]. split; [left; cbn; auto|]. intros X tw' tr' x x' K. apply plays_nil in K. subst. reflexivity.
  - pose proof (access_det addr w (v_t v) Ha) as K. destruct (v_access tw tr L addr w (v_t v)) as [[[t' d] e]|er].
    + destruct K as (s & K1 & K2 & K3). split; [exact I|]. exists s. split; [exact K1|]. split; [exact K2|]. intros X tw' tr' x x' Hp.
      cbn [slift v_t]. rewrite (K3 _ tw' tr' x x' Hp). reflexivity.
    + split; [exact I|]. exists ([], []). split; [constructor|]. split; [left; cbn; auto|]. intros X tw' tr' x x' Hp. apply plays_nil in Hp. subst.
      cbn [slift v_t]. rewrite K. reflexivity.
Qed.
Lemma edge_det p psel w v : aligned v -> let v' := v_edge tw tr L ep p psel w v in
  aligned v' /\ exists s, Forall (call_ok L) (fst s) /\ plays tw tr (v_t v) s (v_t v') /\
    forall X (tw' : wt X) tr' x x', plays tw' tr' x s x' -> v_edge tw' tr' L ep p psel w (slift x v) = slift x' v'.
Proof.
  intros Hal. cbn zeta. unfold v_edge. cbn [slift v_task]. destruct (v_task v) as [| |a|] eqn:Ev.
  - split; [exact Hal|]. exists ([], []). split; [constructor|]. split; [left; cbn; auto|]. intros X tw' tr' x x' K. apply plays_nil in K. now subst.
  - destruct psel.
    + apply serve_det. apply Z.mod_mul. lia.
    + split; [exact Hal|]. exists ([], []). split; [constructor|]. split; [left; cbn; auto|]. intros X tw' tr' x x' K. apply plays_nil in K. now subst.
  - apply serve_det. unfold aligned in Hal. now rewrite Ev in Hal.
  - split; [exact I|]. exists ([], []). split; [constructor|]. split; [left; cbn; auto|]. intros X tw' tr' x x' K. apply plays_nil in K. now subst.
Qed.
Lemma step_det y o : aligned (k_s y) -> no_reset o -> let '(y', os) := k_step tw tr L ep y o in
  aligned (k_s y') /\ exists s, Forall (call_ok L) (fst s) /\ plays tw tr (v_t (k_s y)) s (v_t (k_s y')) /\
    forall X (tw' : wt X) tr' x x', plays tw' tr' x s x' -> k_step tw' tr' L ep (ylift x y) o = (ylift x' y', os).
Proof.
  intros Hal Hn. destruct o as [o|mp sp|b]; [| |destruct Hn].
  - assert (K : forall m os, aligned (k_s y) /\ exists s : script, Forall (call_ok L) (fst s) /\ plays tw tr (v_t (k_s y)) s (v_t (k_s y)) /\
      forall X (tw' : wt X) (tr' : rt X) x x', plays tw' tr' x s x' -> ({| k_m := m; k_s := slift x (k_s y) |}, os) = (ylift x' {| k_m := m; k_s := k_s y |}, os : list aout)).
    { intros m os. split; [exact Hal|]. exists ([], []). split; [constructor|]. split; [left; cbn; auto|]. intros X tw' tr' x x' K. apply plays_nil in K. now subst. }
    destruct o; unfold k_step; cbn [ylift k_m k_s]; try (destruct (b_step L ep (k_m y) _) as [m os]; apply K).
    destruct (K (k_m y) []) as (K1 & s & K2 & K3 & K4). split; [exact K1|]. exists s. split; [exact K2|]. split; [exact K3|]. intros X tw' tr' x x' Hp. exact (K4 _ _ _ _ _ Hp).
  - cbn [k_step]. destruct (a_edge L ep mp _ _ _ (k_m y)) as [m os] eqn:Em. cbn [k_s k_m].
    destruct (edge_det sp (b_psel (k_m y)) (b_word (k_m y)) (k_s y) Hal) as (K1 & s & K2 & K3 & K4). split; [exact K1|]. exists s. split; [exact K2|]. split; [exact K3|].
    intros X tw' tr' x x' Hp. cbn [ylift k_m k_s]. rewrite (K4 _ _ _ _ _ Hp). cbn [slift v_pready v_prdata v_pslverr]. rewrite Em. reflexivity.
Qed.

(** ** runs *)
Local Notation run := (e_run tw tr L ep).
Definition stp (t : T) (o : eop T) (s : script) (t' : T) : Prop :=
  match o with EK _ => Forall (call_ok L) (fst s) /\ plays tw tr t s t' | EPoke f => s = ([], []) /\ t' = f t end.
Definition eno_reset (o : eop T) : Prop := match o with EK o => no_reset o | _ => True end.

Lemma plays0 {X} (tw' : wt X) (tr' : rt X) x : plays tw' tr' x ([], []) x.
Proof. left. cbn. auto. Qed.
Lemma run_det h : forall y, aligned (k_s y) -> Forall eno_reset h -> exists scr, length scr = length h /\
  (forall k, (k < length h)%nat -> exists o s, nth_error h k = Some o /\ nth_error scr k = Some s /\
     stp (v_t (k_s (fst (run y (firstn k h))))) o s (v_t (k_s (fst (run y (firstn (S k) h)))))) /\
  (forall k X (tw' : wt X) tr' x x', (k <= length h)%nat -> plays_all tw' tr' x (firstn k scr) x' ->
     k_run tw' tr' L ep (ylift x y) (kops (firstn k h)) = (ylift x' (fst (run y (firstn k h))), snd (run y (firstn k h)))).
Proof.
  induction h as [|o h IH]; intros y Hal Hn.
  { exists []. split; [reflexivity|]. split; [cbn; lia|]. intros k X tw' tr' x x' _ H. rewrite firstn_nil in *. cbn in H |- *. now subst. }
  inversion Hn as [|? ? Ho Hn']; subst.
  assert (HS : exists s, stp (v_t (k_s y)) o s (v_t (k_s (fst (e_step tw tr L ep y o)))) /\ aligned (k_s (fst (e_step tw tr L ep y o))) /\
    forall X (tw' : wt X) tr' x x', plays tw' tr' x s x' -> match o with
      | EK o' => k_step tw' tr' L ep (ylift x y) o' = (ylift x' (fst (e_step tw tr L ep y o)), snd (e_step tw tr L ep y o))
      | EPoke _ => ylift x y = ylift x' (fst (e_step tw tr L ep y o)) /\ snd (e_step tw tr L ep y o) = [] end).
  { destruct o as [o|f]; cbn [e_step stp].
    - pose proof (step_det y o Hal Ho) as K. destruct (k_step tw tr L ep y o) as [y' os]. destruct K as (K1 & s & K2 & K3 & K4). exists s. cbn [fst snd]. auto.
    - exists ([], []). cbn [fst snd]. split; [auto|]. split; [exact Hal|]. intros X tw' tr' x x' K. apply plays_nil in K. now subst. }
  destruct HS as (s & S1 & S2 & S3). destruct (e_step tw tr L ep y o) as [y1 os] eqn:Es. cbn [fst snd] in *.
  destruct (IH y1 S2 Hn') as (scr & I1 & I2 & I3). exists (s :: scr). split; [cbn; congruence|]. 
  assert (ER : forall k, run y (firstn (S k) (o :: h)) = (fst (run y1 (firstn k h)), os ++ snd (run y1 (firstn k h)))).
  { intros k. cbn [firstn e_run]. rewrite Es. now destruct (run y1 (firstn k h)). }
  split.
  - intros [|k] Hk.
    + exists o, s. split; [reflexivity|]. split; [reflexivity|]. rewrite ER. cbn [firstn e_run fst]. exact S1.
    + cbn in Hk. destruct (I2 k ltac:(lia)) as (o' & s' & A & B & C). exists o', s'. split; [exact A|]. split; [exact B|]. rewrite !ER. exact C.
  - intros [|k] X tw' tr' x x' Hk Hp; [cbn in Hp |- *; now subst|]. cbn in Hk. rewrite ER. cbn [firstn plays_all] in Hp. destruct Hp as (x1 & P1 & P2).
    specialize (I3 k X tw' tr' x1 x' ltac:(lia) P2). specialize (S3 X tw' tr' x x1 P1). cbn [firstn fst snd]. destruct o as [o|f]; cbn [kops flat_map app].
    + cbn [k_run]. rewrite S3. unfold kops in I3. rewrite I3. reflexivity.
    + destruct S3 as [S3 ->]. rewrite S3. exact I3.
Qed.
End Det.
