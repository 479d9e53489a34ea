(** An APB slave whose target takes time: the state between the accesses of a word is that of a paused slave, except for the target. *)
From Coq Require Import ZArith Lia List Bool.
From Coq Require Import ZifyBool ZifyNat.
From Verif Require Import Py S_flat M_axi S_axi P_axi M_axil S_axil P_axil M_apb S_apb P_apb P_apbsys M_apbblk S_apbblk.
Import ListNotations.
Open Scope Z_scope.

(** the slave as one of M_apb.v with another task and target *)
Definition view {T} (s : stask) (t : T) (v : gslv T) : aslv T :=
  {| v_task := s; v_pready := g_pready v; v_prdata := g_prdata v; v_pslverr := g_pslverr v; v_t := t |}.
Definition sview {T} (s : stask) (t : T) (y : gsys T) : asys T := {| k_m := g_m y; k_s := view s t (g_s y) |}.

Section Blk.
Variables (L : Z) (ep : bool).
Hypothesis HL : 0 < L.
Context {T : Type}.
Variable tw : T -> Z -> list Z -> T * res unit.
Variable tr : T -> Z -> Z -> T * res (list Z).
Variable t0 : T.
Local Notation si := (sinv L ep tw tr t0).
Local Notation serve := (serve_all tw tr L ep t0).

Definition aw (r : arun) : Z := pw_addr (ru_word r) / L * L.
Definition ginv (y : gsys T) (ops : list aop) (se : list (aop * option aresp)) : Prop :=
  match g_task (g_s y) with
  | GT s => si (sview s (g_t (g_s y)) y) ops se
  | GWr rest => exists tk pre r data, b_task (g_m y) = AAcc r /\ si (sview (VPaus (aw r)) tk y) ops se /\ rest <> [] /\ pw_write (ru_word r) = true /\
      to_bytes (pw_data (ru_word r)) L Little = Ok data /\ sw_ops (aw r) data (pw_strb (ru_word r)) (zrange 0 L) 0 None = pre ++ rest /\ sw_perform tw tk pre = (g_t (g_s y), Ok tt)
  | GRd addr => exists r, b_task (g_m y) = AAcc r /\ addr = aw r /\ si (sview (VPaus (aw r)) (g_t (g_s y)) y) ops se /\ pw_write (ru_word r) = false
  end.

(** the paused slave *)
Lemma paus_inv y ad t ops se : si (sview (VPaus ad) t y) ops se ->
  exists done t1 r, serve done = (t1, se) /\ b_task (g_m y) = AAcc r /\ ops = done ++ ru_op r :: b_q (g_m y) /\ b_word (g_m y) = ru_word r /\ ad = aw r /\ g_pready (g_s y) = false /\ at_word L ep tw tr r t1 t.
Proof.
  intros (_ & _ & [(H & _)|(done & t1 & r & Hs & Ht & Hops & Hw & [(H1 & H2 & H3)|(H1 & _)])]); [discriminate H| |discriminate H1].
  exists done, t1, r. cbn [sview k_m k_s view v_task v_pready v_t] in *. injection H1 as ->. auto 10.
Qed.
Lemma finish_inv y r t d e t' ops se : b_task (g_m y) = AAcc r -> si (sview (VPaus (aw r)) t y) ops se -> v_access tw tr L (aw r) (ru_word r) t = Ok (t', d, e) ->
  ginv {| g_m := g_m y; g_s := g_finish ep t' d e (g_s y) |} ops se.
Proof.
  intros Hr Hi Ha. destruct (paus_inv _ _ _ _ _ Hi) as (done & t1 & r' & Hs & Ht & Hops & Hw & _ & Hp & Hat). rewrite Hr in Ht. injection Ht as <-.
  destruct Hi as (Hok & Hpe & _). unfold ginv. cbn [g_s g_finish g_task]. split; [exact Hok|]. split; [exact Hpe|]. right.
  pose proof (v_serve_inv L ep HL tw tr t0 false r t1 (view (VPaus (aw r)) t (g_s y)) (g_m y) ops done se Hs Hr Hops Hw Hp Hat) as K.
  unfold v_serve in K. cbn [view v_t v_prdata v_pslverr] in K. fold (aw r) in K. rewrite Ha in K. exact K.
Qed.
Lemma begin_inv y r ops se : b_task (g_m y) = AAcc r -> si (sview (VPaus (aw r)) (g_t (g_s y)) y) ops se ->
  ginv {| g_m := g_m y; g_s := g_begin L ep (aw r) (ru_word r) (g_s y) |} ops se.
Proof.
  intros Hr Hi. unfold g_begin. destruct (pw_write (ru_word r)) eqn:Ew.
  - destruct (to_bytes (pw_data (ru_word r)) L Little) as [data|e] eqn:Ed.
    + destruct (sw_ops (aw r) data (pw_strb (ru_word r)) (zrange 0 L) 0 None) as [|o ops'] eqn:Eo.
      * apply (finish_inv y r (g_t (g_s y)) None false); auto. unfold v_access. rewrite Ew, Ed, Eo. reflexivity.
      * unfold ginv. cbn [g_s g_set g_task]. exists (g_t (g_s y)), [], r, data. split; [exact Hr|]. split; [exact Hi|]. split; [discriminate|]. cbn. auto.
    + exfalso. destruct (paus_inv _ _ _ _ _ Hi) as (done & t1 & r' & _ & Ht & _ & _ & _ & _ & (Hx & Hk & _ & Hwd & d & rs & Hpr & _)). rewrite Hr in Ht. injection Ht as <-.
      destruct (prog_S L HL tw tr _ _ _ _ _ _ Hx Hk Hpr) as (t2 & x & e' & Hacc & _). rewrite <- Hwd in Hacc. unfold v_access in Hacc. rewrite Ew, Ed in Hacc. discriminate.
  - unfold ginv. cbn [g_s g_set g_task]. exists r. auto.
Qed.

Lemma go_inv y ops se : ginv y ops se -> ginv {| g_m := g_m y; g_s := g_go tw tr L ep (g_s y) |} ops se.
Proof.
  intros H. unfold g_go. destruct (g_task (g_s y)) as [s|rest|ad] eqn:Et.
  - destruct y as [m v]; exact H.
  - unfold ginv in H. rewrite Et in H. destruct H as (tk & pre & r & data & Hr & Hi & Hne & Ew & Ed & Eo & Ep). destruct rest as [|[a d] rest]; [congruence|].
    assert (Hsp : forall l t t', sw_perform tw t l = (t', Ok tt) -> forall l', sw_perform tw t (l ++ l') = sw_perform tw t' l').
    { induction l as [|[a' d'] l IH]; intros t t' E l'; cbn in *; [now injection E as ->|]. destruct (tw t a' d') as [t1 [[]|e]]; [now apply IH|discriminate]. }
    assert (Hacc : v_access tw tr L (aw r) (ru_word r) tk = let '(t', q) := sw_perform tw (g_t (g_s y)) ((a, d) :: rest) in Ok (t', None, v_err q)).
    { unfold v_access. rewrite Ew, Ed, Eo, (Hsp _ _ _ Ep). reflexivity. }
    cbn [sw_perform] in Hacc. destruct (tw (g_t (g_s y)) a d) as [t' [[]|e]] eqn:E.
    + destruct rest as [|o rest].
      * cbn in Hacc. apply (finish_inv y r tk); auto.
      * unfold ginv. cbn [g_s g_task]. exists tk, (pre ++ [(a, d)]), r, data. split; [exact Hr|]. split; [exact Hi|]. split; [discriminate|]. split; [exact Ew|]. split; [exact Ed|].
        split; [rewrite Eo, <- app_assoc; reflexivity|]. rewrite (Hsp _ _ _ Ep). cbn. now rewrite E.
    + apply (finish_inv y r tk); auto.
  - unfold ginv in H. rewrite Et in H. destruct H as (r & Hr & -> & Hi & Ew). destruct (tr (g_t (g_s y)) (aw r) L) as [t' q] eqn:E.
    apply (finish_inv y r (g_t (g_s y))); auto. unfold v_access. rewrite Ew, E. reflexivity.
Qed.

Lemma b_step_acc m o r : b_task m = AAcc r -> no_reset (KM o) -> (forall p a b c, o <> BEdge p a b c) -> b_task (fst (b_step L ep m o)) = AAcc r.
Proof.
  intros H Hn Hne. destruct o as [c|c|n| |n|p a b c|b]; cbn [b_step]; try destruct Hn; try exact H.
  - destruct (nth_error (b_pend m) n); exact H.
  - rewrite H. exact H.
  - destruct (nth_error (b_wait m) n) as [[x [d|]]|]; exact H.
  - now specialize (Hne p a b c).
Qed.

Lemma g_step_inv y o ops se : ginv y ops se -> gno_reset o -> gop_ok o ->
  let '(y', os) := g_step tw tr L ep y o in ginv y' (ops ++ starts os) (se ++ sets os).
Proof.
  intros Hi Hn Hk. destruct o as [o|]; cbn [g_step gno_reset gop_ok] in *; [|cbn [starts sets]; rewrite !app_nil_r; now apply go_inv].
  destruct o as [o|mp sp|b]; [| |destruct Hn].
  - destruct (match o with BEdge _ _ _ _ => true | _ => false end) eqn:Eb; [destruct o; try discriminate Eb; cbn [starts sets]; now rewrite !app_nil_r|].
    assert (Hne : forall p a b c, o <> BEdge p a b c) by (intros p a b c ->; discriminate).
    assert (G : forall s t, si (sview s t y) ops se -> let '(m, os) := b_step L ep (g_m y) o in si (sview s t {| g_m := m; g_s := g_s y |}) (ops ++ starts os) (se ++ sets os)).
    { intros s t Hs. pose proof (k_step_inv L ep HL tw tr t0 _ (KM o) _ _ Hs Hn Hk) as K. cbn [k_step sview k_m k_s] in K.
      destruct o; try discriminate Eb; destruct (b_step L ep (g_m y) _) as [m os]; exact K. }
    assert (E : (match o with BEdge _ _ _ _ => (y, []) | _ => let '(m, os) := b_step L ep (g_m y) o in ({| g_m := m; g_s := g_s y |}, os) end) =
                (let '(m, os) := b_step L ep (g_m y) o in ({| g_m := m; g_s := g_s y |}, os))) by (destruct o; try discriminate Eb; reflexivity).
    rewrite E. clear E. pose proof (fun r H => b_step_acc (g_m y) o r H Hn Hne) as Hacc. unfold ginv in Hi. destruct (b_step L ep (g_m y) o) as [m os] eqn:Es. cbn [fst] in Hacc.
    unfold ginv. cbn [g_s g_m]. destruct (g_task (g_s y)) as [s|rest|ad].
    + apply (G s _ Hi).
    + destruct Hi as (tk & pre & r & data & Hr & Hi & H3). exists tk, pre, r, data. split; [auto|]. split; [apply (G _ _ Hi)|exact H3].
    + destruct Hi as (r & Hr & H2 & Hi & H3). exists r. split; [auto|]. split; [exact H2|]. split; [apply (G _ _ Hi)|exact H3].
  - assert (Hw : working y = true -> a_edge L ep mp (g_pready (g_s y)) (g_prdata (g_s y)) (g_pslverr (g_s y)) (g_m y) = (g_m y, []) /\ g_edge L ep sp (b_psel (g_m y)) (b_word (g_m y)) (g_s y) = g_s y).
    { unfold working, g_edge, ginv in *. destruct (g_task (g_s y)) as [s|rest|ad]; [discriminate| |]; intros _; (split; [|reflexivity]).
      - destruct Hi as (tk & pre & r & data & Hr & Hi & _). destruct (paus_inv _ _ _ _ _ Hi) as (_ & _ & _ & _ & _ & _ & _ & _ & Hp & _). unfold a_edge. now rewrite Hr, Hp.
      - destruct Hi as (r & Hr & _ & Hi & _). destruct (paus_inv _ _ _ _ _ Hi) as (_ & _ & _ & _ & _ & _ & _ & _ & Hp & _). unfold a_edge. now rewrite Hr, Hp. }
    destruct (working y) eqn:Ewk.
    { destruct (Hw eq_refl) as [-> ->]. cbn [starts sets]. rewrite !app_nil_r. destruct y; exact Hi. }
    clear Hw. unfold working in Ewk. destruct (g_task (g_s y)) as [s|rest|ad] eqn:Et; try discriminate. clear Ewk. unfold ginv in Hi. rewrite Et in Hi.
    (* the slave of M_apb.v with sp, or paused *)
    assert (G : forall sp', let '(m, os) := a_edge L ep mp (g_pready (g_s y)) (g_prdata (g_s y)) (g_pslverr (g_s y)) (g_m y) in
      si {| k_m := m; k_s := v_edge tw tr L ep sp' (b_psel (g_m y)) (b_word (g_m y)) (view s (g_t (g_s y)) (g_s y)) |} (ops ++ starts os) (se ++ sets os)).
    { intros sp'. pose proof (k_step_inv L ep HL tw tr t0 _ (KEdge mp sp') _ _ Hi I I) as K. cbn [k_step sview k_m k_s view v_pready v_prdata v_pslverr] in K.
      destruct (a_edge L ep mp _ _ _ (g_m y)) as [m os]. exact K. }
    assert (Hword : (s = VIdle /\ b_psel (g_m y) = true \/ exists ad, s = VPaus ad) -> forall m os, a_edge L ep mp (g_pready (g_s y)) (g_prdata (g_s y)) (g_pslverr (g_s y)) (g_m y) = (m, os) -> b_word m = b_word (g_m y)).
    { intros Hs m os E. destruct Hs as [[-> Hps]|[ad ->]].
      - destruct Hi as (_ & _ & [(_ & _ & done & t1 & _ & Hm)|(done & t1 & r & _ & Ht & _ & _ & [(K & _)|(K & _)])]); try discriminate K. cbn [sview k_m k_s view v_t] in Hm.
        unfold a_edge in E. destruct (b_task (g_m y)); try (destruct Hm; fail); try (destruct Hm as (_ & _ & Hm); congruence). now injection E as <- _.
      - destruct (paus_inv _ _ _ _ _ Hi) as (_ & _ & r & _ & Ht & _ & _ & _ & Hp & _). unfold a_edge in E. rewrite Ht, Hp in E. now injection E as <- _. }
    destruct (a_edge L ep mp _ _ _ (g_m y)) as [m os] eqn:Ea. unfold g_edge. rewrite Et.
    assert (B : forall ad, (s = VIdle /\ b_psel (g_m y) = true /\ ad = pw_addr (b_word (g_m y)) / L * L \/ s = VPaus ad) ->
      ginv {| g_m := m; g_s := g_serve L ep sp ad (b_word (g_m y)) (g_s y) |} (ops ++ starts os) (se ++ sets os)).
    { intros ad Hs. specialize (G true). unfold v_edge in G. cbn [view v_task] in G.
      assert (E : match s with VKill => view s (g_t (g_s y)) (g_s y) | VIdle => if b_psel (g_m y) then v_serve tw tr L ep true (pw_addr (b_word (g_m y)) / L * L) (b_word (g_m y)) (view s (g_t (g_s y)) (g_s y)) else view s (g_t (g_s y)) (g_s y)
        | VPaus addr => v_serve tw tr L ep true addr (b_word (g_m y)) (view s (g_t (g_s y)) (g_s y))
        | VAck => {| v_task := VIdle; v_pready := false; v_prdata := v_prdata (view s (g_t (g_s y)) (g_s y)); v_pslverr := v_pslverr (view s (g_t (g_s y)) (g_s y)); v_t := v_t (view s (g_t (g_s y)) (g_s y)) |} end =
        view (VPaus ad) (g_t (g_s y)) (g_s y)).
      { destruct Hs as [(-> & -> & ->)| ->]; reflexivity. }
      rewrite E in G. clear E. unfold g_serve. destruct sp; [exact G|].
      set (y1 := {| g_m := m; g_s := g_s y |}). change (si (sview (VPaus ad) (g_t (g_s y1)) y1) (ops ++ starts os) (se ++ sets os)) in G.
      destruct (paus_inv _ _ _ _ _ G) as (_ & _ & r & _ & Ht & _ & Hbw & Ead & _). subst ad.
      cbn [g_m y1] in Hbw. rewrite (Hword ltac:(destruct Hs as [(-> & -> & _)| ->]; eauto) m os eq_refl) in Hbw. rewrite Hbw.
      exact (begin_inv y1 r _ _ Ht G). }
    destruct s as [| |ad|].
    + specialize (G sp). unfold ginv. cbn [g_s]. rewrite Et. exact G.
    + destruct (b_psel (g_m y)) eqn:Eps; [apply B; auto|]. specialize (G sp). cbn [v_edge view v_task] in G. unfold ginv. cbn [g_s]. rewrite Et. exact G.
    + apply B. auto.
    + specialize (G sp). exact G.
Qed.
Lemma g_run_inv h : forall y ops se, ginv y ops se -> Forall gno_reset h -> Forall gop_ok h ->
  let '(y', os) := g_run tw tr L ep y h in ginv y' (ops ++ starts os) (se ++ sets os).
Proof.
  induction h as [|o h IH]; intros y ops se Hi Hn Hk; cbn [g_run].
  - cbn. now rewrite !app_nil_r.
  - apply Forall_cons_iff in Hn as [Hn Hn']. apply Forall_cons_iff in Hk as [Hk Hk'].
    pose proof (g_step_inv y o ops se Hi Hn Hk) as H1. destruct (g_step tw tr L ep y o) as [y1 o1].
    specialize (IH y1 _ _ H1 Hn' Hk'). destruct (g_run tw tr L ep y1 h) as [y2 o2]. rewrite starts_app, sets_app, !app_assoc. exact IH.
Qed.
Lemma gsys0_inv : ginv (gsys0 t0) [] [].
Proof. exact (sys0_inv L ep tw tr t0). Qed.
End Blk.
