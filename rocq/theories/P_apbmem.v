(** Lemmas for APB operations on a byte memory. *)
From Coq Require Import ZArith Lia List Bool.
From Coq Require Import ZifyBool ZifyNat.
From Verif Require Import Py S_flat M_axi S_axi P_axi P_axislave P_axiop P_axicomp M_axil S_axil P_axil M_apb S_apb P_apbsys.
Import ListNotations.
Open Scope Z_scope.

Lemma mem_serve_feq phi ops : forall m m', m =f m' ->
  fst (mem_serve phi m ops) =f fst (mem_serve phi m' ops) /\ snd (mem_serve phi m ops) = snd (mem_serve phi m' ops).
Proof.
  induction ops as [|[n c] ops IH]; intros m m' H; cbn [mem_serve snd]; [auto|].
  assert (Hr : forall r, map (fun a => m (phi a)) (zrange (lr_addr r) (lr_addr r + lr_len r)) =
                         map (fun a => m' (phi a)) (zrange (lr_addr r) (lr_addr r + lr_len r))) by (intros r; apply map_ext; intros; apply H).
  destruct c as [w|r].
  - destruct (IH (put phi m (addressed (lc_addr w) (lc_data w))) (put phi m' (addressed (lc_addr w) (lc_data w)))) as [I1 I2]; [now apply put_feq|].
    destruct (mem_serve phi (put phi m _) ops), (mem_serve phi (put phi m' _) ops). cbn [fst snd] in *. now rewrite I2.
  - destruct (IH m m' H) as [I1 I2]. rewrite Hr. destruct (mem_serve phi m ops), (mem_serve phi m' ops). cbn [fst snd] in *. now rewrite I2.
Qed.

Lemma serve_flat {T} L ep lo hi phi (inv : T -> Prop) view tw tr : flat_target L lo hi phi inv view tw tr -> 0 < L -> lo mod L = 0 -> hi mod L = 0 ->
  forall ops t, inv t -> Forall (fun x => op_in lo hi (snd x)) ops ->
  exists t', serve_all tw tr L ep t ops = (t', snd (mem_serve phi (view t) ops)) /\ inv t' /\ view t' =f fst (mem_serve phi (view t) ops).
Proof.
  intros Hft HL Hlo Hhi. induction ops as [|[n c] ops IH]; intros t Hi Ho; cbn [serve_all mem_serve snd].
  - exists t. cbn. auto using feq_refl.
  - apply Forall_cons_iff in Ho as [Hc Ho]. cbn [snd] in Hc. destruct c as [w|r]; cbn [op_in apb_serve] in *.
    + destruct Hc as (HD & H1 & H2). destruct (lite_write_exact L lo hi phi inv view tw tr Hft HL w t HD H1 H2 Hi) as (t1 & bs & E & Hi1 & Hv1 & _ & Hr).
      rewrite E, Hr. destruct (IH t1 Hi1 Ho) as (t2 & E2 & Hi2 & Hv2). rewrite E2.
      destruct (mem_serve_feq phi ops _ _ Hv1) as [F1 F2]. exists t2.
      destruct (mem_serve phi (put phi (view t) _) ops) as [m2 rs]. cbn [fst snd] in *.
      split; [rewrite F2; now destruct ep|]. split; auto. eapply feq_trans; eauto.
    + destruct Hc as (H0 & H1 & H2). destruct (lite_read_exact L lo hi phi inv view tw tr Hft HL Hlo Hhi r t H0 H1 H2 Hi) as (t1 & rs & E & Hi1 & Hv1 & _ & Hr).
      rewrite E, Hr. cbn [fst snd]. destruct (IH t1 Hi1 Ho) as (t2 & E2 & Hi2 & Hv2). rewrite E2.
      destruct (mem_serve_feq phi ops _ _ Hv1) as [F1 F2]. exists t2.
      destruct (mem_serve phi (view t) ops) as [m2 rs']. cbn [fst snd] in *.
      split; [rewrite F2; now destruct ep|]. split; auto. eapply feq_trans; eauto.
Qed.
