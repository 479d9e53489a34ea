(** Lemmas for the argument checks (C29). *)
From Coq Require Import ZArith Lia List Bool.
From Coq Require Import ZifyBool ZifyNat.
From Verif Require Import Py M_axi M_axiargs S_axiargs.
Import ListNotations.
Open Scope Z_scope.

Lemma check_dec b : check b = if b then Ok tt else Err ValueError.
Proof. reflexivity. Qed.

Lemma burst_of_spec z : match burst_of z with
  | Ok b => burst_code b = z
  | Err e => e = ValueError /\ ~ (0 <= z <= 2)
  end.
Proof.
  unfold burst_of. destruct (Z.eqb_spec z 0); [easy|]. destruct (Z.eqb_spec z 1); [easy|].
  destruct (Z.eqb_spec z 2); [easy|]. split; [reflexivity|lia].
Qed.

Lemma id_arg_spec c i : match id_arg c i with
  | Ok r => r = given i /\ (forall j, given i = Some j -> j <= 2 ^ ac_idw c)
  | Err e => e = ValueError /\ exists j, given i = Some j /\ 2 ^ ac_idw c < j
  end.
Proof.
  unfold id_arg, given, id_count. destruct i as [i|]; [|easy].
  destruct (Z.ltb_spec i 0); [easy|]. destruct (Z.ltb_spec (2 ^ ac_idw c) i).
  - split; [reflexivity|]. exists i. auto.
  - split; [reflexivity|]. intros j [= <-]. lia.
Qed.

Lemma size_arg_spec c m s : 0 <= m -> ac_lanes c = 2 ^ m ->
  match size_arg c s with
  | Ok r => r = match given s with Some s => s | None => m end /\ 0 <= r <= m /\
            (forall j, given s = Some j -> 2 ^ j <= ac_lanes c)
  | Err e => e = ValueError /\ exists j, given s = Some j /\ ac_lanes c < 2 ^ j
  end.
Proof.
  intros Hm HL. unfold size_arg, given, max_burst_size. rewrite HL, bit_length_pow2 by auto.
  destruct s as [s|]; [|split; [reflexivity|split; [lia|easy]]].
  destruct (Z.ltb_spec s 0); [split; [reflexivity|split; [lia|easy]]|].
  destruct (Z.ltb_spec m s).
  - split; [reflexivity|]. exists s. split; [reflexivity|]. apply Z.pow_lt_mono_r; lia.
  - split; [reflexivity|]. split; [lia|]. intros j [= <-]. apply Z.pow_le_mono_r; lia.
Qed.

Lemma or_check p (x y : Z) : (p || (x =? y) = true) <-> (x <> y -> p = true).
Proof. destruct p, (Z.eqb_spec x y); cbn; tauto. Qed.

(** everything checked after the address range *)
Definition com_rest (c : acfg) (g : cargs) : Prop :=
  0 <= g_burst g <= 2 /\
  (forall i, given (g_id g) = Some i -> i <= 2 ^ ac_idw c) /\
  (forall s, given (g_size g) = Some s -> 2 ^ s <= ac_lanes c) /\
  side_ok (ac_pres c) (g_side g).

Lemma com_check_spec c m g : 0 <= m -> ac_lanes c = 2 ^ m ->
  match com_check c g with
  | Ok (i, b, sz) => com_rest c g /\ com_means c m g i b sz /\ 0 <= sz <= m
  | Err e => e = ValueError /\ ~ com_rest c g
  end.
Proof.
  intros Hm HL. unfold com_check.
  pose proof (id_arg_spec c (g_id g)) as Hi. destruct (id_arg c (g_id g)) as [i|e]; cbn [bind].
  2:{ destruct Hi as (-> & j & Hj & Hlt). split; [reflexivity|]. intros (_ & H & _). specialize (H j Hj). lia. }
  pose proof (burst_of_spec (g_burst g)) as Hb. destruct (burst_of (g_burst g)) as [b|e]; cbn [bind].
  2:{ destruct Hb as (-> & Hb). split; [reflexivity|]. intros (H & _). auto. }
  pose proof (size_arg_spec c m (g_size g) Hm HL) as Hs. destruct (size_arg c (g_size g)) as [s|e]; cbn [bind].
  2:{ destruct Hs as (-> & j & Hj & Hlt). split; [reflexivity|]. intros (_ & _ & H & _). specialize (H j Hj). lia. }
  set (sd := g_side g). set (p := ac_pres c).
  assert (HR : side_ok p sd <->
    (s_lock sd = 0 \/ s_lock sd = 1) /\ p_lock p || (s_lock sd =? 0) = true /\
    p_cache p || (s_cache sd =? 3) = true /\ p_prot p || (s_prot sd =? 2) = true /\
    p_qos p || (s_qos sd =? 0) = true /\ p_region p || (s_region sd =? 0) = true /\
    p_user p || (s_user sd =? 0) = true).
  { unfold side_ok. rewrite !or_check. reflexivity. }
  assert (HN : ~ side_ok p sd -> ValueError = ValueError /\ ~ com_rest c g).
  { intros H. split; [reflexivity|]. intros (_ & _ & _ & H'). auto. }
  unfold check.
  destruct ((s_lock sd =? 0) || (s_lock sd =? 1)) eqn:E0; cbn [bind].
  2:{ apply HN. intros H. apply HR in H. lia. }
  destruct (p_lock p || (s_lock sd =? 0)) eqn:E1; cbn [bind];
    [|apply HN; intros H; apply HR in H; intuition discriminate].
  destruct (p_cache p || (s_cache sd =? 3)) eqn:E2; cbn [bind];
    [|apply HN; intros H; apply HR in H; intuition discriminate].
  destruct (p_prot p || (s_prot sd =? 2)) eqn:E3; cbn [bind];
    [|apply HN; intros H; apply HR in H; intuition discriminate].
  destruct (p_qos p || (s_qos sd =? 0)) eqn:E4; cbn [bind];
    [|apply HN; intros H; apply HR in H; intuition discriminate].
  destruct (p_region p || (s_region sd =? 0)) eqn:E5; cbn [bind];
    [|apply HN; intros H; apply HR in H; intuition discriminate].
  destruct (p_user p || (s_user sd =? 0)) eqn:E6; cbn [bind];
    [|apply HN; intros H; apply HR in H; intuition discriminate].
  destruct Hi as [-> Hi]. destruct Hs as (Hs1 & Hs2 & Hs3).
  split; [|split; [split; [reflexivity|split; [exact Hb|exact Hs1]]|exact Hs2]].
  split; [rewrite <- Hb; destruct b; cbn; lia|]. split; [exact Hi|]. split; [exact Hs3|].
  apply HR. split; [lia|]. auto 10.
Qed.

Lemma forallb_bytes d : forallb is_byteb d = true <-> are_bytes d.
Proof.
  rewrite forallb_forall. unfold are_bytes. rewrite Forall_forall. unfold is_byteb, is_byte.
  split; intros H x Hx; specialize (H x Hx); lia.
Qed.

Lemma write_args_spec c m a : 0 <= m -> ac_lanes c = 2 ^ m ->
  match write_args c a with
  | Ok (i, cmd) => wargs_ok (2 ^ ac_idw c) c a /\
      com_means c m (wa_com a) i (wc_burst cmd) (wc_size cmd) /\ 0 <= wc_size cmd <= m /\
      wc_addr cmd = g_addr (wa_com a) /\ wa_data a = DSeq (wc_data cmd) /\
      wc_side cmd = g_side (wa_com a) /\ wc_wuser cmd = wuser_means (wa_wuser a)
  | Err e => e = ValueError /\ ~ wargs_ok (2 ^ ac_idw c) c a
  end.
Proof.
  intros Hm HL. unfold write_args. rewrite check_dec. set (g := wa_com a).
  destruct (negb ((g_addr g <? 0) || (2 ^ ac_aw c <=? g_addr g))) eqn:E0; cbn [bind].
  2:{ split; [reflexivity|]. intros (d & _ & _ & (H & _) & _). fold g in H. lia. }
  destruct (wa_data a) as [z|d] eqn:Ed.
  { split; [reflexivity|]. intros (d & H & _). congruence. }
  rewrite check_dec. destruct ((g_burst g =? 0) || (g_addr g + zlen d <=? 2 ^ ac_aw c)) eqn:E1; cbn [bind].
  2:{ split; [reflexivity|]. intros (d' & H0 & _ & (_ & _ & H & _) & _). fold g in H.
      replace d' with d in H by congruence. lia. }
  pose proof (com_check_spec c m g Hm HL) as Hc. destruct (com_check c g) as [[[i b] sz]|e]; cbn [bind].
  2:{ destruct Hc as (-> & Hc). split; [reflexivity|]. intros (d' & _ & _ & (_ & H1 & _ & H2 & H3 & H4) & _).
      apply Hc. repeat (split; [assumption|]). assumption. }
  rewrite check_dec.
  destruct (p_wuser (ac_pres c) || match wa_wuser a with UInt u => u =? 0 | _ => false end) eqn:E2; cbn [bind].
  2:{ split; [reflexivity|]. intros (_ & _ & _ & _ & H).
      destruct (p_wuser (ac_pres c)); [discriminate|]. cbn [orb] in E2.
      assert (wa_wuser a <> UInt 0) as Hne by (intros E; rewrite E in E2; discriminate).
      specialize (H Hne). discriminate. }
  rewrite check_dec. destruct (forallb is_byteb d) eqn:E3; cbn [bind].
  2:{ split; [reflexivity|]. intros (d' & H0 & H & _). apply forallb_bytes in H. congruence. }
  destruct Hc as ((H1 & H2 & H3 & H4) & Hmean & Hsz). cbn [wc_addr wc_data wc_burst wc_size wc_side wc_wuser].
  split; [|split; [exact Hmean|split; [exact Hsz|auto]]].
  exists d. split; [exact Ed|]. split; [now apply forallb_bytes|].
  split; [split; [fold g; lia|split; [exact H1|split; [fold g; lia|auto]]]|].
  intros Hne. destruct (p_wuser (ac_pres c)); [reflexivity|]. cbn [orb] in E2.
  destruct (wa_wuser a) as [|u|]; try discriminate. apply Z.eqb_eq in E2. congruence.
Qed.

Lemma read_args_spec c m a : 0 <= m -> ac_lanes c = 2 ^ m ->
  match read_args c a with
  | Ok (i, cmd) => rargs_ok (2 ^ ac_idw c) c a /\
      com_means c m (ra_com a) i (rc_burst cmd) (rc_size cmd) /\ 0 <= rc_size cmd <= m /\
      rc_addr cmd = g_addr (ra_com a) /\ rc_len cmd = ra_len a /\ rc_side cmd = g_side (ra_com a)
  | Err e => e = ValueError /\ ~ rargs_ok (2 ^ ac_idw c) c a
  end.
Proof.
  intros Hm HL. unfold read_args. rewrite check_dec. set (g := ra_com a).
  destruct (negb ((g_addr g <? 0) || (2 ^ ac_aw c <=? g_addr g))) eqn:E0; cbn [bind].
  2:{ split; [reflexivity|]. intros (_ & (H & _)). fold g in H. lia. }
  rewrite check_dec. destruct (negb (ra_len a <? 0)) eqn:En; cbn [bind].
  2:{ split; [reflexivity|]. intros (H & _). lia. }
  rewrite check_dec. destruct ((g_burst g =? 0) || (g_addr g + ra_len a <=? 2 ^ ac_aw c)) eqn:E1; cbn [bind].
  2:{ split; [reflexivity|]. intros (_ & (_ & _ & H & _)). fold g in H. lia. }
  pose proof (com_check_spec c m g Hm HL) as Hc. destruct (com_check c g) as [[[i b] sz]|e]; cbn [bind].
  2:{ destruct Hc as (-> & Hc). split; [reflexivity|]. intros (_ & (_ & H1 & _ & H2 & H3 & H4)).
      apply Hc. repeat (split; [assumption|]). assumption. }
  destruct Hc as ((H1 & H2 & H3 & H4) & Hmean & Hsz). cbn [rc_addr rc_len rc_burst rc_size rc_side].
  split; [|split; [exact Hmean|split; [exact Hsz|auto]]].
  split; [lia|]. split; [fold g; lia|]. split; [exact H1|]. split; [fold g; lia|]. auto.
Qed.
