(** Proofs about multi-port memories (M_mport.v). *)
From Coq Require Import ZArith Lia List Bool.
From Coq Require Import ZifyBool ZifyNat.
From Verif Require Import Py S_flat M_axi S_axi P_axi P_axislave P_axiop P_axicomp P_axiram M_axil S_axil P_axil
  M_liteeng S_liteeng P_liteeng M_axieng S_axieng P_axieng P_axiattr T_axieng M_sys S_sys P_sys P_syswr P_sysrd T_sys T_sysrd M_axisys S_axisys P_sysram
  M_litesys S_litesys P_litesys P_litewr P_literd T_litesys M_literw S_literw P_literw M_mport S_mport.
Import ListNotations.
Open Scope Z_scope.

Lemma flat_map_seq_S {X} (f : nat -> list X) k : flat_map f (seq 0 (S k)) = flat_map f (seq 0 k) ++ f k.
Proof. rewrite seq_S, flat_map_app. cbn. now rewrite app_nil_r. Qed.
Lemma prefix_app_l {X} (a b c : list X) : is_prefix (a ++ b) c -> is_prefix a c.
Proof. intros [d ->]. exists (b ++ d). now rewrite app_assoc. Qed.
Lemma prefix_len {X} (a b : list X) : is_prefix a b -> (length a <= length b)%nat.
Proof. intros [d ->]. rewrite app_length. lia. Qed.
Lemma prefix_map {X Y} (f : X -> Y) a b : is_prefix a b -> is_prefix (map f a) (map f b).
Proof. intros [d ->]. exists (map f d). apply map_app. Qed.
Lemma prefix_refl {X} (a : list X) : is_prefix a a.
Proof. exists []. now rewrite app_nil_r. Qed.
Lemma prefix_trans {X} (a b c : list X) : is_prefix a b -> is_prefix b c -> is_prefix a c.
Proof. intros [d ->] [e ->]. exists (d ++ e). now rewrite app_assoc. Qed.

(* ------------------------------------------------------------------ *)
(** * Calls of one port on a memory that others change: which moment each call saw *)
Section Moments.
Context {T : Type}.
Variables (L lo hi : Z) (phi : Z -> Z) (inv : T -> Prop) (view : T -> flat).
Variable tw : T -> Z -> list Z -> T * res unit.
Variable tr : T -> Z -> Z -> T * res (list Z).
Hypothesis Hft : flat_target L lo hi phi inv view tw tr.
Variable n : nat.
Variables (tgt : nat -> T) (wl : nat -> list call) (rl : nat -> list rcall) (own : nat -> bool).

Definition env_step (k : nat) : Prop := own k = false /\ wl (S k) = wl k /\ rl (S k) = rl k /\ (inv (tgt k) -> inv (tgt (S k))).
Definition w_step (k : nat) : Prop := own k = true /\ rl (S k) = rl k /\
  exists new, wl (S k) = wl k ++ new /\ Forall (call_ok L) new /\ replays tw (tgt k) new (tgt (S k)).
Definition r_step (k : nat) : Prop := own k = true /\ wl (S k) = wl k /\
  exists new, rl (S k) = rl k ++ new /\ (length new <= 1)%nat /\ rreplays tr (tgt k) new (tgt (S k)).
Definition rcin (e : rcall) : Prop := lo <= fst (fst e) /\ fst (fst e) + L <= hi /\ fst (fst e) mod L = 0 /\ snd (fst e) = L.

Hypothesis H0 : inv (tgt 0) /\ wl 0 = [] /\ rl 0 = [].
Hypothesis Hstep : forall k, (k < n)%nat -> env_step k \/ w_step k \/ r_step k.
Hypothesis Hw : Forall (fun p => lo <= fst p < hi) (calls_bytes (wl n)).
Hypothesis Hr : Forall rcin (rl n).

Lemma wl_pre k k' : (k <= k' <= n)%nat -> is_prefix (wl k) (wl k').
Proof.
  intros [H1 H2]. induction k' as [|k' IH]; [replace k with 0%nat by lia; apply prefix_refl|].
  destruct (Nat.eq_dec k (S k')) as [->|]; [apply prefix_refl|]. eapply prefix_trans; [apply IH; lia|].
  destruct (Hstep k' ltac:(lia)) as [(_ & -> & _)|[(_ & _ & new & -> & _)|(_ & -> & _)]]; try apply prefix_refl. now exists new.
Qed.
Lemma rl_pre k k' : (k <= k' <= n)%nat -> is_prefix (rl k) (rl k').
Proof.
  intros [H1 H2]. induction k' as [|k' IH]; [replace k with 0%nat by lia; apply prefix_refl|].
  destruct (Nat.eq_dec k (S k')) as [->|]; [apply prefix_refl|]. eapply prefix_trans; [apply IH; lia|].
  destruct (Hstep k' ltac:(lia)) as [(_ & _ & -> & _)|[(_ & -> & _)|(_ & _ & new & -> & _)]]; try apply prefix_refl. now exists new.
Qed.
Lemma rl_len k k' : (k <= k' <= n)%nat -> (length (rl k) <= length (rl k'))%nat.
Proof. intros H. apply prefix_len, rl_pre, H. Qed.

Lemma w_range k : (k <= n)%nat -> Forall (fun p => lo <= fst p < hi) (calls_bytes (wl k)).
Proof. intros H. destruct (wl_pre k n ltac:(lia)) as [d E]. rewrite E, calls_bytes_app in Hw. now apply Forall_app in Hw. Qed.
Lemma r_range k : (k <= n)%nat -> Forall rcin (rl k).
Proof. intros H. destruct (rl_pre k n ltac:(lia)) as [d E]. rewrite E in Hr. now apply Forall_app in Hr. Qed.

(** one step *)
Lemma moment k : (k < n)%nat -> inv (tgt k) -> inv (tgt (S k)) /\
  (own k = true -> forall new, wl (S k) = wl k ++ new -> existsb failed new = false /\ view (tgt (S k)) =f put phi (view (tgt k)) (calls_bytes new)) /\
  (forall new, rl (S k) = rl k ++ new -> (length new <= 1)%nat /\ Forall (word_of L phi (view (tgt k))) new).
Proof.
  intros Hk Hi. destruct (Hstep k Hk) as [(E0 & E1 & E2 & E3)|[(E0 & E1 & nw & E2 & E3 & E4)|(E0 & E1 & nr & E2 & E3 & E4)]].
  - split; [auto|]. split; [intros E; congruence|]. intros new E. rewrite E2 in E. assert (new = []) as -> by (apply (app_inv_head (rl k)); now rewrite app_nil_r). split; [cbn; lia|constructor].
  - pose proof (w_range (S k) ltac:(lia)) as K. rewrite E2, calls_bytes_app in K. apply Forall_app in K as [_ K].
    destruct (replays_flat _ _ _ _ _ _ _ _ Hft _ _ _ Hi E3 K E4) as (F & I1 & V1). split; [exact I1|]. split.
    + intros _ new E. rewrite E2 in E. apply app_inv_head in E. subst new. auto.
    + intros new E. rewrite E1 in E. assert (new = []) as -> by (apply (app_inv_head (rl k)); now rewrite app_nil_r). split; [cbn; lia|constructor].
  - pose proof (r_range (S k) ltac:(lia)) as K. rewrite E2 in K. apply Forall_app in K as [_ K].
    destruct nr as [|[[a m] rr] [|? ?]]; [| |cbn in E3; lia].
    + cbn [rreplays] in E4. rewrite E4. split; [exact Hi|]. split.
      * intros _ new E. rewrite E1 in E. assert (new = []) as -> by (apply (app_inv_head (wl k)); now rewrite app_nil_r). split; [reflexivity|apply feq_refl].
      * intros new E. rewrite E2 in E. apply app_inv_head in E. subst new. split; [cbn; lia|constructor].
    + cbn [rreplays] in E4. destruct E4 as [E4 E5]. inversion K as [|? ? (D1 & D2 & D3 & D4) _]; subst. cbn [fst snd] in *. subst m.
      destruct (ft_read _ _ _ _ _ _ _ _ Hft _ a Hi D1 D2 D3) as (t' & E & I' & V'). rewrite E in *. cbn [fst snd] in *. rewrite E5. split; [exact I'|]. split.
      * intros _ new E'. rewrite E1 in E'. assert (new = []) as -> by (apply (app_inv_head (wl k)); now rewrite app_nil_r). split; [reflexivity|exact V'].
      * intros new E'. rewrite E2 in E'. apply app_inv_head in E'. subst new. split; [cbn; lia|]. constructor; [|constructor]. eexists. split; [reflexivity|]. split.
        { apply Forall_forall. intros b Hb. apply in_map_iff in Hb. destruct Hb as (x & <- & _). apply (ft_bytes _ _ _ _ _ _ _ _ Hft). exact Hi. }
        reflexivity.
Qed.

Lemma inv_at k : (k <= n)%nat -> inv (tgt k).
Proof. induction k as [|k IH]; intros H; [apply H0|]. apply moment; [lia|]. apply IH. lia. Qed.
Lemma ok_at k : (k <= n)%nat -> Forall (call_ok L) (wl k).
Proof.
  induction k as [|k IH]; intros H; [destruct H0 as (_ & -> & _); constructor|]. specialize (IH ltac:(lia)).
  destruct (Hstep k ltac:(lia)) as [(_ & -> & _)|[(_ & _ & new & -> & K & _)|(_ & -> & _)]]; auto. apply Forall_app. auto.
Qed.
Lemma fine_at k : (k <= n)%nat -> existsb failed (wl k) = false.
Proof.
  induction k as [|k IH]; intros H; [destruct H0 as (_ & -> & _); reflexivity|]. specialize (IH ltac:(lia)).
  destruct (Hstep k ltac:(lia)) as [(_ & -> & _)|[(E & _ & new & E1 & K & _)|(_ & -> & _)]]; auto. 
  destruct (moment k ltac:(lia) (inv_at k ltac:(lia))) as (_ & M & _). destruct (M E new E1) as [F _]. rewrite E1, existsb_app, IH, F. reflexivity.
Qed.

(** the bytes each step wrote *)
Definition bs (k : nat) : list (Z * Z) := calls_bytes (skipn (length (wl k)) (wl (S k))).
Lemma skipn_pre {X} (a b : list X) : skipn (length a) (a ++ b) = b.
Proof. rewrite skipn_app, skipn_all, Nat.sub_diag. reflexivity. Qed.
Lemma bs_sum k : (k <= n)%nat -> flat_map bs (seq 0 k) = calls_bytes (wl k).
Proof.
  induction k as [|k IH]; intros H; [destruct H0 as (_ & -> & _); reflexivity|]. rewrite flat_map_seq_S, IH by lia.
  destruct (wl_pre k (S k) ltac:(lia)) as [d E]. unfold bs. rewrite E, skipn_pre, calls_bytes_app. reflexivity.
Qed.
Lemma bs_env k : (k < n)%nat -> own k = false -> bs k = [].
Proof.
  intros Hk E. destruct (Hstep k Hk) as [(_ & E1 & _)|[(E1 & _)|(E1 & _)]]; try congruence. unfold bs. rewrite E1, skipn_all. reflexivity.
Qed.
Lemma bs_own k : (k < n)%nat -> own k = true -> view (tgt (S k)) =f put phi (view (tgt k)) (bs k).
Proof.
  intros Hk E. destruct (moment k Hk (inv_at k ltac:(lia))) as (_ & M & _). destruct (wl_pre k (S k) ltac:(lia)) as [d Ed].
  unfold bs. rewrite Ed, skipn_pre. now apply M.
Qed.

(** the moment of read call number g *)
Fixpoint mom_of (g k : nat) : nat :=       (* the last moment until k at which call g had not been made *)
  match k with
  | O => O
  | S k' => if (length (rl (S k')) <=? g)%nat then S k' else mom_of g k'
  end.
Lemma mom_le g k : (mom_of g k <= k)%nat.
Proof. clear. induction k as [|k IH]; cbn; [lia|]. destruct (_ <=? _)%nat; lia. Qed.
Lemma mom_ge g k k' : (k' <= k <= n)%nat -> (length (rl k') <= g)%nat -> (k' <= mom_of g k)%nat.
Proof.
  intros [H1 H2] H. induction k as [|k IH]; [lia|]. cbn [mom_of]. destruct (Nat.leb_spec (length (rl (S k))) g); [lia|].
  destruct (Nat.eq_dec k' (S k)) as [->|]; [lia|]. apply IH; lia.
Qed.
Lemma mom_lt g k k' : (k' <= k <= n)%nat -> (g < length (rl k'))%nat -> (mom_of g k < k')%nat.
Proof.
  intros [H1 H2] H. induction k as [|k IH].
  { assert (k' = 0%nat) as -> by lia. destruct H0 as (_ & _ & E). rewrite E in H. cbn in H. lia. }
  cbn [mom_of].
  destruct (Nat.leb_spec (length (rl (S k))) g) as [K|K]; [pose proof (rl_len k' (S k) ltac:(lia)); lia|].
  destruct (Nat.eq_dec k' (S k)) as [->|]; [pose proof (mom_le g k); lia|]. apply IH; lia.
Qed.
Lemma mom_mono g g' k : (k <= n)%nat -> (g <= g')%nat -> (mom_of g k <= mom_of g' k)%nat.
Proof.
  intros Hk Hg. induction k as [|k IH]; [cbn; lia|]. cbn [mom_of]. pose proof (mom_le g k).
  destruct (Nat.leb_spec (length (rl (S k))) g), (Nat.leb_spec (length (rl (S k))) g'); [lia|lia|lia|apply IH; lia].
Qed.
Lemma mom_word g e : nth_error (rl n) g = Some e -> word_of L phi (view (tgt (mom_of g n))) e.
Proof.
  intros E. assert (Hg : (g < length (rl n))%nat) by (apply nth_error_Some; congruence).
  pose proof (mom_lt g n n ltac:(lia) Hg) as Hlt. set (k := mom_of g n) in *.
  assert (H1 : (length (rl k) <= g)%nat).
  { destruct (Nat.le_gt_cases (length (rl k)) g) as [|K]; auto. pose proof (mom_lt g n k ltac:(lia) K). lia. }
  assert (H2 : (g < length (rl (S k)))%nat).
  { destruct (Nat.le_gt_cases (length (rl (S k))) g) as [K|]; auto. pose proof (mom_ge g n (S k) ltac:(lia) K). lia. }
  destruct (rl_pre k (S k) ltac:(lia)) as [d Ed]. destruct (moment k ltac:(lia) (inv_at k ltac:(lia))) as (_ & _ & M). destruct (M d Ed) as [_ F].
  destruct (rl_pre (S k) n ltac:(lia)) as [d' Ed']. rewrite Ed', nth_error_app1 in E by lia. rewrite Ed, nth_error_app2 in E by lia.
  rewrite Forall_forall in F. apply F. eapply nth_error_In; eauto.
Qed.
End Moments.

(** results of the operations of one ID *)
Lemma on_tag_nth {C X} u (A : list (C * Z)) : forall (xs : list X) i o, length xs = length A -> nth_error A i = Some (o, u) ->
  nth_error (with_tag u A) (length (with_tag u (firstn i A))) = Some o /\ nth_error (on_tag u A xs) (length (with_tag u (firstn i A))) = nth_error xs i.
Proof.
  induction A as [|[o0 u0] A IH]; intros [|x xs] [|i] o E Hn; try discriminate.
  - injection Hn as <- <-. unfold with_tag, on_tag. cbn. rewrite Z.eqb_refl. auto.
  - cbn [nth_error] in Hn. destruct (IH xs i o ltac:(cbn in E; lia) Hn) as [K1 K2]. unfold with_tag, on_tag in *. cbn [firstn filter combine snd fst].
    destruct (u0 =? u); cbn [map length nth_error]; auto.
Qed.
Lemma nth_combine {X Y} (a : list X) : forall (b : list Y) i x y, nth_error (combine a b) i = Some (x, y) -> nth_error a i = Some x /\ nth_error b i = Some y.
Proof. induction a as [|a0 a IH]; intros [|b0 b] [|i] x y E; try discriminate; cbn in *; [injection E as <- <-; auto|now apply IH]. Qed.
Lemma nth_combine' {X Y} (a : list X) : forall (b : list Y) i x y, nth_error a i = Some x -> nth_error b i = Some y -> nth_error (combine a b) i = Some (x, y).
Proof. induction a as [|a0 a IH]; intros [|b0 b] [|i] x y E F; try discriminate; cbn in *; [injection E as <-; injection F as <-; auto|now apply IH]. Qed.
Lemma nth_firstn {X} (a : list X) m i x : nth_error (firstn m a) i = Some x -> nth_error a i = Some x.
Proof. revert m i. induction a as [|a0 a IH]; intros [|m] [|i] E; try discriminate; cbn in *; eauto. Qed.
Lemma nth_pre {X} (a b : list X) i x : is_prefix a b -> nth_error a i = Some x -> nth_error b i = Some x.
Proof. intros [d ->] E. rewrite nth_error_app1; auto. apply nth_error_Some. congruence. Qed.
Lemma firstn_pre {X} (a b : list X) i : is_prefix a b -> (i <= length a)%nat -> firstn i b = firstn i a.
Proof. intros [d ->] H. rewrite firstn_app. replace (i - length a)%nat with 0%nat by lia. cbn. now rewrite app_nil_r. Qed.
Lemma firstn_map' {X Y} (f : X -> Y) i l : firstn i (map f l) = map f (firstn i l).
Proof. apply firstn_map. Qed.

(** others' steps may be counted as the port's own if they change nothing *)
Lemma served_own phi n m own own' v : served phi n m own v ->
  (forall k, (k < n)%nat -> own' k = own k \/ own' k = true /\ own k = false /\ m (S k) =f m k) -> served phi n m own' v.
Proof.
  intros (H0 & bs & mom & H1 & H2 & H3) He. split; [exact H0|]. exists bs, mom. split; [|split; [|exact H3]].
  - intros k Hk E. destruct (He k Hk) as [E'|(E' & _)]; [|congruence]. apply H1; [auto|congruence].
  - intros k Hk E. destruct (He k Hk) as [E'|(_ & E' & Em)]; [apply H2; [auto|congruence]|]. rewrite (H1 k Hk E'). exact Em.
Qed.
