(** C28: which of several responses a master reports. *)
From Coq Require Import ZArith List Bool Lia.
From Verif Require Import Py M_axi S_axi P_axi P_axicomp M_axil P_axil T_axi T_axil.
Import ListNotations.
Open Scope Z_scope.

(** the last response that is not OKAY; OKAY if all are *)
Definition reported (l : list resp_t) (r : resp_t) : Prop :=
  (Forall (fun x => x = OKAY) l /\ r = OKAY) \/ (exists l1 l2, l = l1 ++ r :: l2 /\ r <> OKAY /\ Forall (fun x => x = OKAY) l2).

Lemma fold_reported l : reported l (fold_left agg_resp l OKAY).
Proof.
  induction l as [|x l IH] using rev_ind; [left; auto|]. rewrite fold_left_app. cbn [fold_left]. unfold agg_resp at 1.
  destruct (resp_eqb x OKAY) eqn:E.
  - assert (Ex : x = OKAY) by (destruct x; cbn in E; congruence). subst x. destruct IH as [[H1 H2]|(l1 & l2 & E1 & H1 & H2)].
    + left. split; [|exact H2]. apply Forall_app. split; auto.
    + right. exists l1, (l2 ++ [OKAY]). split; [rewrite E1 at 1; now rewrite <- app_assoc|]. split; [exact H1|]. apply Forall_app. split; auto.
  - right. exists l, []. split; [reflexivity|]. split; [intros ->; discriminate|constructor].
Qed.
Lemma reported_det l : forall r r', reported l r -> reported l r' -> r = r'.
Proof.
  assert (HB : forall l1 l2 r, r <> OKAY -> Forall (fun x => x = OKAY) (l1 ++ r :: l2) -> False).
  { intros l1 l2 r Hr H. apply Forall_app in H as [_ H]. inversion H; subst. congruence. }
  induction l as [|x l IH] using rev_ind; intros r r' H H'.
  - destruct H as [[_ ->]|([|] & l2 & E & _)]; [|discriminate|discriminate]. destruct H' as [[_ ->]|([|] & l2 & E & _)]; [reflexivity|discriminate|discriminate].
  - assert (HL : forall q, reported (l ++ [x]) q -> (x <> OKAY /\ q = x) \/ (x = OKAY /\ reported l q)).
    { intros q [[H1 ->]|(l1 & l2 & E & H1 & H2)].
      - apply Forall_app in H1 as [H1 H2]. inversion H2; subst. right. split; auto. now left.
      - destruct l2 as [|y l2 _] using rev_ind; [apply app_inj_tail in E as [-> ->]; now left|].
        rewrite app_comm_cons, app_assoc in E. apply app_inj_tail in E as [-> ->]. apply Forall_app in H2 as [H2 H3]. inversion H3; subst. right. split; auto. right. exists l1, l2. auto. }
    destruct (HL r H) as [[H1 ->]|[H1 H2]], (HL r' H') as [[H3 ->]|[H3 H4]]; try congruence. now apply IH.
Qed.

(** AXI: one B per burst *)
Theorem C28_write_response : forall bl bs resp users rest, mw_resp bl bs OKAY [] = Some (resp, users, rest) ->
  exists used, bs = used ++ rest /\ length used = length bl /\ reported (map b_resp used) resp /\ users = map b_user used.
Proof.
  intros bl bs resp users rest H.
  assert (HL : exists used, bs = used ++ rest /\ length bl = length used).
  { revert bs H. generalize OKAY at 1, (@nil Z). induction bl as [|x bl IH]; intros r u bs H; cbn [mw_resp] in H.
    - injection H as _ _ ->. now exists [].
    - destruct bs as [|b bs]; [discriminate|]. destruct (IH _ _ _ H) as (us & -> & El). exists (b :: us). split; [reflexivity|]. cbn. now rewrite El. }
  destruct HL as (used & -> & Hl). exists used. split; [reflexivity|]. split; [now symmetry|].
  rewrite (mw_resp_spec bl used rest OKAY [] Hl) in H. injection H as <- <-. split; [apply fold_reported|reflexivity].
Qed.
Print Assumptions C28_write_response.

(** one R per beat *)
Theorem C28_read_response : forall c cmd bl rs data resp users rest, master_read_resp c cmd bl rs = Some (Ok (data, resp, users, rest)) ->
  exists used, rs = used ++ rest /\ reported (map r_resp used) resp /\ users = map r_user used.
Proof.
  intros c cmd bl rs data resp users rest H. unfold master_read_resp in H.
  destruct (mr_bursts _ _ _ _ _ _) as [[[st rest']|e]|] eqn:E; try discriminate.
  injection H as _ <- <- <-. apply mr_bursts_resp in E. cbn [mr_resp mr_user app] in E.
  destruct E as (used & -> & -> & ->). exists used. split; [reflexivity|]. split; [apply fold_reported|reflexivity].
Qed.
Print Assumptions C28_read_response.

Theorem C28_lite_response : forall L cmd bs rs, reported bs (lite_write_resp bs) /\ reported (map lr_resp rs) (snd (lite_read_resp L cmd rs)).
Proof. intros L cmd bs rs. unfold lite_read_resp. rewrite lite_read_loop_resp. split; apply fold_reported. Qed.
Print Assumptions C28_lite_response.

(** So an error goes unreported exactly if an EXOKAY follows it and no error follows that. *)
Theorem C28_error_lost_exact : forall l r, reported l r -> (exists x, In x l /\ (x = SLVERR \/ x = DECERR)) ->
  ((r = OKAY \/ r = EXOKAY) <-> exists l1 l2, l = l1 ++ EXOKAY :: l2 /\ Forall (fun x => x = OKAY) l2).
Proof.
  intros l r H (x & Hx & Hxe). split.
  - intros Hr. destruct H as [[H1 _]|(l1 & l2 & E & H1 & H2)]; [rewrite Forall_forall in H1; rewrite (H1 x Hx) in Hxe; destruct Hxe; discriminate|].
    destruct Hr as [->| ->]; [congruence|]. now exists l1, l2.
  - intros (l1 & l2 & E & H2). right. apply (reported_det l); [exact H|]. right. exists l1, l2. split; [exact E|]. split; [discriminate|exact H2].
Qed.
Print Assumptions C28_error_lost_exact.

Example C28_response_nontrivial :
  mw_resp [4; 4; 1] (map (fun r => {| b_id := 1; b_resp := r; b_user := 3 |}) [SLVERR; DECERR; OKAY; SLVERR]) OKAY [] =
    Some (DECERR, [3; 3; 3], [{| b_id := 1; b_resp := SLVERR; b_user := 3 |}]) /\
  reported [SLVERR; DECERR; OKAY] DECERR /\ reported [SLVERR; EXOKAY; OKAY] EXOKAY /\ lite_write_resp [SLVERR; EXOKAY; OKAY] = EXOKAY.
Proof.
  split; [reflexivity|]. split; [right; exists [SLVERR], [OKAY]; repeat split; [discriminate|repeat constructor]|].
  split; [right; exists [SLVERR], [OKAY]; repeat split; [discriminate|repeat constructor]|reflexivity].
Qed.
