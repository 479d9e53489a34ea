(** C77: a frame handed to AxiStreamSource.send() may be changed, reused and sent again at once. *)
From Coq Require Import ZArith List Bool Lia.
From Verif Require Import Py M_stream M_axisframe M_axis M_frmheap S_frmheap P_frmheap.
Import ListNotations.
Open Scope Z_scope.

(** C77.  A program that makes lists and frames, keeps references to them, shares lists between frames, changes lists in place and attributes of
    frames at any moment, and sends frames or lists; in between pauses, limits, clear, resets and clock edges.  If what is sent can be
    normalized (C45), the source - queue, current frame, flags, occupancies, signals, completions - is at every moment the one of
    M_axis.v whose frames are values: each send carries the content at the moment of the call, and the program's other steps do not occur in
    its history. *)
Theorem C77_snapshot : forall c lb lf l, Forall can_normalize (as_values c (h_init lb lf) l) ->
  let x := h_run c (h_init lb lf) l in
  seen (h_heap x) (h_src x) = fold_left (asrc_step c) (as_values c (h_init lb lf) l) (asrc_init lb lf).
Proof. intros c lb lf l H x. exact (proj2 (good_run c l [] _ (good_init lb lf) H)). Qed.
Print Assumptions C77_snapshot.

(** so whatever the program does to its frames and lists after sending, also to frames given back to it, changes nothing of the source *)
Theorem C77_changes : forall c lb lf l us, Forall can_normalize (as_values c (h_init lb lf) l) ->
  Forall (fun o => match o with HSend _ _ | HOp _ => False | _ => True end) us ->
  let x := h_run c (h_init lb lf) l in let x' := h_run c x us in
  h_src x' = h_src x /\ seen (h_heap x') (h_src x') = seen (h_heap x) (h_src x).
Proof.
  intros c lb lf l us H Hus x x'. pose proof (proj1 (good_run c l [] _ (good_init lb lf) H)) as (HI & _ & _). fold x in HI. subst x'. clearbody x. clear l H.
  revert x HI. induction Hus as [|o us Ho Hus IH]; intros x HI; cbn [h_run]; auto.
  destruct (user_step c x o HI) as (A & B & C); [destruct o; auto; contradiction|]. specialize (IH _ A). destruct IH as [IH1 IH2]. rewrite IH1. split; [exact C|]. rewrite <- IH1, IH2. exact B.
Qed.
Print Assumptions C77_changes.

(** When frames complete, by transmission, reset or clear, the program gets frame objects back (tx_complete), one per completion and in that order.
    They are objects that the program does not hold yet, no two are the same, the source does not hold them any longer, and each shows what was sent
    under its tag: exactly, or normalized if its transmission had begun. *)
Theorem C77_given_back : forall c lb lf l o, Forall can_normalize (as_values c (h_init lb lf) l) ->
  let x := h_run c (h_init lb lf) l in let x' := h_step c x (HOp o) in
  exists ts fs, a_done (hs_r (h_src x')) = a_done (hs_r (h_src x)) ++ ts /\ h_env x' = h_env x ++ map RF fs /\ NoDup fs /\
    (forall f, In f fs -> ~ In (RF f) (h_env x) /\ ~ In f (map snd (hs_q (h_src x'))) /\ (forall t, hs_current (h_src x') <> Some (t, f)) /\
                          (forall t fo, hs_cur (h_src x') <> Some (t, f, fo))) /\
    Forall2 (fun t f => exists F, In (ASend t F) (as_values c (h_init lb lf) l) /\
                         (deref (h_heap x') f = F \/ normalize F = Ok (deref (h_heap x') f))) ts fs.
Proof.
  intros c lb lf l o H x x'. pose proof (proj1 (good_run c l [] _ (good_init lb lf) H)) as HG. fold x in HG. cbn [app] in HG.
  assert (Hc : Forall can_normalize (as_value x (HOp o))) by (destruct o; cbn; repeat constructor).
  destruct (good_step c _ x (HOp o) HG Hc) as ((HI' & _) & _ & GB). specialize (GB (ex_intro _ o eq_refl)). fold x' in GB, HI'. destruct GB as (ts & fs & E1 & E2 & E3 & E4 & E5).
  exists ts, fs. split; [exact E1|]. split; [exact E2|]. split; [exact E3|]. split.
  - intros f Hf. destruct (E4 f Hf) as [A B]. split; [exact A|]. split; [intros Hq; apply B; unfold own; apply in_app_iff; now left|]. split.
    + intros t Ht. apply B. now apply (seen_c _ t).
    + intros t fo Ht. apply B. pose proof (iv_cur _ _ _ HI' _ Ht) as Hc'. now apply (seen_c _ t).
  - destruct HG as (_ & _ & [F1 F2]). assert (HB : forall t g, back (seenx x) t g -> exists F, In (ASend t F) (as_values c (h_init lb lf) l) /\ (g = F \/ normalize F = Ok g)).
    { intros t g [Hb|[Hb|(f & Hb & Hn)]]; [eauto|destruct (F2 t g Hb) as (F & A & B); eauto|eauto]. }
    clear E1 E2 E3 E4. induction E5; constructor; auto.
Qed.
Print Assumptions C77_given_back.

(** ** example *)
Definition c77c : scfg := {| x_lanes := 2; x_bsize := 8; x_ready := true; x_last := true; x_keep := true; x_id := true; x_dest := false; x_user := true |}.
(** tkeep and tid lists shared by two frames; both are sent, then the lists and the frames are changed, one is sent again, the
    returned frame is changed and sent as well *)
Definition c77h : list hop :=
  [UList true [17; 18; 19]; UList false [1; 0; 1]; UList false [5];       (* 0: data, 1: keep, 2: id *)
   UFrame 0 (AVar 1) (AVar 2) ANone (AInt 1);                             (* 3 *)
   UFrame 0 (AVar 1) (AInt 9) ANone ANone;                                (* 4 *)
   HSend 100 3; HSend 101 4; HSend 102 0;
   UStore 1 [0; 0; 0]; UStore 0 [99]; UStore 2 []; UGet 3 FData; UStore 5 [33; 34]; USet 4 FId (AInt 3); USet 3 FId ANone; HSend 103 3;
   HOp (AEdge true)].
Definition c77h2 : list hop := [HOp (AEdge true); HOp (AEdge true); HOp (AEdge true)].
Definition f77 (d k i u : list Z) : frame := {| f_ba := true; f_data := d; f_keep := Some k; f_id := SList i; f_dest := SList (map (fun _ => 0) d); f_user := SList u |}.
Example C77_nontrivial :
  let x0 := h_init (-1) (-1) in let x1 := h_run c77c x0 c77h in let x2 := h_run c77c x1 c77h2 in
  as_values c77c x0 c77h =
    [ASend 100 {| f_ba := true; f_data := [17; 18; 19]; f_keep := Some [1; 0; 1]; f_id := SList [5]; f_dest := SNone; f_user := SInt 1 |};
     ASend 101 {| f_ba := true; f_data := [17; 18; 19]; f_keep := Some [1; 0; 1]; f_id := SInt 9; f_dest := SNone; f_user := SNone |};
     ASend 102 {| f_ba := true; f_data := [17; 18; 19]; f_keep := None; f_id := SNone; f_dest := SNone; f_user := SNone |};
     ASend 103 {| f_ba := true; f_data := [33; 34]; f_keep := Some [0; 0; 0]; f_id := SNone; f_dest := SNone; f_user := SInt 1 |};
     AEdge true] /\
  a_beat (hs_r (h_src x1)) = {| b_data := 17 + 256 * 18; b_keep := 1; b_id := 5; b_dest := 0; b_user := 1; b_last := false |} /\
  h_env x2 = h_env x1 ++ [RF 2%nat; RF 3%nat] /\ a_done (hs_r (h_src x2)) = [100; 101] /\
  deref (h_heap x2) 2 = f77 [17; 18; 19] [1; 0; 1] [5; 5; 5] [1; 1; 1] /\ deref (h_heap x2) 3 = f77 [17; 18; 19] [1; 0; 1] [9; 9; 9] [0; 0; 0].
Proof. vm_compute. repeat split; reflexivity. Qed.
Example C77_nontrivial_hyp : Forall can_normalize (as_values c77c (h_init (-1) (-1)) c77h).
Proof. rewrite (proj1 C77_nontrivial). repeat constructor; cbn [can_normalize]; eexists; reflexivity. Qed.
