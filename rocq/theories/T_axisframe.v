(** AXI stream frames: normalize and compact (C43), segmentation and reassembly (C44), comparison (C48). *)
From Coq Require Import ZArith Lia List Bool.
From Coq Require Import ZifyBool ZifyNat.
From Verif Require Import Py M_stream M_axisframe M_axis S_axis P_axisframe.
Import ListNotations.
Open Scope Z_scope.

(* ------------------------------------------------------------------ *)
(** * C43 normalize and compact *)

(** normalize: all sidebands get exactly len(tdata) entries, extended with the last one (or the default) *)
Theorem C43_normalize : forall f, frame_ok f ->
  exists g k i d u, normalize f = Ok g /\
    f_data g = f_data f /\ f_keep g = Some k /\ f_id g = SList i /\ f_dest g = SList d /\ f_user g = SList u /\
    zlen k = zlen (f_data f) /\ zlen i = zlen (f_data f) /\ zlen d = zlen (f_data f) /\ zlen u = zlen (f_data f) /\
    forall x, 0 <= x < zlen (f_data f) ->
      znth 0 k x = keep_at f x /\ znth 0 i x = side 0 (f_id f) x /\ znth 0 d x = side 0 (f_dest f) x /\ znth 0 u x = side 0 (f_user f) x.
Proof.
  intros f Hf. destruct (normalize_spec f Hf) as (g & E & _ & E2 & k & i & d & u & H).
  exists g, k, i, d, u. split; [exact E|]. split; [exact E2|]. destruct H as (A1 & A2 & A3 & A4 & A5 & A6 & A7 & A8 & A9 & A10 & A11 & A12).
  do 8 (split; [assumption|]). intros x Hx. auto.
Qed.
Print Assumptions C43_normalize.

Example C43_normalize_example :
  normalize {| f_ba := true; f_data := [7; 8; 9]; f_keep := Some [1; 0]; f_id := SInt 5; f_dest := SNone; f_user := SList [1; 2; 3; 4] |} =
  Ok {| f_ba := true; f_data := [7; 8; 9]; f_keep := Some [1; 0; 0]; f_id := SList [5; 5; 5]; f_dest := SList [0; 0; 0]; f_user := SList [1; 2; 3] |}.
Proof. reflexivity. Qed.

(** an empty list as sideband raises, whatever the data *)
Theorem C43_normalize_empty_sideband_refuted : forall f, ~ frame_ok f -> normalize f = Err IndexError.
Proof.
  intros [ba da ke id de us] H. unfold frame_ok in H. cbn in H. unfold normalize. cbn [f_data f_keep f_id f_dest f_user].
  assert (HF : forall n s, s <> SList [] -> exists m, fit_sb n s = Ok m).
  { intros n [|v|[|x l]] Hs; cbn; eauto. congruence. }
  assert (HK : forall n, ke <> Some [] -> exists m, match ke with Some l => fit n l | None => Ok (repeat 1 (Z.to_nat n)) end = Ok m).
  { intros n Hs. destruct ke as [[|x l]|]; cbn; eauto. congruence. }
  assert (D : forall s, s = SList [] \/ s <> SList []) by (intros [|v|[|x l]]; [right|right|left|right]; congruence).
  assert (DK : ke = Some [] \/ ke <> Some []) by (destruct ke as [[|x l]|]; [left|right|right]; congruence).
  destruct DK as [->|K]; [reflexivity|]. destruct (HK (zlen da) K) as (k & ->). cbn [bind].
  destruct (D id) as [->|I]; [reflexivity|]. destruct (HF (zlen da) id I) as (i & ->). cbn [bind].
  destruct (D de) as [->|E]; [reflexivity|]. destruct (HF (zlen da) de E) as (d & ->). cbn [bind].
  destruct (D us) as [->|U]; [reflexivity|]. exfalso. tauto.
Qed.
Print Assumptions C43_normalize_empty_sideband_refuted.

Example C43_normalize_empty_sideband_example :
  ~ frame_ok {| f_ba := true; f_data := [7]; f_keep := None; f_id := SList []; f_dest := SNone; f_user := SNone |}.
Proof. unfold frame_ok. cbn. intuition congruence. Qed.

(** normalize twice is normalize once, for frames with data ... *)
Theorem C43_normalize_idempotent : forall f g, f_data f <> [] -> normalize f = Ok g -> normalize g = Ok g.
Proof.
  intros f g Hd Hg. apply (normalize_idem f g); auto.
  destruct f as [ba da [[|k ks]|] [|i|[|i is]] [|d|[|d ds]] [|u|[|u us]]]; cbn in Hg; try discriminate;
    unfold frame_ok; cbn; repeat split; congruence.
Qed.
Print Assumptions C43_normalize_idempotent.

Example C43_normalize_idempotent_example :
  exists g, normalize {| f_ba := true; f_data := [7; 8]; f_keep := None; f_id := SInt 5; f_dest := SNone; f_user := SList [1] |} = Ok g /\ normalize g = Ok g.
Proof. eexists. split; reflexivity. Qed.

(** ... but not for empty frames: the second call always raises *)
Theorem C43_normalize_idempotent_refuted : forall f g, f_data f = [] -> normalize f = Ok g -> normalize g = Err IndexError.
Proof.
  intros f g Hd Hg.
  destruct f as [ba da [[|k ks]|] [|i|[|i is]] [|d|[|d ds]] [|u|[|u us]]]; cbn in Hd; subst da; cbn in Hg; try discriminate;
    injection Hg as <-; reflexivity.
Qed.
Print Assumptions C43_normalize_idempotent_refuted.

Example C43_normalize_idempotent_refuted_example :
  exists g, normalize {| f_ba := true; f_data := []; f_keep := None; f_id := SNone; f_dest := SNone; f_user := SNone |} = Ok g /\ normalize g = Err IndexError.
Proof. eexists. split; reflexivity. Qed.

(** compact of a normalized frame: exactly the bytes with non-zero tkeep, in order, each with its own
    sideband values; constant sidebands become scalars, empty ones None *)
Theorem C43_compact : forall f g, normalize f = Ok g ->
  exists h, compact g = Ok h /\
    let idx := filter (fun i => negb (keep_at f i =? 0)) (zrange 0 (zlen (f_data f))) in
    f_ba h = f_ba f /\ f_data h = map (znth 0 (f_data f)) idx /\ f_keep h = None /\
    represents (f_id h) (map (side 0 (f_id f)) idx) /\
    represents (f_dest h) (map (side 0 (f_dest f)) idx) /\
    represents (f_user h) (map (side 0 (f_user f)) idx).
Proof.
  intros f g Hg.
  assert (Hok : frame_ok f).
  { destruct f as [ba da [[|k ks]|] [|i|[|i is]] [|d|[|d ds]] [|u|[|u us]]]; cbn in Hg; try discriminate;
    unfold frame_ok; cbn; repeat split; congruence. }
  destruct (normalize_spec f Hok) as (g' & E & Hn). rewrite Hg in E. injection E as <-.
  destruct Hn as (E1 & E2 & k & i & d & u & Ek & Ei & Ed & Eu & Lk & Li & Ld & Lu & Vk & Vi & Vd & Vu).
  destruct (compact_spec g k i d u Ek Ei Ed Eu) as (h & Eh & Hb & Hkn & Hd & Hi & Hde & Hu); try (rewrite E2; lia).
  exists h. split; [exact Eh|]. cbv zeta. set (n := zlen (f_data f)) in *.
  pose proof (zlen_nonneg (f_data f)) as Hz. fold n in Hz.
  assert (Hmap : forall (l : list Z) F, zlen l = n -> (forall x, 0 <= x < n -> znth 0 l x = F x) -> l = map F (zrange 0 n)).
  { intros l F Hl HF. apply nth_ext_z with 0.
    - rewrite zlen_map, zlen_zrange. lia.
    - intros x Hx. rewrite HF by lia. rewrite (znth_map _ 0) by (rewrite zlen_zrange; lia). rewrite znth_zrange0 by lia. reflexivity. }
  assert (HK : forall l F, zlen l = n -> (forall x, 0 <= x < n -> znth 0 l x = F x) ->
     match k with [] => l | _ => kept k l end = map F (filter (fun i => negb (keep_at f i =? 0)) (zrange 0 n))).
  { intros l F Hl HF. rewrite (Hmap l F Hl HF). rewrite (Hmap k (keep_at f) Lk Vk). rewrite kept_map.
    destruct (zrange 0 n); reflexivity. }
  split; [congruence|]. split; [rewrite Hd, E2; apply HK; [reflexivity|auto]|]. split; [exact Hkn|].
  rewrite Hi, Hde, Hu. split; [rewrite <- (HK i) by auto; apply consolidate_spec|].
  split; [rewrite <- (HK d) by auto; apply consolidate_spec|rewrite <- (HK u) by auto; apply consolidate_spec].
Qed.
Print Assumptions C43_compact.

Example C43_compact_example :
  compact {| f_ba := true; f_data := [7; 8; 9]; f_keep := Some [1; 0; 1]; f_id := SList [5; 6; 5]; f_dest := SList [0; 0; 0]; f_user := SList [1; 2; 3] |} =
  Ok {| f_ba := true; f_data := [7; 9]; f_keep := None; f_id := SInt 5; f_dest := SInt 0; f_user := SList [1; 3] |}.
Proof. reflexivity. Qed.

(** compacting a compacted frame again (after normalize) keeps data and sidebands *)
Theorem C43_compact_idempotent : forall f g h g' h',
  normalize f = Ok g -> compact g = Ok h -> normalize h = Ok g' -> compact g' = Ok h' -> h' = h.
Proof.
  intros f g h g' h' E1 E2 E3 E4.
  destruct (C43_compact f g E1) as (h0 & Eh & A1 & A2 & A3 & A4 & A5 & A6). rewrite E2 in Eh. injection Eh as <-.
  destruct (C43_compact h g' E3) as (h0' & Eh' & B1 & B2 & B3 & B4 & B5 & B6). rewrite E4 in Eh'. injection Eh' as <-.
  set (idx := filter (fun i => negb (keep_at f i =? 0)) (zrange 0 (zlen (f_data f)))) in *.
  assert (Ef : filter (fun i => negb (keep_at h i =? 0)) (zrange 0 (zlen (f_data h))) = zrange 0 (zlen (f_data h))).
  { unfold keep_at. rewrite A3. clear. induction (zrange 0 (zlen (f_data h))) as [|x l IH]; cbn in *; [reflexivity|now rewrite IH]. }
  rewrite Ef in B2, B4, B5, B6.
  pose proof (zlen_nonneg (f_data h)) as Hz.
  assert (Hself : forall l : list Z, map (znth 0 l) (zrange 0 (zlen l)) = l).
  { intros l. pose proof (zlen_nonneg l). apply nth_ext_z with 0.
    - rewrite zlen_map, zlen_zrange. lia.
    - intros x Hx. rewrite zlen_map, zlen_zrange in Hx. rewrite (znth_map _ 0) by (rewrite zlen_zrange; lia). rewrite znth_zrange0 by lia. reflexivity. }
  rewrite Hself in B2.
  assert (Hlen : zlen (f_data h) = zlen idx) by (rewrite A2, zlen_map; reflexivity).
  assert (Hs : forall s F, represents s (map F idx) -> map (side 0 s) (zrange 0 (zlen (f_data h))) = map F idx).
  { intros s F Hr. rewrite Hlen. destruct s as [|v|l]; cbn [represents] in Hr.
    - destruct idx; [reflexivity|discriminate].
    - destruct Hr as [_ Hv]. rewrite Forall_forall in Hv. apply nth_ext_z with 0.
      + pose proof (zlen_nonneg idx). rewrite !zlen_map, zlen_zrange. lia.
      + intros x Hx. rewrite zlen_map, zlen_zrange in Hx. rewrite (znth_map _ 0) by (rewrite zlen_zrange; lia). cbn [side].
        apply Hv. apply nth_In. rewrite map_length. unfold zlen in *. lia.
    - destruct Hr as [-> _]. rewrite <- (zlen_map F idx). rewrite <- (Hself (map F idx)) at 3. apply map_ext_in. intros x Hx. apply in_zrange in Hx.
      cbn [side]. assert (E : (x <? zlen (map F idx)) = true) by lia. now rewrite E. }
  rewrite (Hs _ _ A4) in B4. rewrite (Hs _ _ A5) in B5. rewrite (Hs _ _ A6) in B6.
  pose proof (represents_unique _ _ _ A4 B4). pose proof (represents_unique _ _ _ A5 B5). pose proof (represents_unique _ _ _ A6 B6).
  destruct h, h'. cbn in *. congruence.
Qed.
Print Assumptions C43_compact_idempotent.

Example C43_compact_idempotent_example : exists g h g' h',
  normalize {| f_ba := true; f_data := [7; 8; 9]; f_keep := Some [1; 0; 1]; f_id := SInt 5; f_dest := SNone; f_user := SList [1; 2; 3] |} = Ok g /\
  compact g = Ok h /\ normalize h = Ok g' /\ compact g' = Ok h' /\ h' = h /\ f_data h = [7; 9].
Proof. do 4 eexists. repeat (split; [vm_compute; reflexivity|]). vm_compute; reflexivity. Qed.

(** compact of a frame that has not been normalized since the last compact raises *)
Theorem C43_compact_twice_refuted : forall f h, compact f = Ok h -> compact h = Err TypeError.
Proof.
  intros f h H. unfold compact in H. destruct (f_keep f), (f_id f), (f_dest f), (f_user f); try discriminate.
  destruct (match l with [] => _ | _ => _ end) as [l'|e]; [|discriminate]. injection H as <-. reflexivity.
Qed.
Print Assumptions C43_compact_twice_refuted.

Example C43_compact_twice_example :
  exists h, compact {| f_ba := true; f_data := [7]; f_keep := Some [1]; f_id := SList [5]; f_dest := SList [0]; f_user := SList [1] |} = Ok h /\ compact h = Err TypeError.
Proof. eexists. split; reflexivity. Qed.

(* ------------------------------------------------------------------ *)
(** * C44 beats of a frame reassemble to the frame *)

(** Every frame, every lane count and byte size: sampled by a receiver on a bus with tkeep and
    tlast, the beats give exactly one frame; compacted it has the bytes with odd tkeep in
    order (cut to the byte size), and sideband values of the last byte of the byte's beat. *)
Theorem C44_reassembly : forall c f g, cfg_ok c -> x_last c = true -> x_keep c = true ->
  f_data f <> [] -> normalize f = Ok g ->
  let n := zlen (f_data f) in
  let idx := filter (fun i => negb (keep_at f i mod 2 =? 0)) (zrange 0 n) in
  let values (on : bool) s := if on then map (fun i => side 0 s (beat_last (x_lanes c) n i)) idx else [] in
  exists r h, reassemble c None (frame_beats c g) = (None, [r]) /\ compact r = Ok h /\
    f_data h = map (fun i => znth 0 (f_data f) i mod 2 ^ x_bsize c) idx /\
    f_ba h = (x_bsize c =? 8) /\ f_keep h = None /\
    represents (f_id h) (values (x_id c) (f_id f)) /\
    represents (f_dest h) (values (x_dest c) (f_dest f)) /\
    represents (f_user h) (values (x_user c) (f_user f)).
Proof.
  intros c f g Hc Hl Hk Hd Hg n idx values.
  assert (Hok : frame_ok f).
  { destruct f as [ba da [[|k ks]|] [|i|[|i is]] [|d|[|d ds]] [|u|[|u us]]]; cbn in Hg; try discriminate;
    unfold frame_ok; cbn; repeat split; congruence. }
  destruct (normalize_spec f Hok) as (g' & E & Hn). rewrite Hg in E. injection E as <-.
  destruct Hn as (E1 & E2 & k & i & d & u & Ek & Ei & Ed & Eu & Lk & Li & Ld & Lu & Vk & Vi & Vd & Vu).
  assert (Hz : 0 < n) by (subst n; destruct (f_data f); [congruence|rewrite zlen_cons; pose proof (zlen_nonneg l); lia]).
  pose proof (frame_beats_reassemble c Hc g Hl ltac:(congruence)) as HR.
  destruct (rx_compact c Hc g Hk ltac:(congruence)) as (h & Eh & Hb & Hkn & Hda & Hi & Hde & Hu).
  exists (rxf c g (nbeats c (zlen (f_data g)) * x_lanes c)), h. split; [exact HR|]. split; [exact Eh|].
  assert (Eidx : filter (keeps_byte g) (zrange 0 (zlen (f_data g))) = idx).
  { rewrite E2. apply filter_ext_in. intros x Hx. apply in_zrange in Hx. unfold keeps_byte, keepl. rewrite Ek. fold n in Hx, Vk.
    rewrite Vk by lia. change 1 with (Z.ones 1). rewrite Z.land_ones by lia. reflexivity. }
  rewrite Eidx in Hda, Hi, Hde, Hu. rewrite E2 in Hda, Hi, Hde, Hu. fold n in Hi, Hde, Hu, Vi, Vd, Vu.
  split.
  { rewrite Hda. apply map_ext. intros x. unfold byte_mask. destruct Hc. rewrite mask_ones by lia. rewrite Z.land_ones by lia. reflexivity. }
  split; [exact Hb|]. split; [exact Hkn|].
  assert (HS : forall on l s, (forall x, 0 <= x < n -> znth 0 l x = side 0 s x) ->
     (if on : bool then map (fun i0 => znth 0 l (beat_last (x_lanes c) n i0)) idx else []) = values on s).
  { intros [|] l s HV; unfold values; [|reflexivity]. apply map_ext_in. intros x Hx. apply filter_In in Hx. destruct Hx as [Hx _]. apply in_zrange in Hx.
    apply HV. unfold beat_last. destruct Hc as [HL HW].
    pose proof (Z.div_mod x (x_lanes c) ltac:(lia)). pose proof (Z.mod_pos_bound x (x_lanes c) HL). nia. }
  rewrite Hi, Hde, Hu, Ei, Ed, Eu. cbn [sbl].
  rewrite (HS _ _ _ Vi), (HS _ _ _ Vd), (HS _ _ _ Vu). split; [|split]; apply consolidate_spec.
Qed.
Print Assumptions C44_reassembly.

Definition c44cfg := {| x_lanes := 4; x_bsize := 8; x_ready := true; x_last := true; x_keep := true; x_id := true; x_dest := false; x_user := true |}.
Example C44_reassembly_example :
  let f := {| f_ba := true; f_data := [1; 2; 3; 4; 5; 6]; f_keep := Some [1; 0; 1]; f_id := SInt 9; f_dest := SInt 3; f_user := SList [0; 0; 0; 1; 0; 0] |} in
  exists g r, normalize f = Ok g /\ length (frame_beats c44cfg g) = 2%nat /\ reassemble c44cfg None (frame_beats c44cfg g) = (None, [r]) /\
    compact r = Ok {| f_ba := true; f_data := [1; 3; 4; 5; 6]; f_keep := None; f_id := SInt 9; f_dest := SNone; f_user := SList [1; 1; 1; 0; 0] |}.
Proof. do 2 eexists. repeat (split; [vm_compute; reflexivity|]). vm_compute; reflexivity. Qed.

(** a scalar (or missing) sideband *)
Definition scalar (s : sb) : Prop := match s with SList _ => False | _ => True end.

(** the received frame equals the sent one, with its data and (where the bus has the signal) its
    tid, tdest and tuser *)
Theorem C44_roundtrip : forall c f, cfg_ok c -> x_last c = true -> x_keep c = true ->
  f_data f <> [] -> f_ba f = (x_bsize c =? 8) -> (forall x, In x (f_data f) -> 0 <= x < 2 ^ x_bsize c) ->
  f_keep f = None -> scalar (f_id f) -> scalar (f_dest f) -> scalar (f_user f) ->
  exists g r h, normalize f = Ok g /\ reassemble c None (frame_beats c g) = (None, [r]) /\ compact r = Ok h /\
    f_data h = f_data f /\ f_id h = (if x_id c then SInt (side 0 (f_id f) 0) else SNone) /\
    f_dest h = (if x_dest c then SInt (side 0 (f_dest f) 0) else SNone) /\
    f_user h = (if x_user c then SInt (side 0 (f_user f) 0) else SNone) /\
    frame_eqb h f = true /\ frame_eqb f h = true.
Proof.
  intros c f Hc Hl Hk Hd Hb Hr Hkn Hsi Hsd Hsu.
  assert (Hok : frame_ok f).
  { unfold frame_ok. rewrite Hkn. split; [congruence|]. destruct (f_id f), (f_dest f), (f_user f); cbn in *; try tauto; repeat split; congruence. }
  destruct (normalize_spec f Hok) as (g & Hg & _).
  destruct (C44_reassembly c f g Hc Hl Hk Hd Hg) as (r & h & A1 & A2 & A3 & A4 & A5 & A6 & A7 & A8).
  assert (Hz : 0 < zlen (f_data f)) by (destruct (f_data f); [congruence|rewrite zlen_cons; pose proof (zlen_nonneg l); lia]).
  assert (Eidx : filter (fun i => negb (keep_at f i mod 2 =? 0)) (zrange 0 (zlen (f_data f))) = zrange 0 (zlen (f_data f))).
  { unfold keep_at. rewrite Hkn. clear. induction (zrange 0 (zlen (f_data f))) as [|x l IH]; cbn in *; [reflexivity|now rewrite IH]. }
  rewrite Eidx in A3, A6, A7, A8.
  assert (ED : f_data h = f_data f).
  { rewrite A3. apply nth_ext_z with 0.
    - rewrite zlen_map, zlen_zrange. lia.
    - intros x Hx. rewrite zlen_map, zlen_zrange in Hx. rewrite (znth_map _ 0) by (rewrite zlen_zrange; lia). rewrite znth_zrange0 by lia.
      apply Z.mod_small. apply Hr. apply nth_In. unfold zlen in *. lia. }
  assert (HS : forall (on : bool) s t, scalar s ->
     represents t (if on then map (fun i => side 0 s (beat_last (x_lanes c) (zlen (f_data f)) i)) (zrange 0 (zlen (f_data f))) else []) ->
     t = if on then SInt (side 0 s 0) else SNone).
  { intros [|] s t Hs Ht.
    - eapply represents_unique; [exact Ht|]. cbn [represents]. split.
      + intros E. apply (f_equal zlen) in E. rewrite zlen_map, zlen_zrange in E. change (zlen (@nil Z)) with 0 in E. lia.
      + apply Forall_forall. intros x Hx. apply in_map_iff in Hx. destruct Hx as (y & <- & _). destruct s; cbn in Hs; tauto.
    - eapply represents_unique; [exact Ht|]. reflexivity. }
  pose proof (HS _ _ _ Hsi A6) as EI. pose proof (HS _ _ _ Hsd A7) as EDe. pose proof (HS _ _ _ Hsu A8) as EU.
  assert (HE : forall (on : bool) s, scalar s -> sb_same (if on then SInt (side 0 s 0) else SNone) s).
  { intros [|] [|v|l]; cbn; tauto. }
  assert (Hsym : forall a b, sb_same a b -> sb_same b a) by (intros [|v|l] [|w|m]; cbn; auto).
  exists g, r, h. do 7 (split; [assumption|]). rewrite !frame_eqb_spec. unfold frame_same.
  rewrite ED, A4, A5, Hb, Hkn, EI, EDe, EU. split.
  - do 3 (split; [auto|]). auto.
  - do 3 (split; [auto|]). auto.
Qed.
Print Assumptions C44_roundtrip.

Example C44_roundtrip_example :
  let f := {| f_ba := true; f_data := [1; 255; 3; 4; 5]; f_keep := None; f_id := SInt 9; f_dest := SInt 3; f_user := SNone |} in
  exists g r h, normalize f = Ok g /\ reassemble c44cfg None (frame_beats c44cfg g) = (None, [r]) /\ compact r = Ok h /\
    f_data h = [1; 255; 3; 4; 5] /\ f_id h = SInt 9 /\ frame_eqb h f = true.
Proof. do 3 eexists. repeat (split; [vm_compute; reflexivity|]). vm_compute; reflexivity. Qed.

(** without these restrictions it can fail: per-byte tuser within a beat is merged *)
Theorem C44_roundtrip_per_byte_refuted : exists c f g r h, cfg_ok c /\ x_last c = true /\ x_keep c = true /\
  normalize f = Ok g /\ reassemble c None (frame_beats c g) = (None, [r]) /\ compact r = Ok h /\
  f_data h = f_data f /\ frame_eqb h f = false.
Proof.
  exists c44cfg, {| f_ba := true; f_data := [1; 2]; f_keep := None; f_id := SNone; f_dest := SNone; f_user := SList [1; 0] |}.
  do 3 eexists. split; [split; reflexivity|]. repeat (split; [vm_compute; reflexivity|]). vm_compute; reflexivity.
Qed.
Print Assumptions C44_roundtrip_per_byte_refuted.

(** without tkeep the last beat is padded with zero bytes: equal data iff the length is a multiple of the lanes *)
Theorem C44_no_tkeep : forall c f g, cfg_ok c -> x_last c = true -> x_keep c = false ->
  f_data f <> [] -> normalize f = Ok g -> (forall x, In x (f_data f) -> 0 <= x < 2 ^ x_bsize c) ->
  exists r h pad, reassemble c None (frame_beats c g) = (None, [r]) /\ compact r = Ok h /\
    f_data h = f_data f ++ zeros pad /\ 0 <= pad < x_lanes c /\ (zlen (f_data f) + pad) mod x_lanes c = 0.
Proof.
  intros c f g Hc Hl Hk Hd Hg Hr.
  assert (E2 : f_data g = f_data f).
  { unfold normalize in Hg. destruct (match f_keep f with Some l => _ | None => _ end); [|discriminate]. cbn [bind] in Hg.
    destruct (fit_sb _ (f_id f)); [|discriminate]. cbn [bind] in Hg. destruct (fit_sb _ (f_dest f)); [|discriminate]. cbn [bind] in Hg.
    destruct (fit_sb _ (f_user f)); [|discriminate]. cbn [bind] in Hg. now injection Hg as <-. }
  assert (Hz : 0 < zlen (f_data f)) by (destruct (f_data f); [congruence|rewrite zlen_cons; pose proof (zlen_nonneg l); lia]).
  pose proof (frame_beats_reassemble c Hc g Hl ltac:(congruence)) as HR. rewrite E2 in HR.
  destruct (nbeats_ge c Hc (zlen (f_data f)) ltac:(lia)) as (Hb1 & Hb2 & Hb3). set (hi := nbeats c (zlen (f_data f)) * x_lanes c) in *.
  destruct (compact_spec (rxf c g hi) _ _ _ _ eq_refl eq_refl eq_refl eq_refl) as (h & E & Eb & Ek & Ed & _).
  - left. now rewrite Hk.
  - cbn [rxf f_data]. destruct (x_id c); rewrite ?zlen_map; [lia|change (zlen (@nil Z)) with 0; apply zlen_nonneg].
  - cbn [rxf f_data]. destruct (x_dest c); rewrite ?zlen_map; [lia|change (zlen (@nil Z)) with 0; apply zlen_nonneg].
  - cbn [rxf f_data]. destruct (x_user c); rewrite ?zlen_map; [lia|change (zlen (@nil Z)) with 0; apply zlen_nonneg].
  - exists (rxf c g hi), h, (hi - zlen (f_data f)). split; [exact HR|]. split; [exact E|]. rewrite Hk in Ed. split; [|split; [lia|]].
    + rewrite Ed. cbn [rxf f_data]. rewrite (zrange_split 0 (zlen (f_data f)) hi) by lia. rewrite map_app. f_equal.
      * apply nth_ext_z with 0; [rewrite zlen_map, zlen_zrange; lia|]. intros x Hx. rewrite zlen_map, zlen_zrange in Hx.
        rewrite (znth_map _ 0) by (rewrite zlen_zrange; lia). rewrite znth_zrange0 by lia. unfold dval. rewrite E2.
        assert (E3 : (0 + x <? zlen (f_data f)) = true) by lia. rewrite E3. unfold byte_mask. destruct Hc. rewrite mask_ones by lia. rewrite Z.land_ones by lia.
        apply Z.mod_small. apply Hr. apply nth_In. unfold zlen in *. lia.
      * unfold zeros, zrange. apply map_const_repeat. intros x Hx. unfold dval. rewrite E2.
        assert (E3 : (x <? zlen (f_data f)) = false) by lia. now rewrite E3.
    + replace (zlen (f_data f) + (hi - zlen (f_data f))) with hi by lia. unfold hi. apply Z.mod_mul. destruct Hc. lia.
Qed.
Print Assumptions C44_no_tkeep.

Example C44_no_tkeep_example :
  let c := {| x_lanes := 4; x_bsize := 8; x_ready := true; x_last := true; x_keep := false; x_id := false; x_dest := false; x_user := false |} in
  let f := {| f_ba := true; f_data := [1; 2; 3; 4; 5]; f_keep := None; f_id := SNone; f_dest := SNone; f_user := SNone |} in
  exists g r h, normalize f = Ok g /\ reassemble c None (frame_beats c g) = (None, [r]) /\ compact r = Ok h /\ f_data h = [1; 2; 3; 4; 5; 0; 0; 0].
Proof. do 3 eexists. repeat (split; [vm_compute; reflexivity|]). vm_compute; reflexivity. Qed.

(* ------------------------------------------------------------------ *)
(** * C48 comparison *)

Theorem C48_equality : forall f g, frame_eqb f g = true <-> frame_same f g.
Proof. exact frame_eqb_spec. Qed.
Print Assumptions C48_equality.

Theorem C48_reflexive_symmetric :
  (forall f, frame_eqb f f = true) /\ (forall f g, frame_eqb f g = frame_eqb g f).
Proof.
  assert (Hr : forall s, sb_same s s) by (intros [|v|l]; cbn; auto).
  assert (Hs : forall a b, sb_same a b -> sb_same b a) by (intros [|v|l] [|w|m]; cbn; auto).
  assert (HS : forall f g, frame_eqb f g = true -> frame_eqb g f = true).
  { intros f g. rewrite !frame_eqb_spec. unfold frame_same. intros (H1 & H2 & H3 & H4 & H5 & H6).
    do 2 (split; [auto|]). split; [destruct (f_keep f), (f_keep g); auto|]. auto. }
  split.
  - intros f. rewrite frame_eqb_spec. unfold frame_same. do 2 (split; [auto|]). split; [destruct (f_keep f); auto|]. auto.
  - intros f g. destruct (frame_eqb f g) eqn:E1, (frame_eqb g f) eqn:E2; auto; [apply HS in E1|apply HS in E2]; congruence.
Qed.
Print Assumptions C48_reflexive_symmetric.

(** a scalar sideband equals the list of that value *)
Theorem C48_scalar_list : forall f v n,
  frame_eqb {| f_ba := f_ba f; f_data := f_data f; f_keep := f_keep f; f_id := SInt v; f_dest := f_dest f; f_user := f_user f |}
            {| f_ba := f_ba f; f_data := f_data f; f_keep := f_keep f; f_id := SList (repeat v n); f_dest := f_dest f; f_user := f_user f |} = true.
Proof.
  intros f v n. rewrite frame_eqb_spec. destruct f as [ba da ke id de us]. unfold frame_same. cbn.
  assert (Hr : forall s, sb_same s s) by (intros [|w|l]; cbn; auto).
  do 2 (split; [auto|]). split; [destruct ke; auto|]. split; [|auto]. apply Forall_forall. intros x Hx. apply repeat_spec in Hx. congruence.
Qed.
Print Assumptions C48_scalar_list.

Example C48_example :
  let f i := {| f_ba := true; f_data := [1; 2]; f_keep := None; f_id := i; f_dest := SNone; f_user := SNone |} in
  frame_eqb (f (SInt 3)) (f (SList [3; 3])) = true /\ frame_eqb (f (SInt 3)) (f (SList [3; 4])) = false /\ frame_eqb (f (SInt 3)) (f SNone) = true.
Proof. repeat split. Qed.

(** it is not transitive *)
Theorem C48_transitive_refuted : exists f g h, frame_eqb f g = true /\ frame_eqb g h = true /\ frame_eqb f h = false.
Proof.
  pose (f i := {| f_ba := true; f_data := [1]; f_keep := None; f_id := i; f_dest := SNone; f_user := SNone |}).
  exists (f (SInt 1)), (f SNone), (f (SInt 2)). repeat split.
Qed.
Print Assumptions C48_transitive_refuted.
