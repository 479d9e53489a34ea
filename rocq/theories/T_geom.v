(** C79: the constructors and the widths of the signals. *)
From Coq Require Import ZArith List Bool Lia.
From Verif Require Import Py M_axi M_axiargs M_axisframe M_axis S_axis S_axi M_geom.
Import ListNotations.
Open Scope Z_scope.

(** ** AXI stream *)
Lemma exact_div w n : 0 < n -> (n * (w / n) =? w) = true <-> (n | w).
Proof.
  intros Hn. split; intros H.
  - exists (w / n). lia.
  - destruct H as [k ->]. rewrite Z.div_mul by lia. lia.
Qed.
Lemma geom_lanes w n : 0 < w -> 0 < n ->
  mbind (pydiv w n) (fun size => if n * size =? w then Made (n, size) else Raises ValueError) = if n * (w / n) =? w then Made (n, w / n) else Raises ValueError.
Proof. intros Hw Hn. unfold pydiv. replace (n =? 0) with false by lia. reflexivity. Qed.

(** Whatever the width, the presence of tkeep and the arguments (positive where given): an endpoint that is constructed has at least one lane and
    one bit per byte, as the theorems about AXI stream assume (cfg_ok), and the lanes make up the bus exactly.  With tkeep there is a lane for
    each of its bits; byte_lanes is obeyed; byte_size is obeyed if it divides the width, and is 8 by default if 8 divides the width. *)
Theorem C79_stream : forall width keep bsize blanes L B,
  0 < width -> (forall n, keep = Some n -> 0 < n) -> (forall n, bsize = Some n -> 0 < n) -> (forall n, blanes = Some n -> 0 < n) ->
  stream_geom width keep bsize blanes = Made (L, B) ->
  (forall c, x_lanes c = L -> x_bsize c = B -> cfg_ok c) /\ L * B = width /\
  (forall n, keep = Some n -> L = n /\ bsize = None /\ blanes = None) /\ (forall n, blanes = Some n -> L = n /\ bsize = None) /\
  (forall s, bsize = Some s -> (s | width) -> B = s) /\
  (keep = None -> bsize = None -> blanes = None -> (8 | width) -> B = 8).
Proof.
  intros width keep bsize blanes L B Hw Hk Hs Hn E.
  assert (K : exists n, 0 < n /\ L = n /\ B = width / n /\ n * (width / n) = width /\
     match keep, bsize, blanes with Some k, None, None => n = k | None, None, Some k => n = k | None, Some s, None => n = width / s | None, None, None => n = width / 8 | _, _, _ => False end).
  { unfold stream_geom in E.
    assert (HK : forall n, mbind (pydiv width n) (fun size => if n * size =? width then Made (n, size) else Raises ValueError) = Made (L, B) -> 0 <= n ->
       0 < n /\ L = n /\ B = width / n /\ n * (width / n) = width).
    { intros n E' Hn'. unfold pydiv in E'. destruct (n =? 0) eqn:E0; [discriminate|]. cbn [mbind] in E'. destruct (n * (width / n) =? width) eqn:E1; [|discriminate].
      injection E' as <- <-. repeat split; auto; lia. }
    destruct keep as [k|].
    - destruct bsize, blanes; try discriminate E. cbn [mbind] in E. specialize (Hk k eq_refl). destruct (HK k E ltac:(lia)) as (H1 & H2 & H3 & H4). exists k. auto.
    - destruct blanes as [n|], bsize as [s|]; try discriminate E.
      + cbn [mbind] in E. specialize (Hn n eq_refl). destruct (HK n E ltac:(lia)) as (H1 & H2 & H3 & H4). exists n. auto.
      + specialize (Hs s eq_refl). unfold pydiv at 1 in E. replace (s =? 0) with false in E by lia. cbn [mbind] in E. pose proof (Z.div_pos width s ltac:(lia) Hs) as Hp.
        destruct (HK _ E Hp) as (H1 & H2 & H3 & H4). exists (width / s). auto.
      + cbn [mbind] in E. pose proof (Z.div_pos width 8 ltac:(lia) ltac:(lia)) as Hp. destruct (HK _ E Hp) as (H1 & H2 & H3 & H4). exists (width / 8). auto. }
  destruct K as (n & Hn0 & -> & -> & Hex & Hm). assert (HB : 0 < width / n) by nia.
  assert (HS : forall s, (s | width) -> n = width / s -> width / n = s).
  { intros s [k ->] ->. destruct (Z.eq_dec s 0) as [->|Hs0]; [rewrite Z.mul_0_r in Hw; lia|]. rewrite Z.div_mul in * by lia. symmetry. apply Z.div_unique_exact; lia. }
  split; [intros c E1 E2; split; lia|]. split; [exact Hex|]. destruct keep as [k|]; destruct bsize as [s|]; destruct blanes as [l|]; try contradiction.
  all: repeat split; intros; try discriminate; auto; try congruence; try (now apply HS).
  injection H as <-. now apply HS.
Qed.
Print Assumptions C79_stream.

(** It is constructed exactly if tkeep or byte_lanes divides the width and nothing contradicts it; without them, if the number of whole bytes
    (of byte_size, or 8) is not 0 and divides the width. *)
Theorem C79_stream_accepts : forall width keep bsize blanes,
  0 < width -> (forall n, keep = Some n -> 0 < n) -> (forall n, bsize = Some n -> 0 < n) -> (forall n, blanes = Some n -> 0 < n) ->
  (exists g, stream_geom width keep bsize blanes = Made g) <->
  match keep, bsize, blanes with
  | Some n, None, None | None, None, Some n => (n | width)
  | None, s, None => let s := match s with Some s => s | None => 8 end in s <= width /\ (width / s | width)
  | _, _, _ => False
  end.
Proof.
  intros width keep bsize blanes Hw Hk Hs Hn.
  assert (HK : forall n, 0 <= n -> (exists g, mbind (pydiv width n) (fun size => if n * size =? width then Made (n, size) else Raises ValueError) = Made g) <-> 0 < n /\ (n | width)).
  { intros n H0. unfold pydiv. destruct (n =? 0) eqn:E.
    - split; [intros [g H]; discriminate|intros [H _]; lia].
    - cbn [mbind]. rewrite <- (exact_div width n) by lia. destruct (n * (width / n) =? width); split; try (intros [g H]; discriminate); try (intros [_ H]; discriminate); [split; [lia|reflexivity]|eauto]. }
  assert (HD : forall s, 0 < s -> 0 <= width / s /\ (0 < width / s <-> s <= width)).
  { intros s Hs0. split; [apply Z.div_pos; lia|]. split; intros H.
    - destruct (Z_lt_le_dec width s); auto. rewrite Z.div_small in H by lia. lia.
    - apply Z.div_str_pos. lia. }
  unfold stream_geom. destruct keep as [k|]; destruct bsize as [s|]; destruct blanes as [l|]; cbn [mbind];
    try (split; [intros [g H]; discriminate|contradiction]).
  - specialize (Hk k eq_refl). rewrite HK by lia. tauto.
  - specialize (Hs s eq_refl). unfold pydiv at 1. replace (s =? 0) with false by lia. cbn [mbind]. destruct (HD s Hs) as [H1 H2]. rewrite HK by auto. tauto.
  - specialize (Hn l eq_refl). rewrite HK by lia. tauto.
  - destruct (HD 8 ltac:(lia)) as [H1 H2]. rewrite HK by auto. tauto.
Qed.
Print Assumptions C79_stream_accepts.

Example C79_stream_nontrivial :
  stream_geom 64 (Some 8) None None = Made (8, 8) /\ stream_geom 64 (Some 4) None None = Made (4, 16) /\ stream_geom 66 None None (Some 2) = Made (2, 33) /\
  stream_geom 36 None (Some 9) None = Made (4, 9) /\ stream_geom 64 (Some 3) None None = Raises ValueError /\ stream_geom 64 (Some 8) (Some 8) None = Raises ValueError /\
  stream_geom 64 None (Some 8) (Some 8) = Raises ValueError /\ stream_geom 7 None None None = RaisesZeroDivision.
Proof. vm_compute. repeat split. Qed.

(** The requested byte_size is not always obeyed, nor refused: a bus of 24 bits with byte_size 16 gets one byte of 24 bits; a bus of 20 bits without
    arguments gets bytes of 10 bits.  A negative byte_size is accepted and gives a negative number of lanes. *)
Theorem C79_stream_size_refuted :
  stream_geom 24 None (Some 16) None = Made (1, 24) /\ stream_geom 20 None None None = Made (2, 10) /\ stream_geom 32 None (Some (-8)) None = Made (-4, -8).
Proof. vm_compute. repeat split. Qed.
Print Assumptions C79_stream_size_refuted.

(** ** memory-mapped endpoints *)
(** AXI-Lite and APB: constructed exactly if the data width is a multiple of 8 and the strobes, if any, are one per byte. *)
Theorem C79_lite : forall width strb L, 0 <= width ->
  lite_geom width strb = Made L <-> width = 8 * L /\ (forall n, strb = Some n -> n = L).
Proof.
  intros width strb L Hw. unfold lite_geom, data_geom. split.
  - destruct strb as [n|]; [destruct (width / 8 =? n) eqn:E1; [|discriminate]|]; (destruct (width / 8 * 8 =? width) eqn:E2; [|discriminate]); intros E; injection E as <-; split; try lia; intros m Em; try discriminate; injection Em; lia.
  - intros [-> H]. rewrite (Z.mul_comm 8 L), Z.div_mul by lia. rewrite Z.eqb_refl. destruct strb as [n|]; auto. rewrite (H n eq_refl), Z.eqb_refl. reflexivity.
Qed.
Print Assumptions C79_lite.

(** AXI: moreover the ID widths of the two channels agree. *)
Theorem C79_axi : forall width strb id rid L, 0 <= width ->
  axi_geom width strb id rid = Made L <-> width = 8 * L /\ (forall n, strb = Some n -> n = L) /\ rid = id.
Proof.
  intros width strb id rid L Hw. unfold axi_geom. pose proof (C79_lite width strb) as H. unfold lite_geom in H. split.
  - destruct (data_geom width strb) as [l|e|]; [|discriminate|discriminate]. cbn [mbind]. destruct (rid =? id) eqn:E; [|discriminate]. intros K. injection K as ->.
    destruct (proj1 (H L Hw) eq_refl). repeat split; auto. lia.
  - intros (H1 & H2 & ->). rewrite (proj2 (H L Hw) (conj H1 H2)). cbn [mbind]. now rewrite Z.eqb_refl.
Qed.
Print Assumptions C79_axi.

(** On the data widths of the AXI standard (8 to 1024 bits, a power of two) the largest burst size is one whole bus word, and every size that a
    call accepts - given, or chosen by default - is one that the theorems about bursts assume (bus_ok). *)
Theorem C79_axi_sizes : forall m strb id L, 0 <= m <= 7 ->
  axi_geom (8 * 2 ^ m) strb id id = Made L ->
  2 ^ max_burst_size L = L /\ max_burst_size L = m /\
  forall aw p s size, size_arg {| ac_aw := aw; ac_idw := id; ac_lanes := L; ac_pres := p |} s = Ok size -> bus_ok L size.
Proof.
  intros m strb id L Hm E. assert (E' := proj1 (C79_axi (8 * 2 ^ m) strb id id L ltac:(pose proof (Z.pow_pos_nonneg 2 m); lia)) E). destruct E' as (E' & _). assert (HL : L = 2 ^ m) by lia. clear E E'.
  assert (HB : max_burst_size L = m).
  { subst L. assert (K : m = 0 \/ m = 1 \/ m = 2 \/ m = 3 \/ m = 4 \/ m = 5 \/ m = 6 \/ m = 7) by lia. destruct K as [->|[->|[->|[->|[->|[->|[->| ->]]]]]]]; reflexivity. }
  split; [rewrite HB; auto|]. split; [exact HB|]. intros aw p s size Hs. exists m. split; [exact HL|]. unfold size_arg in Hs. cbn [ac_lanes] in Hs. rewrite HB in Hs.
  destruct s as [s|]; [|injection Hs as <-; lia]. destruct (s <? 0) eqn:E0; [injection Hs as <-; lia|]. destruct (m <? s) eqn:E1; [discriminate|]. injection Hs as <-. lia.
Qed.
Print Assumptions C79_axi_sizes.

Example C79_nontrivial :
  axi_geom 64 (Some 8) 4 4 = Made 8 /\ axi_geom 64 (Some 4) 4 4 = Raises AssertionError /\ axi_geom 36 None 4 4 = Raises AssertionError /\ axi_geom 64 None 4 8 = Raises AssertionError /\
  max_burst_size 8 = 3 /\ size_arg {| ac_aw := 32; ac_idw := 4; ac_lanes := 8; ac_pres := Build_present true true true true true true true |} None = Ok 3.
Proof. vm_compute. repeat split. Qed.

(** Other multiples of 8 are accepted too, but do not work: on 24 bits, with the default size, a write of 4 bytes sends only its first byte, and in a
    write of 8 bytes the task of the master raises (negative shift count, axi_master.py 518) before anything is sent. *)
Definition side3 : M_axi.side := {| s_lock := 0; s_cache := 3; s_prot := 2; s_qos := 0; s_region := 0; s_user := 0 |}.
Definition call3 (d : list Z) : wargs :=
  {| wa_com := {| g_addr := 0; g_id := None; g_burst := 1; g_size := None; g_side := side3 |}; wa_data := DSeq d; wa_wuser := UInt 0 |}.
Definition cfg3 : acfg := {| ac_aw := 32; ac_idw := 4; ac_lanes := 3; ac_pres := Build_present true true true true true true true |}.
Theorem C79_axi_width_refuted :
  axi_geom 24 (Some 3) 4 4 = Made 3 /\
  (exists cmd, write_args cfg3 (call3 [1; 2; 3; 4]) = Ok (None, cmd) /\
     let '(evs, r) := master_write {| m_lanes := 3; m_mbl := 256 |} 0 cmd in
     r = Ok tt /\ map (fun w => (w_data w, w_strb w, w_last w)) (w_of evs) = [(1, 1, true)]) /\
  (exists cmd, write_args cfg3 (call3 [1; 2; 3; 4; 5; 6; 7; 8]) = Ok (None, cmd) /\
     master_write {| m_lanes := 3; m_mbl := 256 |} 0 cmd = ([], Err ValueError)).
Proof. split; [reflexivity|]. split; eexists; (split; [reflexivity|]); vm_compute; repeat split. Qed.
Print Assumptions C79_axi_width_refuted.
