(** Property theorems C10-C19 and C53 (address_space.py). *)
From Coq Require Import ZArith List Bool Lia.
From Coq Require Import ZifyBool ZifyNat.
From Verif Require Import Py M_sparse M_memory P_memory M_buddy S_buddy P_buddy M_aspace S_aspace
  P_aspace P_aspacew P_aspacec P_aspaceh P_aspacep P_aspacer.
Import ListNotations.
Open Scope Z_scope.

(** heap used in the examples: 0 a space of 64 with a memory region 1 at [0,8), a sparse region 2 at
    [8,24) shifted by 4, a nested space 3 at [32,64) holding memory 4 at [8,24) *)
Definition ex_ops : list aop :=
  [ANewSpace 64; ANewMem 8; ANewSparse 32; ANewSpace 32; ANewMem 16;
   ARegister 0 1 0 None (Some 0); ARegister 0 2 8 (Some 16) (Some 4); ARegister 0 3 32 None (Some 0);
   ARegister 3 4 8 None (Some 0)].
Definition ex_heap : heap := fst (a_run 20 [] ex_ops).
Lemma ex_reach : a_reach ex_heap.
Proof. exists 20%nat, ex_ops. reflexivity. Qed.

(** C10: in every heap reached by any history of calls, no two regions of a space share an
    address. *)
Theorem C10_regions_disjoint : forall h sp o regions al j k ej ek,
  a_reach h -> hget h sp = Some o -> o_kind o = KSpace regions al -> j <> k ->
  nth_error regions j = Some ej -> nth_error regions k = Some ek ->
  ~ overlap (e_base ej) (e_size ej) (e_base ek) (e_size ek).
Proof.
  intros h sp o regs al j k ej ek HR Hs Hk Hne Hj Hkk.
  pose proof (hok_get _ _ _ (a_reach_hok _ HR) Hs) as Ho. unfold okobj in Ho. rewrite Hk in Ho.
  destruct Ho as [HP HS]. intros (x & H1 & H2).
  assert (sepe ej ek \/ sepe ek ej) as H.
  { destruct (Nat.lt_total j k) as [H|[H|H]]; [left|lia|right]; eapply (FOP_nth _ _ HS); eauto. }
  unfold sepe in H. lia.
Qed.
Print Assumptions C10_regions_disjoint.

(** C10: exactly when a registration is accepted.  [overlap (e_base e) (e_size e) base (max s 1)]:
    an empty region counts as one byte; an existing empty region strictly inside the new
    range also blocks it. *)
Theorem C10_accepted_iff : forall h sp r base size off os rg regions al,
  a_reach h -> hget h sp = Some os -> hget h r = Some rg -> o_kind os = KSpace regions al ->
  let s := match size with None => o_size rg | Some s => s end in
  (exists h', register_region h sp r base size off = (h', Ok tt)) <->
  (0 <= base < o_size os /\ 0 <= s /\
   forall e, In e regions -> ~ overlap (e_base e) (e_size e) base (Z.max s 1) /\
                             ~ (e_size e = 0 /\ base < e_base e < base + s)).
Proof.
  intros h sp r base size off os rg regs al HR Hs Hr Hk s.
  pose proof (hok_get _ _ _ (a_reach_hok _ HR) Hs) as Ho. unfold okobj in Ho. rewrite Hk in Ho. destruct Ho as [HP _].
  rewrite Forall_forall in HP.
  rewrite (register_ok_iff h sp r base size off os rg regs al Hs Hr Hk). fold s.
  split; intros (H1 & H2 & H3); (split; [auto|]); (split; [auto|]); intros e He; specialize (H3 e He);
    pose proof (meets_spec e base s (proj2 (HP e He))) as HM; tauto.
Qed.
Print Assumptions C10_accepted_iff.

(** C10: a rejected registration changes nothing; an accepted one appends the entry, makes the space
    the region's parent, and changes nothing else. *)
Theorem C10_register_effect : forall h sp r base size off,
  let '(h', res) := register_region h sp r base size off in
  match res with
  | Err _ => h' = h
  | Ok _ => exists os rg regions al,
      hget h sp = Some os /\ hget h r = Some rg /\ o_kind os = KSpace regions al /\
      let e := Entry base (match size with None => o_size rg | Some s => s end) off r in
      (exists os', hget h' sp = Some os' /\ o_size os' = o_size os /\ o_kind os' = KSpace (regions ++ [e]) al /\
         (sp <> r -> o_base os' = o_base os /\ o_parent os' = o_parent os)) /\
      (exists rg', hget h' r = Some rg' /\ o_size rg' = o_size rg /\ o_parent rg' = Some sp /\
         (sp <> r -> o_kind rg' = o_kind rg)) /\
      (forall j, j <> sp -> j <> r -> hget h' j = hget h j) /\ length h' = length h
  end.
Proof.
  intros h sp r base size off. pose proof (register_inv h sp r base size off) as H.
  destruct (register_region h sp r base size off) as [h' [u|e]]; auto.
  destruct H as (rg & Gr & os & rg' & regs & al & Gs & Gr' & Kk & Ef & HL & Hr' & Hs' & Ho).
  rewrite Gr in Gr'. inversion Gr'; subst rg'. cbv zeta in Hr'.
  exists os, rg, regs, al. split; auto. split; auto. split; auto. cbv zeta. split.
  - destruct (Nat.eq_dec sp r) as [->|Hne].
    + eexists. split; [exact Hr'|]. rewrite Gr in Gs. inversion Gs; subst. rewrite Nat.eqb_refl. cbn.
      split; auto. split; auto. congruence.
    + eexists. split; [apply Hs'; auto|]. cbn. auto.
  - split; [|auto]. eexists. split; [exact Hr'|]. cbn. split; auto. split; auto. intros Hne.
    destruct (Nat.eqb_spec r sp); congruence.
Qed.
Print Assumptions C10_register_effect.

Example C10_nontrivial :
  snd (a_run 20 [] (ex_ops ++ [ANewMem 8; ARegister 0 5 24 (Some 9) None; ARegister 0 5 24 None None;
                               ARegister 0 5 63 None None; ARegister 3 5 64 None None]))
  = [AId 0; AId 1; AId 2; AId 3; AId 4; ADone; ADone; ADone; ADone;
     AId 5; AErr ValueError; ADone; AErr ValueError; AErr ValueError].
Proof. vm_compute. reflexivity. Qed.

(** C11: a read that returns gives exactly the bytes the addresses decode to, and alters no memory.
    (For bytes of a peripheral the value is whatever the peripheral answered.) *)
Theorem C11_read_exact : forall lim h i a n h' data,
  a_reach h -> lawful h -> rd_obj lim h i a n = (h', Ok data) ->
  0 <= n /\ zlen data = n /\
  (forall j, 0 <= j < n -> exists d l x, decodes h d i (a + j) l x /\
     forall b, content h l x = Some b -> znth 0 data j = b) /\
  (forall l x, content h' l x = content h l x).
Proof.
  intros lim h i a n h' data HR HL E. pose proof (a_reach_hok _ HR) as Hok.
  destruct (rd_obj_sound lim _ _ _ _ _ _ Hok E) as [Hs H]. destruct (H data eq_refl HL) as (Hn & Hlen & HB).
  split; auto. split; auto. split.
  - intros j Hj. destruct (HB j Hj) as (d & l & x & D & _ & C). exists d, l, x. split; auto.
    intros b Hb. destruct C; congruence.
  - intros l x. now apply content_strip.
Qed.
Print Assumptions C11_read_exact.

(** C11: the decoded location of an address is unique, so [C11_read_exact] determines the answer. *)
Theorem C11_decode_unique : forall h d i a l x d' l' x',
  a_reach h -> decodes h d i a l x -> decodes h d' i a l' x' -> l = l' /\ x = x'.
Proof.
  intros h d i a l x d' l' x' HR D D'. destruct (decodes_unique _ _ _ _ _ _ (a_reach_hok _ HR) D _ _ _ D'). tauto.
Qed.
Print Assumptions C11_decode_unique.

(** C11: a read all of whose addresses decode to memory succeeds (regions inside their space,
    recursion limit not smaller than the nesting). *)
Theorem C11_mapped_read_succeeds : forall lim h i a n,
  a_reach h -> contained h -> 0 < n ->
  (forall j, 0 <= j < n -> exists d l x, decodes h d i (a + j) l x /\ (d <= lim)%nat /\ content h l x <> None) ->
  exists data, rd_obj lim h i a n = (h, Ok data).
Proof.
  intros lim h i a n HR HC Hn HM. apply rd_obj_complete; auto; [now apply a_reach_hok|].
  intros j Hj. apply memdec_content. auto.
Qed.
Print Assumptions C11_mapped_read_succeeds.

(** C11: a read with an unmapped address raises. *)
Theorem C11_unmapped_read_raises : forall lim h i a n j,
  a_reach h -> lawful h -> 0 <= j < n -> (forall d l x, ~ decodes h d i (a + j) l x) ->
  exists e, snd (rd_obj lim h i a n) = Err e.
Proof.
  intros lim h i a n j HR HL Hj HU. destruct (rd_obj lim h i a n) as [h' [data|e]] eqn:E; [|eexists; reflexivity].
  exfalso. destruct (C11_read_exact _ _ _ _ _ _ _ HR HL E) as (_ & _ & HB & _).
  destruct (HB j Hj) as (d & l & x & D & _). eapply HU; eauto.
Qed.
Print Assumptions C11_unmapped_read_raises.

(** C11, C12: an access inside one region, of whatever kind, is exactly that access of the region at
    the translated address. *)
Theorem C11_single_region : forall lim h p po regions al e a,
  a_reach h -> contained h -> hget h p = Some po -> o_kind po = KSpace regions al -> In e regions ->
  e_base e <= a < e_base e + e_size e ->
  (forall n, 0 <= n -> a + n <= e_base e + e_size e ->
     rd_obj (S lim) h p a n = rd_obj lim h (e_reg e) (translated e a) n) /\
  (forall d, a + zlen (pd_list d) <= e_base e + e_size e ->
     wr_obj (S lim) h p a d = wr_obj lim h (e_reg e) (translated e a) d).
Proof.
  intros lim h p po regs al e a HR HC Gp Kp Hin Ha. pose proof (a_reach_hok _ HR) as Hok. split.
  - intros n Hn Hf. eapply read_one_region; eauto.
  - intros d Hf. eapply write_one_region; eauto.
Qed.
Print Assumptions C11_single_region.

(** a read across the memory region and the shifted sparse region, one in the nested space, and
    reads with a hole *)
Example C11_nontrivial :
  let h := fst (a_run 20 ex_heap [AWrite 1 6 (PBytes [1; 2]); AWrite 2 4 (PBytes [3; 4]); AWrite 4 0 (PBytes [5])]) in
  snd (rd_obj 20 h 0 6 4) = Ok [1; 2; 3; 4] /\ snd (rd_obj 20 h 0 40 2) = Ok [5; 0] /\
  snd (rd_obj 20 h 0 22 4) = Err Plain /\ snd (rd_obj 20 h 0 38 4) = Err Plain /\
  decodes h 2 0 9 2 5 /\ decodes h 3 0 41 4 1.
Proof.
  cbv zeta. split; [vm_compute; reflexivity|]. split; [vm_compute; reflexivity|].
  split; [vm_compute; reflexivity|]. split; [vm_compute; reflexivity|]. split.
  - eapply dec_space with (e := Entry 8 16 (Some 4) 2); [vm_compute; reflexivity|vm_compute; reflexivity| | | ].
    + cbn; tauto. + unfold covers; cbn; lia.
    + eapply dec_leaf; [vm_compute; reflexivity|exact I|unfold translated; cbn; lia].
  - eapply dec_space with (e := Entry 32 32 (Some 0) 3); [vm_compute; reflexivity|vm_compute; reflexivity| | | ].
    + cbn; tauto. + unfold covers; cbn; lia.
    + eapply dec_space with (e := Entry 8 16 (Some 0) 4); [vm_compute; reflexivity|vm_compute; reflexivity| | | ].
      * cbn; tauto. * unfold covers, translated; cbn; lia.
      * eapply dec_leaf; [vm_compute; reflexivity|exact I|unfold translated; cbn; lia].
Qed.

(** C12: a write that returns has stored the bytes one after the other, in increasing address order,
    at the locations the addresses decode to, and changed no other byte. *)
Theorem C12_write_exact : forall lim h i a data h',
  a_reach h -> are_bytes (pd_list data) -> wr_obj lim h i a data = (h', Ok tt) ->
  exists locs, length locs = length (pd_list data) /\
    (forall j, 0 <= j < zlen locs -> exists d,
        decodes h d i (a + j) (fst (znth (O, 0) locs j)) (snd (znth (O, 0) locs j))) /\
    (forall l x, content h' l x = stores (content h) locs (pd_list data) l x) /\
    (forall l x, ~ In (l, x) locs -> content h' l x = content h l x) /\
    (forall d k b l x, decodes h' d k b l x <-> decodes h d k b l x).
Proof.
  intros lim h i a data h' HR Hb E.
  destruct (wr_obj_sound lim h i a data h' _ (a_reach_hok _ HR) Hb E) as (Hs & _ & locs & _ & Hf & HD & HC).
  exists locs. split; [now apply Hf|]. split.
  - intros j Hj. destruct (HD j Hj) as (d & _ & D). eauto.
  - split; [exact HC|]. split.
    + intros l x Hn. rewrite HC. now apply stores_notin.
    + intros. split; apply decodes_skel; congruence.
Qed.
Print Assumptions C12_write_exact.

(** C12: a write all of whose addresses decode to memory succeeds. *)
Theorem C12_mapped_write_succeeds : forall lim h i a data,
  a_reach h -> contained h -> data <> [] -> are_bytes data ->
  (forall j, 0 <= j < zlen data -> exists d l x, decodes h d i (a + j) l x /\ (d <= lim)%nat /\ content h l x <> None) ->
  exists h', wr_obj lim h i a (PBytes data) = (h', Ok tt).
Proof.
  intros lim h i a data HR HC Hne Hb HM. apply wr_obj_complete; auto; [now apply a_reach_hok|].
  intros j Hj. apply memdec_content. auto.
Qed.
Print Assumptions C12_mapped_write_succeeds.

(** C12: and is read back by the same route, if the addresses stand for distinct bytes. *)
Theorem C12_read_back : forall lim h i a data,
  a_reach h -> contained h -> lawful h -> data <> [] -> are_bytes data ->
  (forall j, 0 <= j < zlen data -> exists d l x, decodes h d i (a + j) l x /\ (d <= lim)%nat /\ content h l x <> None) ->
  (forall j k d d' l x, 0 <= j < zlen data -> 0 <= k < zlen data -> decodes h d i (a + j) l x ->
     decodes h d' i (a + k) l x -> j = k) ->
  exists h', wr_obj lim h i a (PBytes data) = (h', Ok tt) /\ rd_obj lim h' i a (zlen data) = (h', Ok data).
Proof.
  intros lim h i a data HR HC HL Hne Hb HM HI.
  destruct (write_read_back lim h i a data (a_reach_hok _ HR) HC HL Hb Hne (conj HM HI)) as (h' & H1 & H2 & _).
  eauto.
Qed.
Print Assumptions C12_read_back.

Example C12_nontrivial :
  let h := fst (wr_obj 20 ex_heap 0 6 (PBytes [1; 2; 3; 4])) in
  snd (wr_obj 20 ex_heap 0 6 (PBytes [1; 2; 3; 4])) = Ok tt /\
  snd (rd_obj 20 h 1 5 3) = Ok [0; 1; 2] /\ snd (rd_obj 20 h 2 3 4) = Ok [0; 3; 4; 0] /\
  snd (rd_obj 20 h 0 5 6) = Ok [0; 1; 2; 3; 4; 0].
Proof. vm_compute. auto. Qed.

(** C13 is false: a write into a range with a gap raises after the first region was modified. *)
Theorem C13_rejected_write_no_effect_refuted :
  exists lim h i a data h' e l x, a_reach h /\ wr_obj lim h i a (PBytes data) = (h', Err e) /\
    content h' l x <> content h l x.
Proof.
  exists 20%nat, ex_heap, O, 22, [9; 9; 9]. eexists. exists Plain, 2%nat, 18.
  split; [apply ex_reach|]. split; [vm_compute; reflexivity|]. vm_compute. discriminate.
Qed.
Print Assumptions C13_rejected_write_no_effect_refuted.

(** C13, what does hold: a write that raises has stored a prefix of the data where the addresses
    decode to, and nothing else. *)
Theorem C13_rejected_write_is_prefix_partial : forall lim h i a data h' e,
  a_reach h -> are_bytes (pd_list data) -> wr_obj lim h i a data = (h', Err e) ->
  exists locs, (length locs <= length (pd_list data))%nat /\
    (forall j, 0 <= j < zlen locs -> exists d,
        decodes h d i (a + j) (fst (znth (O, 0) locs j)) (snd (znth (O, 0) locs j))) /\
    (forall l x, content h' l x = stores (content h) locs (pd_list data) l x) /\
    ((forall d l x, ~ decodes h d i a l x) -> forall l x, content h' l x = content h l x).
Proof.
  intros lim h i a data h' e HR Hb E.
  destruct (wr_obj_sound lim h i a data h' _ (a_reach_hok _ HR) Hb E) as (Hs & _ & locs & Hl & _ & HD & HC).
  exists locs. split; auto. split.
  - intros j Hj. destruct (HD j Hj) as (d & _ & D). eauto.
  - split; [exact HC|]. intros HU l x. rewrite HC. destruct locs as [|[l0 x0] locs]; [reflexivity|].
    destruct (HD 0) as (d & _ & D); [unfold zlen; cbn [length]; lia|].
    replace (a + 0) with a in D by lia. exfalso. eapply HU; eauto.
Qed.
Print Assumptions C13_rejected_write_is_prefix_partial.

Example C13_nontrivial :
  let h := fst (wr_obj 20 ex_heap 0 22 (PBytes [9; 8; 7])) in
  snd (wr_obj 20 ex_heap 0 22 (PBytes [9; 8; 7])) = Err Plain /\ snd (rd_obj 20 h 2 17 4) = Ok [0; 9; 8; 0] /\
  wr_obj 20 ex_heap 0 24 (PBytes [9; 8; 7]) = (ex_heap, Err Plain).
Proof. vm_compute. auto. Qed.

(** C14: in every history in which no window is itself registered as a region, each window resolves,
    through its chain of parents, to a range [off, off + size) inside an object that is no
    window, and each access either raises ValueError without effect or is exactly the access
    at [a + off] of that object, inside that range. *)
Theorem C14_windows_confined : forall lim0 ops h w o off0 al,
  plain_run lim0 [] ops -> h = fst (a_run lim0 [] ops) -> hget h w = Some o -> o_kind o = KWindow off0 al ->
  exists k off p op, hget h p = Some op /\ (forall x al', o_kind op <> KWindow x al') /\
    win_chain h k w off p /\ 0 <= off /\ off + o_size o <= o_size op /\
    (forall lim a n,
       (0 <= a < o_size o /\ 0 <= n /\ a + n <= o_size o ->
          rd_obj (k + lim) h w a n = rd_obj lim h p (a + off) n) /\
       (~ (0 <= a < o_size o /\ 0 <= n /\ a + n <= o_size o) ->
          rd_obj (k + lim) h w a n = (h, Err ValueError))) /\
    (forall lim a d,
       (0 <= a < o_size o /\ a + zlen (pd_list d) <= o_size o ->
          wr_obj (k + lim) h w a d = wr_obj lim h p (a + off) d) /\
       (~ (0 <= a < o_size o /\ a + zlen (pd_list d) <= o_size o) ->
          wr_obj (k + lim) h w a d = (h, Err ValueError))).
Proof.
  intros lim0 ops h w o off0 al HP -> Gw Kw.
  assert (HW : WI (fst (a_run lim0 [] ops))).
  { apply WI_run; auto; [constructor|]. intros i x off' al' Hi. destruct i; discriminate. }
  set (h := fst (a_run lim0 [] ops)) in *.
  destruct (WI_chain h HW _ w o off0 al (Nat.lt_succ_diag_r w) Gw Kw) as (k & toff & p & op & C & Gp & Hn & H0 & Hf).
  exists k, toff, p, op. split; auto. split. { intros x al' E. rewrite E in Hn. apply Hn. exact I. }
  split; auto. split; auto. split; auto. split.
  - intros lim a n. rewrite (chain_read _ _ _ _ _ C o lim a n Gw). pose proof (range_ok_spec (o_size o) a n) as HS.
    destruct (range_ok (o_size o) a n); split; intros H; auto; exfalso.
    + apply H, HS. reflexivity.
    + assert (false = true) by (apply HS; auto). discriminate.
  - intros lim a d. rewrite (chain_write _ _ _ _ _ C o lim a d Gw). pose proof (zlen_nonneg (pd_list d)).
    pose proof (range_ok_spec (o_size o) a (zlen (pd_list d))) as HS.
    destruct (range_ok (o_size o) a (zlen (pd_list d))); split; intros K; auto; exfalso.
    + apply K. pose proof (proj1 HS eq_refl). lia.
    + assert (false = true) by (apply HS; lia). discriminate.
Qed.
Print Assumptions C14_windows_confined.

(** C14: the window [create_window] returns is the stated range of its parent; it is refused exactly
    if that range is not inside the parent, and then nothing changes. *)
Theorem C14_create_window : forall h i o off n, hget h i = Some o -> 0 < n ->
  (0 <= off /\ off + n <= o_size o ->
     exists b, create_window h i off (Some n) = (h ++ [Obj n b (Some i) (KWindow off None)], Ok (length h))) /\
  (~ (0 <= off /\ off + n <= o_size o) -> create_window h i off (Some n) = (h, Err ValueError)).
Proof.
  intros h i o off n Gi Hn. unfold create_window. rewrite Gi. replace (n <=? 0) with false by lia.
  pose proof (range_ok_spec (o_size o) off n) as HS. split; intros H.
  - replace (range_ok (o_size o) off n) with true by (symmetry; apply HS; lia). cbn [negb].
    unfold abs_address, hnew. replace (range_ok (o_size o) off 0) with true by (symmetry; apply range_ok_spec; lia).
    destruct (o_base o); eauto.
  - destruct (range_ok (o_size o) off n); [exfalso; apply H; lia|reflexivity].
Qed.
Print Assumptions C14_create_window.

Example C14_nontrivial :
  let ops := [ANewMem 64; AWindow 0 16 (Some 32); AWindow 1 4 (Some 8); AWrite 2 3 (PBytes [1; 2; 3; 4; 5])] in
  plain_run 20 [] ops /\
  (let h := fst (a_run 20 [] ops) in
   snd (rd_obj 20 h 0 22 7) = Ok [0; 1; 2; 3; 4; 5; 0] /\ snd (rd_obj 20 h 2 4 5) = Err ValueError /\
   snd (wr_obj 20 h 2 8 (PBytes [])) = Err ValueError).
Proof. vm_compute. tauto. Qed.

(** C53 is false: registering a window as a region re-parents it.  Registered at its own offset it
    becomes its own parent's content: no recursion limit is enough to read it. *)
Theorem C53_registered_window_refuted :
  exists ops h w h', h = fst (a_run 20 [] ops) /\ snd (rd_obj 20 h w 0 1) = Ok [7] /\
    register_region h 2 w 16 None (Some 0) = (h', Ok tt) /\
    forall lim, rd_obj lim h' w 0 1 = (h', Err RecursionError).
Proof.
  exists [ANewMem 64; AWindow 0 16 (Some 16); ANewSpace 64; AWrite 0 16 (PBytes [7])].
  eexists. exists 1%nat. eexists. split; [reflexivity|]. split; [vm_compute; reflexivity|].
  split; [vm_compute; reflexivity|].
  intros lim. match goal with |- rd_obj _ ?x _ _ _ = _ => set (h' := x) end.
  assert (H : forall n lim, (lim <= n)%nat -> rd_obj lim h' 1 0 1 = (h', Err RecursionError)).
  { induction n as [|n IH]; intros [|[|m]] Hm; try reflexivity; [lia|].
    assert (E1 : rd_obj (S (S m)) h' 1 0 1 = rd_obj (S m) h' 2 16 1) by reflexivity.
    assert (E2 : rd_obj (S m) h' 2 16 1 =
      match rd_obj m h' 1 0 1 with (h1, Err x) => (h1, Err x) | (h1, Ok d) => (h1, Ok d) end) by reflexivity.
    rewrite E1, E2, IH by lia. reflexivity. }
  apply (H lim). lia.
Qed.
Print Assumptions C53_registered_window_refuted.

(** C15: in a tree built top-down, get_absolute_address of an address of any object is the address at
    which the root reaches it: the accesses are the same, whatever is behind them.  (Regions
    inside their space; [k1], [k2]: levels of nesting between the two and the recursion limit.) *)
Theorem C15_absolute_address : forall h i o,
  topdown h -> contained h -> hget h i = Some o ->
  exists B k1 k2, (k1 + k2 <= i)%nat /\
    (forall a, 0 <= a < o_size o -> abs_address o a = Ok (Some (a + B))) /\
    (forall lim a n, 0 <= a < o_size o -> 0 <= n -> a + n <= o_size o ->
       rd_obj (k1 + lim) h 0 (a + B) n = rd_obj (k2 + lim) h i a n) /\
    (forall lim a d, 0 <= a < o_size o -> a + zlen (pd_list d) <= o_size o ->
       wr_obj (k1 + lim) h 0 (a + B) d = wr_obj (k2 + lim) h i a d).
Proof.
  intros h i o HT HC Hi. destruct (topdown_TD _ HT) as [HTD Hok2].
  destruct (TD_access h HTD (topdown_WI _ HT) (hok2_hok _ Hok2) HC _ i o (Nat.lt_succ_diag_r i) Hi)
    as (B & k1 & k2 & HB & Hk & HR & HW).
  exists B, k1, k2. split; auto. split; [|auto]. intros a Ha. unfold abs_address. rewrite HB.
  replace (range_ok (o_size o) a 0) with true by (symmetry; apply range_ok_spec; lia). reflexivity.
Qed.
Print Assumptions C15_absolute_address.

(** a window in a memory in a space in the root *)
Example C15_nontrivial :
  let h := fst (a_run 20 [] [ANewSpace 100; ANewSpace 50; ARegister 0 1 20 None (Some 0); ANewMem 30;
                   ARegister 1 2 10 None (Some 0); AWindow 2 5 (Some 10); AWrite 3 1 (PBytes [1; 2])]) in
  topdown h /\ contained h /\ option_map (fun o => abs_address o 1) (hget h 3) = Some (Ok (Some 36)) /\
  snd (rd_obj 20 h 0 36 2) = Ok [1; 2].
Proof.
  cbv zeta. split; [|split; [|split; vm_compute; reflexivity]].
  - assert (T0 := td_root 100).
    pose proof ( td_place _ RTSpace 50 _ _ 0%nat 20 _ T0 ltac:(vm_compute; reflexivity) ltac:(discriminate) ltac:(vm_compute; reflexivity)) as T1.
    pose proof ( td_place _ RTMem 30 _ _ 1%nat 10 _ T1 ltac:(vm_compute; reflexivity) ltac:(discriminate) ltac:(vm_compute; reflexivity)) as T2.
    pose proof ( td_window _ 2 5 (Some 10) _ _ T2 ltac:(vm_compute; reflexivity)) as T3.
    pose proof (td_write 20 _ 3 1 (PBytes [1; 2]) T3) as T4. vm_compute in T4 |- *. exact T4.
  - intros i o regs al e Hi Hk He.
    destruct i as [|[|[|[|i]]]]; cbn in Hi.
    1-4: injection Hi as <-; cbn in Hk; try discriminate; injection Hk as <- <-;
      destruct He as [<-|[]]; cbn; lia.
    destruct i; discriminate.
Qed.

(** C15 needs top-down construction: with the sub-space populated before it is registered, the
    absolute address of the inner region is stale. *)
Theorem C15_bottom_up_refuted :
  exists ops h o, h = fst (a_run 20 [] ops) /\ hget h 2 = Some o /\
    (forall e, In e (snd (a_run 20 [] ops)) -> forall x, e <> AErr x) /\
    abs_address o 0 = Ok (Some 10) /\ snd (rd_obj 20 h 2 0 1) = Ok [7] /\
    snd (rd_obj 20 h 0 30 1) = Ok [7] /\ snd (rd_obj 20 h 0 10 1) = Err Plain.
Proof.
  exists [ANewSpace 100; ANewSpace 50; ANewMem 30; ARegister 1 2 10 None (Some 0); ARegister 0 1 20 None (Some 0);
          AWrite 2 0 (PBytes [7])].
  eexists. eexists. split; [reflexivity|]. split; [vm_compute; reflexivity|].
  split; [|repeat (split; [vm_compute; reflexivity|]); vm_compute; reflexivity].
  intros e He x ->. vm_compute in He. intuition discriminate.
Qed.
Print Assumptions C15_bottom_up_refuted.

(** C16: two windows of a pool, allocated at any two points of any history, are disjoint, naturally
    aligned and inside the pool. *)
Theorem C16_windows : forall h0 wp n1 w1 h1 lim ops n2 w2 h2,
  a_reach h0 -> alloc_window h0 wp n1 = (h1, Ok w1) ->
  alloc_window (fst (a_run lim h1 ops)) wp n2 = (h2, Ok w2) ->
  exists p o1 o2 a1 a2, hget h2 wp = Some p /\ hget h2 w1 = Some o1 /\ hget h2 w2 = Some o2 /\
    o_kind o1 = KWindow a1 None /\ o_kind o2 = KWindow a2 None /\ o_size o1 = n1 /\ o_size o2 = n2 /\
    w1 <> w2 /\ disjoint a1 n1 a2 n2 /\
    (a1 mod block_size 1 n1 = 0 /\ 0 <= a1 /\ a1 + n1 <= o_size p) /\
    (a2 mod block_size 1 n2 = 0 /\ 0 <= a2 /\ a2 + n2 <= o_size p).
Proof. intros h0 wp n1 w1 h1 lim ops n2 w2 h2 HR. apply pool_windows. now apply a_reach_hok2. Qed.
Print Assumptions C16_windows.

Example C16_windows_nontrivial :
  let h0 := fst (a_run 20 [] [ANewMem 100; AWinPool 0 (Some 10) (Some 64)]) in
  let '(h1, r1) := alloc_window h0 1 5 in
  let '(h2, r2) := alloc_window (fst (a_run 20 h1 [AAllocWin 1 17; AAllocWin 1 60])) 1 8 in
  r1 = Ok 2%nat /\ r2 = Ok 4%nat /\
  map (fun o => (o_size o, match o_kind o with KWindow x _ => x | _ => -1 end)) h2
  = [(100, -1); (64, 10); (5, 0); (17, 32); (8, 8)].
Proof. vm_compute. auto. Qed.

(** C16: a region of a pool is disjoint from all regions already there, naturally aligned, and inside
    the pool if its size is a power of two. *)
Theorem C16_regions_partial : forall h i t n h' r,
  a_reach h -> alloc_region h i t n = (h', Ok r) ->
  exists o o' regions al al' a, hget h i = Some o /\ o_kind o = KSpace regions al /\
    hget h' i = Some o' /\ o_size o' = o_size o /\ o_kind o' = KSpace (regions ++ [Entry a n (Some 0) r]) al' /\
    (forall e, In e regions -> ~ overlap (e_base e) (e_size e) a n) /\
    a mod block_size 1 n = 0 /\ 0 <= a < o_size o /\ a + n <= managed (o_size o) /\
    (is_pow2 (o_size o) -> a + n <= o_size o).
Proof.
  intros h i t n h' r HR E. pose proof (a_reach_hok2 _ HR) as Hok.
  destruct (alloc_region_spec _ _ _ _ _ _ Hok E)
    as (o & regs & b & b' & a & live & o' & G & K & RB & EA & Er & G' & S' & K' & Ha & HM).
  pose proof (buddy_alloc_ok _ _ _ _ _ _ _ RB EA) as B. cbv zeta in B. destruct B as (B1 & _ & B2 & _ & B3 & _).
  exists o, o', regs, (Some b), (Some b'), a. split; auto. split; auto. split; auto. split; auto. split; auto.
  assert (Hn : 1 <= n) by (unfold b_alloc_op in EA; destruct ((n <? 1) || (b_size b <? n)) eqn:X; [discriminate|lia]).
  split.
  - intros e He (x & H1 & H2). apply (HM e He). unfold meets. lia.
  - split; auto. split; auto. split; [lia|]. intros HP. rewrite (managed_pow2 _ HP) in B3. lia.
Qed.
Print Assumptions C16_regions_partial.

Example C16_regions_nontrivial :
  let h := fst (a_run 20 [] [ANewSpace 100; APool 0 (Some 10) (Some 64); AAllocReg 1 RTMem 5]) in
  let '(h', r) := alloc_region h 1 RTSparse 17 in
  r = Ok 3%nat /\
  option_map o_kind (hget h' 1) = Some (KSpace [Entry 0 5 (Some 0) 2; Entry 32 17 (Some 0) 3] 
    match hget h' 1 with Some (Obj _ _ _ (KSpace _ al)) => al | _ => None end).
Proof. vm_compute. auto. Qed.

(** C16: a new pool is an empty space of the requested size, registered at the requested base and
    inside its parent; nothing else changes. *)
Theorem C16_create_pool : forall h i base size h' p,
  create_pool h i base size = (h', Ok p) ->
  exists o regions al o' b s po, hget h i = Some o /\ o_kind o = KSpace regions al /\
    b = match base with None => 0 | Some x => x end /\
    s = match size with None => o_size o - b | Some x => x end /\
    0 <= b < o_size o /\ 0 <= s /\ b + s <= o_size o /\ p = length h /\
    hget h' i = Some o' /\ o_size o' = o_size o /\ o_kind o' = KSpace (regions ++ [Entry b s (Some 0) p]) al /\
    hget h' p = Some po /\ o_size po = s /\ o_kind po = KSpace [] (Some (b_init s 1)) /\
    (forall j, j <> i -> (j < length h)%nat -> hget h' j = hget h j).
Proof.
  intros h i base size h' p. unfold create_pool. destruct (hget h i) as [o|] eqn:Hi; [|discriminate].
  destruct (o_kind o) as [| | | |regs al] eqn:Hk; try discriminate. cbv zeta.
  set (b := match base with None => 0 | Some x => x end).
  set (s := match size with None => o_size o - b | Some x => x end).
  destruct (range_ok (o_size o) b s) eqn:Er; [|discriminate]. cbn [negb]. apply range_ok_spec in Er.
  match goal with |- context [register_region ?a ?b ?c ?d ?e ?f] =>
    pose proof (register_inv a b c d e f) as HR; destruct (register_region a b c d e f) as [h2 [u|x]] end; [|discriminate].
  intros E; inversion E; subst h' p. clear E.
  destruct HR as (rg & Grg & os & rg' & regs' & al' & Gs & Gr & Ks & Ef & Hlen & Hr' & Hs' & Ho).
  pose proof (hget_lt _ _ _ Hi) as Hlt.
  rewrite hget_app1 in Gs by auto. rewrite Hi in Gs. inversion Gs; subst os. rewrite Hk in Ks. inversion Ks; subst regs' al'.
  rewrite hget_app_new in Gr. inversion Gr; subst rg'. cbv zeta in Hr'. cbn [o_size o_kind] in *.
  destruct (Nat.eqb_spec (length h) i) as [|_]; [lia|].
  exists o, regs, al. eexists. exists b, s. eexists.
  split; [reflexivity|]. split; [auto|]. split; [reflexivity|]. split; [reflexivity|]. split; [lia|]. split; [lia|].
  split; [lia|]. split; [reflexivity|]. split; [apply Hs'; lia|]. split; [reflexivity|]. split; [reflexivity|].
  split; [exact Hr'|]. split; [reflexivity|]. split; [reflexivity|].
  intros j Hj Hjl. rewrite Ho by lia. now apply hget_app1.
Qed.
Print Assumptions C16_create_pool.

Example C16_create_pool_nontrivial :
  let h := fst (a_run 20 [] [ANewSpace 100; ANewMem 10; ARegister 0 1 0 None (Some 0)]) in
  snd (create_pool h 0 (Some 10) None) = Ok 2%nat /\
  option_map o_size (hget (fst (create_pool h 0 (Some 10) None)) 2) = Some 90 /\
  snd (create_pool h 0 (Some 9) None) = Err ValueError /\
  snd (create_pool h 0 (Some 90) (Some 11)) = Err ValueError.
Proof. vm_compute. auto. Qed.

(** C16: a new window pool is a window of exactly the requested part of its parent, with nothing
    allocated. *)
Theorem C16_create_window_pool : forall h i off size h' p,
  create_window_pool h i off size = (h', Ok p) ->
  exists o b s ba, hget h i = Some o /\
    b = match off with None => 0 | Some x => x end /\
    s = match size with None => o_size o - b | Some x => x end /\
    0 <= b < o_size o /\ 0 <= s /\ b + s <= o_size o /\ p = length h /\
    h' = h ++ [Obj s ba (Some i) (KWindow b (Some (b_init s 1)))].
Proof.
  intros h i off size h' p. unfold create_window_pool. destruct (hget h i) as [o|] eqn:Hi; [|discriminate]. cbv zeta.
  set (b := match off with None => 0 | Some x => x end).
  set (s := match size with None => o_size o - b | Some x => x end).
  destruct (range_ok (o_size o) b s) eqn:Er; [|discriminate]. cbn [negb]. apply range_ok_spec in Er.
  destruct (abs_address o b) as [ba|]; [|discriminate]. unfold hnew. intros E; inversion E; subst h' p.
  exists o, b, s, ba. split; [reflexivity|]. split; [reflexivity|]. split; [reflexivity|]. split; [lia|]. split; [lia|].
  split; [lia|]. auto.
Qed.
Print Assumptions C16_create_window_pool.

(** C16: for other pool sizes a region may stick out of the pool. *)
Theorem C16_regions_inside_refuted :
  exists ops h o regions al e, h = fst (a_run 20 [] ops) /\ hget h 1 = Some o /\ o_kind o = KSpace regions al /\
    ops = [ANewSpace 100; APool 0 (Some 0) (Some 12); AAllocReg 1 RTMem 8; AAllocReg 1 RTMem 8] /\
    In e regions /\ ~ (e_base e + e_size e <= o_size o).
Proof.
  exists [ANewSpace 100; APool 0 (Some 0) (Some 12); AAllocReg 1 RTMem 8; AAllocReg 1 RTMem 8].
  eexists. eexists. eexists. eexists. exists (Entry 8 8 (Some 0) 3).
  split; [vm_compute; reflexivity|]. split; [vm_compute; reflexivity|]. split; [cbn [o_kind]; reflexivity|].
  split; [reflexivity|]. split; [cbn; tauto|]. cbn. lia.
Qed.
Print Assumptions C16_regions_inside_refuted.

(** C16: an alloc_window that raises has still used up part of the pool: the same request of 4 bytes
    succeeds before it and fails after it. *)
Theorem C16_failed_alloc_leaks_refuted :
  exists h h1, h = fst (a_run 20 [] [ANewMem 100; AWinPool 0 (Some 0) (Some 12); AAllocWin 1 8]) /\
    (exists h', alloc_window h 1 4 = (h', Ok 3%nat)) /\
    alloc_window h 1 8 = (h1, Err ValueError) /\
    (exists h', alloc_window h1 1 4 = (h', Err Plain)).
Proof.
  eexists. eexists. split; [vm_compute; reflexivity|]. split; [eexists; vm_compute; reflexivity|].
  split; [vm_compute; reflexivity|]. eexists. vm_compute. reflexivity.
Qed.
Print Assumptions C16_failed_alloc_leaks_refuted.

(** C17: words written through any interface are read back. *)
Theorem C17_words_roundtrip_partial : forall lim h i a words bo ws,
  a_reach h -> contained h -> lawful h -> 0 < ws -> words <> [] ->
  Forall (fun w => 0 <= w < 256 ^ ws) words ->
  (forall j, 0 <= j < ws * zlen words ->
     exists d l x, decodes h d i (a + j) l x /\ (d <= lim)%nat /\ content h l x <> None) ->
  (forall j k d d' l x, 0 <= j < ws * zlen words -> 0 <= k < ws * zlen words -> decodes h d i (a + j) l x ->
     decodes h d' i (a + k) l x -> j = k) ->
  exists h', if_write_words lim h i a words bo ws = (h', Ok tt) /\
    if_read_words lim h' i a (zlen words) bo ws = (h', Ok words).
Proof.
  intros lim h i a words bo ws HR HC HL Hws Hne HF HM HI.
  destruct (words_roundtrip lim h i a words bo ws (a_reach_hok _ HR) HC HL Hws Hne HF (conj HM HI))
    as (h' & H1 & H2 & _). eauto.
Qed.
Print Assumptions C17_words_roundtrip_partial.

(** C17: the dword, qword and single-word accessors are word accesses of 4, 8 and the given number of
    bytes. *)
Theorem C17_word_variants_partial : forall lim h i a words w bo ws,
  a_reach h -> contained h -> lawful h ->
  let ok n := (forall j, 0 <= j < n -> exists d l x, decodes h d i (a + j) l x /\ (d <= lim)%nat /\ content h l x <> None) /\
    (forall j k d d' l x, 0 <= j < n -> 0 <= k < n -> decodes h d i (a + j) l x -> decodes h d' i (a + k) l x -> j = k) in
  (words <> [] -> ok (4 * zlen words) -> Forall (fun w => 0 <= w < 2 ^ 32) words ->
     exists h', if_write_dwords lim h i a words bo = (h', Ok tt) /\
       if_read_dwords lim h' i a (zlen words) bo = (h', Ok words)) /\
  (words <> [] -> ok (8 * zlen words) -> Forall (fun w => 0 <= w < 2 ^ 64) words ->
     exists h', if_write_qwords lim h i a words bo = (h', Ok tt) /\
       if_read_qwords lim h' i a (zlen words) bo = (h', Ok words)) /\
  (0 < ws -> ok ws -> 0 <= w < 256 ^ ws ->
     exists h' bs, if_write_word lim h i a w bo ws = (h', Ok tt) /\
       wr_obj lim h i a (PBytes bs) = (h', Ok tt) /\ zlen bs = ws /\
       if_read_word lim h' i a bo ws = (h', Ok w)).
Proof.
  intros lim h i a words w bo ws HR HC HL ok. pose proof (a_reach_hok _ HR) as Hok. split; [|split].
  - intros Hne HO HF. destruct (words_roundtrip lim h i a words bo 4 Hok HC HL) as (h' & H1 & H2 & _); auto; try lia.
    exists h'. auto.
  - intros Hne HO HF. destruct (words_roundtrip lim h i a words bo 8 Hok HC HL) as (h' & H1 & H2 & _); auto; try lia.
    exists h'. auto.
  - intros Hws HO Hw.
    assert (HF : Forall (fun w => 0 <= w < 256 ^ ws) [w]) by (constructor; auto).
    destruct (words_to_bytes_ok ws bo [w] ltac:(lia) HF) as (bs & Hbs & Hl & _). change (zlen [w]) with 1 in Hl.
    destruct (words_roundtrip lim h i a [w] bo ws Hok HC HL) as (h' & H1 & H2 & _); auto; try discriminate.
    { change (zlen [w]) with 1. rewrite Z.mul_1_r. exact HO. }
    exists h', bs. unfold if_write_word. split; auto. split.
    { unfold if_write_words in H1. now rewrite Hbs in H1. }
    split; [lia|]. unfold if_read_word. change (zlen [w]) with 1 in H2. rewrite H2. reflexivity.
Qed.
Print Assumptions C17_word_variants_partial.

Example C17_nontrivial :
  let h := fst (if_write_dwords 20 ex_heap 0 6 [16909060; 84281096] Big) in
  if_read_dwords 20 h 0 6 2 Big = (h, Ok [16909060; 84281096]) /\
  snd (if_read_words 20 h 0 6 8 Little 1) = Ok [1; 2; 3; 4; 5; 6; 7; 8] /\
  snd (if_read_word 20 (fst (if_write_word 20 ex_heap 0 6 258 Big 2)) 0 6 Little 2) = Ok 513 /\
  snd (if_read_qwords 20 h 0 6 1 Big) = Ok [72623859790382856].
Proof. vm_compute. auto. Qed.

(** C17: read_byte never returns; write_byte never works on a MemoryRegion but does on a sparse one. *)
Theorem C17_read_byte_refuted : forall lim h i a b, snd (if_read_byte lim h i a) <> Ok b.
Proof.
  intros. unfold if_read_byte. destruct (rd_obj lim h i a 1) as [h1 [d|e]]; discriminate.
Qed.
Print Assumptions C17_read_byte_refuted.

Theorem C17_write_byte_memory_refuted : forall lim h i o mem a b,
  hget h i = Some o -> o_kind o = KMem mem -> 0 <= a < o_size o ->
  if_write_byte (S lim) h i a b = (h, Err TypeError).
Proof.
  intros lim h i o mem a b Hi Hk Ha. unfold if_write_byte. cbn [wr_obj pd_list]. rewrite Hi, Hk.
  change (zlen [b]) with 1. replace (range_ok (o_size o) a 1) with true by (symmetry; apply range_ok_spec; lia).
  reflexivity.
Qed.
Print Assumptions C17_write_byte_memory_refuted.

Example C17_bytes_nontrivial :
  snd (if_write_byte 20 ex_heap 0 3 7) = Err TypeError /\ snd (if_read_byte 20 ex_heap 0 3) = Err AttributeError /\
  snd (if_write_byte 20 ex_heap 0 9 7) = Ok tt /\
  snd (rd_obj 20 (fst (if_write_byte 20 ex_heap 0 9 7)) 0 9 1) = Ok [7].
Proof. vm_compute. auto. Qed.

(** C18: a coroutine-based object is called exactly once per access, and its answer is passed on
    (save TypeError of a write, below). *)
Theorem C18_async_once_partial : forall lim h i o p a,
  hget h i = Some o -> o_kind o = KPeriph p -> p_async p = true ->
  (forall n, 0 <= a < o_size o -> 0 <= n -> a + n <= o_size o ->
     rd_obj (S lim) h i a n =
       (hset h i (set_kind o (KPeriph (Periph true (p_rd p) (p_wr p) (p_log p ++ [PRead a n])))),
        p_rd p (p_log p) a n)) /\
  (forall d, 0 <= a < o_size o -> a + zlen (pd_list d) <= o_size o ->
     p_wr p (p_log p) a (pd_list d) <> Err TypeError ->
     wr_obj (S lim) h i a d =
       (hset h i (set_kind o (KPeriph (Periph true (p_rd p) (p_wr p) (p_log p ++ [PWrite a (pd_list d)])))),
        p_wr p (p_log p) a (pd_list d))) /\
  (forall n, ~ (0 <= a < o_size o /\ 0 <= n /\ a + n <= o_size o) ->
     rd_obj (S lim) h i a n = (h, Err ValueError)).
Proof.
  intros lim h i o p a Hi Hk Hp. destruct p as [as_ f g log]. cbn [p_async p_rd p_wr p_log] in *. subst as_.
  split; [|split].
  - intros n Ha Hn Hf. cbn [rd_obj]. rewrite Hi, Hk.
    replace (range_ok (o_size o) a n) with true by (symmetry; apply range_ok_spec; lia). reflexivity.
  - intros d Ha Hf HT. cbn [wr_obj]. rewrite Hi, Hk. pose proof (zlen_nonneg (pd_list d)).
    replace (range_ok (o_size o) a (zlen (pd_list d))) with true by (symmetry; apply range_ok_spec; lia).
    cbn [negb]. unfold per_write. cbn [p_async p_rd p_wr p_log].
    destruct (g log a (pd_list d)) as [u|[]]; congruence.
  - intros n Hn. cbn [rd_obj]. rewrite Hi, Hk. pose proof (range_ok_spec (o_size o) a n) as HS.
    destruct (range_ok (o_size o) a n); [exfalso; apply Hn, HS; reflexivity|reflexivity].
Qed.
Print Assumptions C18_async_once_partial.

(** C18 is false for synchronous objects: every access that does not raise calls the object twice,
    and the answer is that of the second call. *)
Theorem C18_sync_twice_refuted : forall lim h i o p a,
  hget h i = Some o -> o_kind o = KPeriph p -> p_async p = false ->
  (forall n d1, 0 <= a < o_size o -> 0 <= n -> a + n <= o_size o -> p_rd p (p_log p) a n = Ok d1 ->
     rd_obj (S lim) h i a n =
       (hset h i (set_kind o (KPeriph (Periph false (p_rd p) (p_wr p) (p_log p ++ [PRead a n; PRead a n])))),
        p_rd p (p_log p ++ [PRead a n]) a n)) /\
  (forall d, 0 <= a < o_size o -> a + zlen (pd_list d) <= o_size o -> p_wr p (p_log p) a (pd_list d) = Ok tt ->
     wr_obj (S lim) h i a d =
       (hset h i (set_kind o (KPeriph (Periph false (p_rd p) (p_wr p)
                    (p_log p ++ [PWrite a (pd_list d); PWrite a (pd_list d)])))),
        p_wr p (p_log p ++ [PWrite a (pd_list d)]) a (pd_list d))).
Proof.
  intros lim h i o p a Hi Hk Hp. destruct p as [as_ f g log]. cbn [p_async p_rd p_wr p_log] in *. subst as_.
  split.
  - intros n d1 Ha Hn Hf E. cbn [rd_obj]. rewrite Hi, Hk.
    replace (range_ok (o_size o) a n) with true by (symmetry; apply range_ok_spec; lia). cbn [negb].
    unfold per_read. cbn [p_async p_rd p_wr p_log]. rewrite E, <- app_assoc. reflexivity.
  - intros d Ha Hf E. cbn [wr_obj]. rewrite Hi, Hk. pose proof (zlen_nonneg (pd_list d)).
    replace (range_ok (o_size o) a (zlen (pd_list d))) with true by (symmetry; apply range_ok_spec; lia).
    cbn [negb]. unfold per_write. cbn [p_async p_rd p_wr p_log]. rewrite E, <- app_assoc. reflexivity.
Qed.
Print Assumptions C18_sync_twice_refuted.

(** C18: a TypeError raised by a coroutine-based write is swallowed: the write reports success. *)
Theorem C18_async_typeerror_refuted : forall lim h i o p a d,
  hget h i = Some o -> o_kind o = KPeriph p -> p_async p = true ->
  0 <= a < o_size o -> a + zlen (pd_list d) <= o_size o -> p_wr p (p_log p) a (pd_list d) = Err TypeError ->
  snd (wr_obj (S lim) h i a d) = Ok tt.
Proof.
  intros lim h i o p a d Hi Hk Hp Ha Hf E. destruct p as [as_ f g log]. cbn [p_async p_rd p_wr p_log] in *. subst as_.
  cbn [wr_obj]. rewrite Hi, Hk. pose proof (zlen_nonneg (pd_list d)).
  replace (range_ok (o_size o) a (zlen (pd_list d))) with true by (symmetry; apply range_ok_spec; lia).
  cbn [negb]. unfold per_write. cbn [p_async p_rd p_wr p_log]. rewrite E. reflexivity.
Qed.
Print Assumptions C18_async_typeerror_refuted.

(** a peripheral that counts its reads, asynchronous (object 0) and synchronous (object 1) *)
Example C18_nontrivial :
  let f := fun (log : list pcall) (_ n : Z) => Ok (map (fun _ => zlen log) (zrange 0 n)) in
  let g := fun (_ : list pcall) (_ : Z) (_ : list Z) => Ok tt in
  let h := fst (a_run 20 [] [ANewPeriph true f g 16; ANewPeriph false f g 16]) in
  map snd [rd_obj 20 h 0 3 2; rd_obj 20 (fst (rd_obj 20 h 0 3 2)) 0 3 2;
           rd_obj 20 h 1 3 2; rd_obj 20 (fst (rd_obj 20 h 1 3 2)) 1 3 2]
  = [Ok [0; 0]; Ok [1; 1]; Ok [1; 1]; Ok [3; 3]].
Proof. vm_compute. reflexivity. Qed.

(** C19 is false: a region may be registered across the end of the space and is then readable
    beyond it. *)
Theorem C19_beyond_end_refuted :
  exists ops h o a n d, h = fst (a_run 20 [] ops) /\ hget h 0 = Some o /\ o_size o < a + n /\
    ops = [ANewSpace 16; ANewMem 16; ARegister 0 1 8 None (Some 0)] /\
    rd_obj 20 h 0 a n = (h, Ok d) /\ exists h', wr_obj 20 h 0 a (PBytes d) = (h', Ok tt).
Proof.
  exists [ANewSpace 16; ANewMem 16; ARegister 0 1 8 None (Some 0)].
  eexists. eexists. exists 12, 8. eexists. split; [vm_compute; reflexivity|]. split; [vm_compute; reflexivity|].
  split; [cbn; lia|]. split; [reflexivity|]. split; [vm_compute; reflexivity|].
  eexists. vm_compute. reflexivity.
Qed.
Print Assumptions C19_beyond_end_refuted.

(** C19, what does hold: accesses starting outside, and, if the regions of the space are inside it,
    all non-empty accesses not contained in the space, raise and change nothing outside the
    locations before its end. *)
Theorem C19_beyond_end_partial : forall lim h i o regions al a,
  a_reach h -> lawful h -> hget h i = Some o -> o_kind o = KSpace regions al ->
  (~ 0 <= a < o_size o ->
     (forall n, rd_obj (S lim) h i a n = (h, Err ValueError)) /\
     (forall d, wr_obj (S lim) h i a d = (h, Err ValueError))) /\
  ((forall e, In e regions -> e_base e + e_size e <= o_size o) ->
     (forall n, o_size o < a + n -> 0 < n -> exists e, snd (rd_obj (S lim) h i a n) = Err e) /\
     (forall d, are_bytes (pd_list d) -> o_size o < a + zlen (pd_list d) -> 0 < zlen (pd_list d) ->
        exists e, snd (wr_obj (S lim) h i a d) = Err e)).
Proof.
  intros lim h i o regs al a HR HL Hi Hk. split.
  - intros Ha. split; intros x; cbn [rd_obj wr_obj]; rewrite Hi, Hk; unfold find_regions;
      replace ((a <? 0) || (o_size o <=? a)) with true by lia; reflexivity.
  - intros HC.
    assert (HU : forall b, o_size o <= b -> forall d l x, ~ decodes h d i b l x).
    { intros b Hb d l x D. inversion D as [? ? o' Hi' Hl|? ? ? o' ? ? ? ? ? Hi' Hk'|? ? ? o' regs' ? e ? ? Hi' Hk' He Hc]; subst;
        rewrite Hi in Hi'; inversion Hi'; subst o'.
      - rewrite Hk in Hl. exact Hl.
      - congruence.
      - rewrite Hk in Hk'. inversion Hk'; subst. specialize (HC _ He). unfold covers in Hc. lia. }
    split.
    + intros n H Hn. apply (C11_unmapped_read_raises (S lim) h i a n (n - 1)); auto; [lia|]. apply HU. lia.
    + intros d Hb H Hn. destruct (wr_obj (S lim) h i a d) as [h' [[]|e]] eqn:E; [|eexists; reflexivity].
      exfalso. destruct (C12_write_exact _ _ _ _ _ _ HR Hb E) as (locs & Hl & HD & _).
      destruct (HD (zlen (pd_list d) - 1)) as (k & D); [unfold zlen in *; lia|].
      revert D. apply HU. lia.
Qed.
Print Assumptions C19_beyond_end_partial.

Example C19_nontrivial :
  snd (rd_obj 20 ex_heap 0 64 0) = Err ValueError /\ snd (rd_obj 20 ex_heap 0 (-1) 4) = Err ValueError /\
  snd (rd_obj 20 ex_heap 3 22 4) = Err Plain /\ snd (rd_obj 20 ex_heap 3 22 2) = Ok [0; 0].
Proof. vm_compute. auto. Qed.
