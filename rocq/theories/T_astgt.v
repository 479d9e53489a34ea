(** C71: an address space (or any object of it) as the target of AxiSlave, AxiLiteSlave and ApbSlave. *)
From Coq Require Import ZArith Lia List Bool.
From Coq Require Import ZifyBool ZifyNat.
From Verif Require Import Py S_flat M_sparse S_sparse P_sparse M_memory P_memory M_buddy S_buddy P_buddy
  M_aspace S_aspace P_aspace P_aspacew P_aspacec P_aspaceh P_aspacep P_aspacer T_aspace
  M_axi S_axi P_axi P_axislave P_axiop P_axicomp P_axiram M_axisframe P_axisframe M_axil S_axil P_axil
  M_liteeng S_liteeng P_liteeng M_axieng S_axieng P_axieng P_axiattr T_axieng M_sys S_sys P_sys P_syswr P_sysrd T_sys T_sysrd
  M_litesys S_litesys P_litesys P_litewr P_literd T_litesys M_axisys S_axisys P_sysram T_sysram M_literw S_literw P_literw T_literw
  M_apb S_apb P_apb P_apbsys P_apbmem T_apb M_astgt S_astgt P_astgt P_astsys.
Import ListNotations.
Open Scope Z_scope.

(** ** the memory cells behind the addresses *)
(** [locate] is the function of the relation [decodes] (C10-C15). *)
Theorem C71_locate : forall lim h i a l x, a_reach h ->
  locate lim h i a = Some (l, x) <-> exists d, decodes h d i a l x /\ (d <= lim)%nat.
Proof.
  intros lim h i a l x HR. pose proof (a_reach_hok _ HR) as Hok. split; [apply locate_sound|]. intros (d & D & Hd). eapply locate_complete; eauto.
Qed.
Print Assumptions C71_locate.

(** Two mapped addresses have the same cell exactly if they are the same byte of the same memory; the cell holds the byte that a read
    of one byte at the address returns. *)
Theorem C71_cells : forall lim h i a j b, space_ok h -> mapped lim h i a -> mapped lim h j b ->
  (cell_of (Nof h) lim h i a = cell_of (Nof h) lim h j b <-> exists d d' l x, decodes h d i a l x /\ decodes h d' j b l x) /\
  snd (as_read lim i h a 1) = Ok [cells (Nof h) h (cell_of (Nof h) lim h i a)].
Proof.
  intros lim h i a j b (HR & HC & HL & HB) Ha Hb. pose proof (a_reach_hok _ HR) as Hok. split.
  - pose proof Ha as (d & l & x & D & Hd & _). pose proof Hb as (d' & l' & x' & D' & Hd' & _).
    unfold cell_of. rewrite (locate_complete h d i a l x Hok D lim Hd), (locate_complete h d' j b l' x' Hok D' lim Hd'). split.
    + intros E. apply cell_inj in E as [<- <-]; [eauto 6| |]; unfold Nof; [apply decodes_lt in D|apply decodes_lt in D']; lia.
    + intros (e & e' & m & y & E & E'). destruct (decodes_unique _ _ _ _ _ _ Hok D _ _ _ E) as (_ & -> & ->).
      destruct (decodes_unique _ _ _ _ _ _ Hok D' _ _ _ E') as (_ & -> & ->). reflexivity.
  - destruct (as_read_mapped lim i h Hok h a 1) as (h' & E & _); [exact (conj Hok (conj HC (conj HL (conj eq_refl HB))))|lia| |].
    + intros x Hx. now replace x with a by lia.
    + rewrite E. cbn [snd]. unfold zrange. replace (a + 1 - a) with 1 by lia. reflexivity.
Qed.
Print Assumptions C71_cells.

(** ** ranges without holes *)
(** A range of an object in which every address is a byte of a memory is byte memory for the masters and slaves: every theorem about such
    targets (C20, C24, C33, C35, C52, C54-C58, C69) holds for it.  Peripherals elsewhere in the heap are not disturbed: [inv] includes the structure of the heap. *)
Theorem C71_space_is_memory : forall lim i h0 L lo hi, space_ok h0 -> 0 < L -> (forall x, lo <= x < hi -> mapped lim h0 i x) ->
  exists inv : heap -> Prop, inv h0 /\ (forall h, inv h -> length h = length h0 /\ forall d j a l x, decodes h d j a l x <-> decodes h0 d j a l x) /\
    flat_target L lo hi (cell_of (Nof h0) lim h0 i) inv (cells (Nof h0)) (as_write lim i) (as_read lim i).
Proof.
  intros lim i h0 L lo hi (HR & HC & HLw & HB) HL HM. pose proof (a_reach_hok _ HR) as Hok. exists (as_inv h0). split; [exact (conj Hok (conj HC (conj HLw (conj eq_refl HB))))|]. split.
  - intros h (K1 & K2 & K3 & K4 & K5). split; [now apply skel_len|]. intros d j a l x. split; apply decodes_skel; auto.
  - now apply aspace_flat.
Qed.
Print Assumptions C71_space_is_memory.

(** AXI: a read started when all writes touching its memory cells (through whatever addresses) were completed returns the bytes written. *)
Corollary C71_axi_read_after_write : forall lim i h0 L lo hi, space_ok h0 -> 0 < L -> lo mod L = 0 -> hi mod L = 0 ->
  (forall x, lo <= x < hi -> mapped lim h0 i x) ->
  forall c widn ridn h1 h2, m_lanes c = L -> 0 < widn -> 0 < ridn -> Forall a_nopoke (h1 ++ h2) ->
  let phi := cell_of (Nof h0) lim h0 i in
  let '(z1, l1) := rw_run c widn ridn (as_write lim i) (as_read lim i) (rw_init h0) h1 in
  let '(z, l2) := rw_run c widn ridn (as_write lim i) (as_read lim i) z1 h2 in
  let l := l1 ++ l2 in let W := writes_of widn l in let R := reads_of ridn l in
  Forall (write_in L lo hi) W -> Forall (read_in L lo hi) R ->
  exists rrss, length rrss = length R /\
    (forall u, exists k, (k <= length (with_tag u R))%nat /\
       completed_on u (r_outs l) = combine (firstn k (with_tag u R)) (firstn k (on_tag u R rrss))) /\
    forall j o u, nth_error R j = Some (o, u) -> (length (reads_of ridn l1) <= j)%nat ->
      (forall i p, nth_error W i = Some p ->
         ((i < length (writes_of widn l1))%nat /\ done_at (writes_of widn l1) (w_outs l1) i (snd p)) \/ ~ touches phi p o) ->
      exists rs, nth_error rrss j = Some rs /\
        read_returns c o u rs = Some (map (fun x => put phi (cells (Nof h0) h0) (op_bytes_of W) (phi x)) (zrange (rc_addr (snd o)) (rc_addr (snd o) + rc_len (snd o))), OKAY).
Proof.
  intros lim i h0 L lo hi (HR & HC & HLw & HB) HL Hlo Hhi HM c widn ridn h1 h2 Hc Hw Hr Hn phi.
  exact (C55_read_after_write heap L lo hi phi (as_inv h0) (cells (Nof h0)) (as_write lim i) (as_read lim i)
    (aspace_flat lim i h0 (a_reach_hok _ HR) L lo hi HL HM) HL Hlo Hhi c widn ridn h0 h1 h2 Hc Hw Hr
    (conj (a_reach_hok _ HR) (conj HC (conj HLw (conj eq_refl HB)))) Hn).
Qed.
Print Assumptions C71_axi_read_after_write.

(** AXI-Lite *)
Corollary C71_lite_read_after_write : forall lim i h0 L lo hi, space_ok h0 -> 0 < L -> lo mod L = 0 -> hi mod L = 0 ->
  (forall x, lo <= x < hi -> mapped lim h0 i x) ->
  forall h1 h2, Forall lx_nopoke (h1 ++ h2) ->
  let phi := cell_of (Nof h0) lim h0 i in
  let '(z1, l1) := lrw_run L (as_write lim i) (as_read lim i) (lrw_init h0) h1 in
  let '(z, l2) := lrw_run L (as_write lim i) (as_read lim i) z1 h2 in
  let l := l1 ++ l2 in let W := lwrites_of l in let R := lreads_of l in
  Forall (lwrite_in lo hi) W -> Forall (lread_in lo hi) R ->
  forall j o rs, nth_error (completed (lr_outs l)) j = Some (o, rs) -> (length (lreads_of l1) <= j)%nat ->
    (forall i p, nth_error W i = Some p -> (i < length (completed (lw_outs l1)))%nat \/ ~ ltouches phi p o) ->
    lite_read_resp L (snd o) rs =
      (map (fun x => put phi (cells (Nof h0) h0) (lite_op_bytes W) (phi x)) (zrange (lr_addr (snd o)) (lr_addr (snd o) + lr_len (snd o))), OKAY).
Proof.
  intros lim i h0 L lo hi (HR & HC & HLw & HB) HL Hlo Hhi HM h1 h2 Hn phi.
  exact (C58_read_after_write heap L lo hi phi (as_inv h0) (cells (Nof h0)) (as_write lim i) (as_read lim i)
    (aspace_flat lim i h0 (a_reach_hok _ HR) L lo hi HL HM) HL Hlo Hhi h0 h1 h2
    (conj (a_reach_hok _ HR) (conj HC (conj HLw (conj eq_refl HB)))) Hn).
Qed.
Print Assumptions C71_lite_read_after_write.

(** ** ranges with holes *)
Section Generic.
Context {T : Type}.
Variables (L lo hi : Z) (mp : Z -> bool) (phi : Z -> Z) (inv : T -> Prop) (view : T -> flat).
Variable tw : T -> Z -> list Z -> T * res unit.
Variable tr : T -> Z -> Z -> T * res (list Z).
Hypothesis Hpt : part_target L lo hi mp phi inv view tw tr.
Hypothesis HL : 0 < L.
Hypothesis Hmp : of_words L mp.

Lemma kept_app a b : kept mp (a ++ b) = kept mp a ++ kept mp b.
Proof. unfold kept. apply filter_app. Qed.

Lemma resp_eq A n (b : bool) : b = negb (forallb mp (zrange A (A + n))) -> (if b then SLVERR else OKAY) = part_resp mp A n.
Proof. intros ->. unfold part_resp. now destruct (forallb _ _). Qed.

Lemma part_write c idn t0 h : m_lanes c = L -> 0 < idn -> inv t0 -> Forall no_poke h ->
  let '(y, l) := wsys_run c idn (log_write tw) L true (t0, []) h in
  let A := assigned op_id idn 0 (xstarted l) in
  Forall (fun p => write_legal L (fst p) /\ lo <= wc_addr (snd (fst p)) /\ wc_addr (snd (fst p)) + zlen (wc_data (snd (fst p))) <= hi) A ->
  exists rss bytes,
    Forall2 (fun p rs => Forall (fun b => b_id b = snd p) rs /\
       write_returns c (fst p) (snd p) rs = Some (part_resp mp (wc_addr (snd (fst p))) (zlen (wc_data (snd (fst p)))))) A rss /\
    is_prefix bytes (kept mp (op_bytes_of A)) /\
    view (fst (ws_target (y_s y))) =f put phi (view t0) bytes /\
    (forall u, exists k, (k <= length (with_tag u A))%nat /\
       completed_on u l = combine (firstn k (with_tag u A)) (firstn k (on_tag u A rss))) /\
    (forall i o u, nth_error A i = Some (o, u) -> wc_data (snd o) <> [] ->
       (length (with_tag u (firstn i A)) < length (completed_on u l))%nat ->
       is_prefix (kept mp (op_bytes_of (firstn (S i) A))) bytes) /\
    (quiescent (wsys_step c idn (log_write tw) L true) y ->
       bytes = kept mp (op_bytes_of A) /\ e_pend (y_m y) = [] /\
       forall u, completed_on u l = combine (with_tag u A) (on_tag u A rss)).
Proof.
  intros Hc Hi Ht Hh. pose proof (C52_write_system T tw c idn t0 h Hi Hh) as M. rewrite Hc in M.
  destruct (wsys_run c idn (log_write tw) L true (t0, []) h) as [y l]. cbv zeta in *.
  set (A := assigned op_id idn 0 (xstarted l)) in *. destruct (ws_target (y_s y)) as [t log]. intros HA.
  assert (HA1 : Forall (fun p => write_legal L (fst p)) A) by (eapply Forall_impl; [|exact HA]; intros p (H & _); exact H).
  destruct (M HA1) as (_ & _ & ex & tN & HF & [more Hpre] & Hrep & HrepN & Hcomp & Hdone & Hq).
  pose proof (written_ok _ _ _ HF) as Hcok. rewrite Hc in Hcok. pose proof (written_range c lo hi _ _ HF) as Hrg.
  assert (HA2 : Forall (fun p : wop * Z => lo <= wc_addr (snd (fst p)) /\ wc_addr (snd (fst p)) + zlen (wc_data (snd (fst p))) <= hi) A)
    by (eapply Forall_impl; [|exact HA]; intros p (_ & H); exact H).
  specialize (Hrg HA2).
  destruct (replays_part L lo hi mp phi inv view tw tr Hpt HL Hmp _ _ _ Ht Hcok Hrg HrepN) as (Fall & _ & _).
  assert (HX : forall B e, Forall2 (written c) B e -> Forall (fun e => failed e = negb (mp (fst (fst e)))) (concat (map snd e)) ->
    kept mp (calls_bytes (concat (map snd e))) = kept mp (op_bytes_of B) /\
    Forall2 (fun p rs => Forall (fun b => b_id b = snd p) rs /\
       write_returns c (fst p) (snd p) rs = Some (part_resp mp (wc_addr (snd (fst p))) (zlen (wc_data (snd (fst p)))))) B (map fst e)).
  { induction 1 as [|[o u] [rs cs] B e (W1 & W2 & W3 & W4 & W5 & W6) HB IH]; intros HF0; [split; constructor|].
    cbn [map concat snd fst] in *. apply Forall_app in HF0 as [F1 F2]. destruct (IH F2) as [I1 I2]. rewrite Hc in W3, W6.
    destruct (op_part L mp HL Hmp _ _ cs F1 W3 W4 W5 W6) as [P1 P2]. split.
    - rewrite calls_bytes_app. unfold op_bytes_of. cbn [flat_map]. rewrite !kept_app. f_equal; auto.
    - constructor; auto. cbn [fst snd]. split; auto. rewrite W2. f_equal. now apply resp_eq. }
  assert (Hcok1 : Forall (call_ok L) log) by (rewrite Hpre in Hcok; now apply Forall_app in Hcok).
  assert (Hrg1 : Forall (fun p => lo <= fst p < hi) (calls_bytes log)) by (rewrite Hpre, calls_bytes_app in Hrg; now apply Forall_app in Hrg).
  destruct (replays_part L lo hi mp phi inv view tw tr Hpt HL Hmp _ _ _ Ht Hcok1 Hrg1 Hrep) as (_ & _ & Hv).
  assert (Hlen : length ex = length A) by (clear - HF; induction HF; cbn; congruence).
  assert (Hon : forall u, on_tag u A (map fst ex) = map fst (on_tag u A ex)) by (intros u; rewrite <- combine_on_tag by auto; reflexivity).
  destruct (HX A ex HF Fall) as [X1 X2].
  exists (map fst ex), (kept mp (calls_bytes log)). split; [exact X2|].
  split; [exists (kept mp (calls_bytes more)); rewrite <- kept_app, <- calls_bytes_app, <- Hpre; symmetry; exact X1|].
  split; [exact Hv|]. split; [intros u; rewrite Hon; apply Hcomp|]. split.
  - intros i o u Hn Hd Hk. destruct (Hdone i o u Hn Hd Hk) as [z Hz]. exists (kept mp (calls_bytes z)). rewrite Hz, calls_bytes_app, kept_app. f_equal.
    apply (HX (firstn (S i) A) (firstn (S i) ex)); [now apply forall2_firstn|].
    rewrite <- (firstn_skipn (S i) ex), map_app, concat_app in Fall. now apply Forall_app in Fall.
  - intros Hqq. destruct (Hq Hqq) as (-> & Hpe & Hall). split; [exact X1|]. split; [exact Hpe|]. intros u. rewrite Hon. apply Hall.
Qed.

Lemma part_read c idn t0 h : lo mod L = 0 -> hi mod L = 0 -> m_lanes c = L -> 0 < idn -> inv t0 -> Forall no_poke h ->
  let '(y, l) := rsys_run c idn (log_read tr) L (t0, []) h in
  let A := assigned op_id idn 0 (xstarted l) in
  Forall (fun p => read_legal L (fst p) /\ 0 < rc_len (snd (fst p)) /\ lo <= rc_addr (snd (fst p)) /\ rc_addr (snd (fst p)) + rc_len (snd (fst p)) <= hi) A ->
  exists rss,
    Forall2 (fun p rs => Forall (fun r => r_id r = snd p) rs /\ read_returns c (fst p) (snd p) rs =
       Some (part_data mp phi (view t0) (rc_addr (snd (fst p))) (rc_len (snd (fst p))), part_resp mp (rc_addr (snd (fst p))) (rc_len (snd (fst p))))) A rss /\
    (forall u, exists k, (k <= length (with_tag u A))%nat /\
       completed_on u l = combine (firstn k (with_tag u A)) (firstn k (on_tag u A rss))) /\
    (quiescent (rsys_step c idn (log_read tr) L) y -> e_pend (y_m y) = [] /\
       forall u, completed_on u l = combine (with_tag u A) (on_tag u A rss)).
Proof.
  intros Hlo Hhi Hc Hi Ht Hh. pose proof (C54_read_calls T tr c idn t0 h Hi Hh) as M. rewrite Hc in M.
  destruct (rsys_run c idn (log_read tr) L (t0, []) h) as [y l]. cbv zeta in *.
  set (A := assigned op_id idn 0 (xstarted l)) in *. destruct (rs_target (y_s y)) as [t log]. intros HA.
  assert (HA1 : Forall (fun p => read_legal L (fst p)) A) by (eapply Forall_impl; [|exact HA]; intros p (H & _); exact H).
  destruct (M HA1) as (_ & ex & tN & HF & _ & HrepN & Hcomp & Hq).
  assert (Hrg : Forall (fun e : rcall => lo <= fst (fst e) /\ fst (fst e) + L <= hi /\ fst (fst e) mod L = 0 /\ snd (fst e) = L) (concat (map snd ex))).
  { clear - HF HA Hlo Hhi Hc. induction HF as [|[o u] [rs cs] A ex (_ & H & _) HF IH]; [constructor|]. cbn [map concat snd]. inversion HA as [|? ? (H1 & H2 & H3 & H4) HR']; subst.
    apply Forall_app. split; [|auto]. cbn [fst snd] in *. destruct H1 as (HG & _ & HA0 & Hl).
    pose proof (read_calls_range _ (snd o) lo hi HG HA0 Hl Hlo Hhi ltac:(lia) H4) as K. rewrite <- H, Forall_map in K. exact K. }
  destruct (rreplays_part L lo hi mp phi inv view tw tr Hpt HL Hmp _ _ _ Ht Hrg HrepN) as (HW & _ & _).
  assert (Hlen : length ex = length A) by (clear - HF; induction HF; cbn; congruence).
  assert (Hon : forall u, on_tag u A (map fst ex) = map fst (on_tag u A ex)) by (intros u; rewrite <- combine_on_tag by auto; reflexivity).
  exists (map fst ex). split; [|split].
  - clear - HF HA HW HL Hmp Hc. induction HF as [|[o u] [rs cs] A ex (X1 & X2 & X3) HF IH]; [constructor|]. cbn [map concat snd fst] in *.
    inversion HA as [|? ? (H1 & H2 & H3 & H4) HR']; subst. apply Forall_app in HW as [HW1 HW2].
    constructor; [|auto]. cbn [fst snd] in *. split; [exact X1|]. destruct H1 as (HG & _ & HA0 & Hl).
    destruct (part_reads (m_lanes c) mp phi HL Hmp (view t0) cs (read_calls (m_lanes c) (snd o)) (fun x => x / 2 ^ rc_size (snd o) - rc_addr (snd o) / 2 ^ rc_size (snd o))
      (rc_addr (snd o)) (rc_len (snd o)) X2 HW1) as (P1 & P2 & P3).
    { intros x Hx. split; [|now apply read_calls_nth]. assert (0 < 2 ^ rc_size (snd o)) by (destruct (bus_ok_facts _ _ HG) as (q & p & Hnb & _); exact Hnb).
      assert (rc_addr (snd o) / 2 ^ rc_size (snd o) <= x / 2 ^ rc_size (snd o)) by (apply Z.div_le_mono; lia). lia. }
    { intros e He. now apply read_calls_touch. }
    rewrite (X3 P1), P3. f_equal. f_equal. now apply resp_eq.
  - intros u. rewrite Hon. apply Hcomp.
  - intros Hqq. destruct (Hq Hqq) as (_ & Hpe & Hall). split; [exact Hpe|]. intros u. rewrite Hon. apply Hall.
Qed.

Lemma part_lwrite t0 h : inv t0 -> Forall uno_poke h ->
  let '(y, l) := lwsys_run L (log_write tw) true (t0, []) h in
  let A := started l in
  Forall (fun o => lite_write_legal o /\ lo <= lc_addr (snd o) /\ lc_addr (snd o) + zlen (lc_data (snd o)) <= hi) A ->
  exists k bytes, (k <= length A)%nat /\ map fst (completed l) = firstn k A /\
    Forall (fun d => lite_write_resp (snd d) = part_resp mp (lc_addr (snd (fst d))) (zlen (lc_data (snd (fst d))))) (completed l) /\
    is_prefix bytes (kept mp (lite_op_bytes A)) /\ is_prefix (kept mp (lite_op_bytes (firstn k A))) bytes /\
    view (fst (lws_target (u_s y))) =f put phi (view t0) bytes /\
    (uquiescent (lwsys_step L (log_write tw) true) y ->
       bytes = kept mp (lite_op_bytes A) /\ g_pend (u_m y) = [] /\ map fst (completed l) = A).
Proof.
  intros Ht Hh. pose proof (C56_lite_write_calls T tw L t0 h HL Hh) as M.
  destruct (lwsys_run L (log_write tw) true (t0, []) h) as [y l]. cbv zeta in *.
  set (A := started l) in *. destruct (lws_target (u_s y)) as [t log]. intros HA.
  assert (HA1 : Forall lite_write_legal A) by (eapply Forall_impl; [|exact HA]; intros p (H & _); exact H).
  destruct (M HA1) as (ex & tN & HF & [more Hpre] & Hrep & HrepN & (k & Hk & Hcomp & Hdone) & Hq).
  pose proof (lwritten_ok _ _ _ HF) as Hcok. pose proof (lwritten_range L lo hi _ _ HF) as Hrg.
  assert (HA2 : Forall (fun o : Z * lwcmd => lo <= lc_addr (snd o) /\ lc_addr (snd o) + zlen (lc_data (snd o)) <= hi) A)
    by (eapply Forall_impl; [|exact HA]; intros p (_ & H); exact H).
  specialize (Hrg HA2).
  destruct (replays_part L lo hi mp phi inv view tw tr Hpt HL Hmp _ _ _ Ht Hcok Hrg HrepN) as (Fall & _ & _).
  assert (HX : forall B e, Forall2 (lite_written L) B e -> Forall (fun e => failed e = negb (mp (fst (fst e)))) (concat (map snd e)) ->
    kept mp (calls_bytes (concat (map snd e))) = kept mp (lite_op_bytes B) /\
    Forall2 (fun o rs => lite_write_resp rs = part_resp mp (lc_addr (snd o)) (zlen (lc_data (snd o)))) B (map fst e)).
  { induction 1 as [|o [rs cs] B e (W2 & W3 & W4 & W5 & W6) HB IH]; intros HF0; [split; constructor|].
    cbn [map concat snd fst] in *. apply Forall_app in HF0 as [F1 F2]. destruct (IH F2) as [I1 I2].
    destruct (op_part L mp HL Hmp _ _ cs F1 W3 W4 W5 W6) as [P1 P2]. split.
    - rewrite calls_bytes_app. unfold lite_op_bytes. cbn [flat_map]. rewrite !kept_app. f_equal; auto.
    - constructor; auto. rewrite W2. now apply resp_eq. }
  assert (Hcok1 : Forall (call_ok L) log) by (rewrite Hpre in Hcok; now apply Forall_app in Hcok).
  assert (Hrg1 : Forall (fun p => lo <= fst p < hi) (calls_bytes log)) by (rewrite Hpre, calls_bytes_app in Hrg; now apply Forall_app in Hrg).
  destruct (replays_part L lo hi mp phi inv view tw tr Hpt HL Hmp _ _ _ Ht Hcok1 Hrg1 Hrep) as (_ & _ & Hv).
  assert (Hlen : length ex = length A) by (clear - HF; induction HF; cbn; congruence).
  assert (Hfst : forall (a : list (Z * lwcmd)) (b : list (list resp_t)), length b = length a -> map fst (combine a b) = a).
  { induction a as [|x a IH]; intros [|z b] E; try discriminate; cbn; [reflexivity|]. now rewrite IH by (injection E; auto). }
  destruct (HX A ex HF Fall) as [X1 X2].
  assert (X3 : Forall (fun d => lite_write_resp (snd d) = part_resp mp (lc_addr (snd (fst d))) (zlen (lc_data (snd (fst d))))) (combine A (map fst ex))).
  { clear - X2. induction X2; cbn [combine]; constructor; auto. }
  exists k, (kept mp (calls_bytes log)). split; [exact Hk|]. split; [|split; [|split; [|split; [|split; [exact Hv|]]]]].
  - rewrite Hcomp. apply Hfst. rewrite !firstn_length, map_length. lia.
  - rewrite Hcomp, <- combine_firstn. rewrite <- (firstn_skipn k (combine A (map fst ex))) in X3. now apply Forall_app in X3.
  - exists (kept mp (calls_bytes more)). rewrite <- kept_app, <- calls_bytes_app, <- Hpre. symmetry. exact X1.
  - destruct Hdone as [z Hz]. exists (kept mp (calls_bytes z)). rewrite Hz, calls_bytes_app, kept_app. f_equal. symmetry.
    symmetry. apply (HX (firstn k A) (firstn k ex)); [now apply forall2_firstn|].
    rewrite <- (firstn_skipn k ex), map_app, concat_app in Fall. now apply Forall_app in Fall.
  - intros Hqq. destruct (Hq Hqq) as (-> & Hpe & Hall). split; [exact X1|]. split; [exact Hpe|].
    rewrite Hall. apply Hfst. now rewrite map_length.
Qed.

Lemma part_lread t0 h : lo mod L = 0 -> hi mod L = 0 -> inv t0 -> Forall uno_poke h ->
  let '(y, l) := lrsys_run L (log_read tr) (t0, []) h in
  let A := started l in
  Forall (fun o => 0 < lr_len (snd o) /\ lo <= lr_addr (snd o) /\ lr_addr (snd o) + lr_len (snd o) <= hi) A ->
  exists k, (k <= length A)%nat /\ map fst (completed l) = firstn k A /\
    Forall (fun d => lite_read_resp L (snd (fst d)) (snd d) =
      (part_data mp phi (view t0) (lr_addr (snd (fst d))) (lr_len (snd (fst d))), part_resp mp (lr_addr (snd (fst d))) (lr_len (snd (fst d))))) (completed l) /\
    (uquiescent (lrsys_step L (log_read tr)) y -> g_pend (u_m y) = [] /\ map fst (completed l) = A).
Proof.
  intros Hlo Hhi Ht Hh. pose proof (C57_lite_read_calls T tr L t0 h HL Hh) as M.
  destruct (lrsys_run L (log_read tr) (t0, []) h) as [y l]. cbv zeta in *.
  set (A := started l) in *. destruct (lrs_target (u_s y)) as [t log]. intros HA.
  assert (HA1 : Forall lite_read_legal A) by (eapply Forall_impl; [|exact HA]; intros p (H & _); unfold lite_read_legal; lia).
  destruct (M HA1) as (ex & tN & HF & _ & _ & HrepN & (k & Hk & Hcomp & _) & Hq).
  assert (Hrg : Forall (fun e : rcall => lo <= fst (fst e) /\ fst (fst e) + L <= hi /\ fst (fst e) mod L = 0 /\ snd (fst e) = L) (concat (map snd ex))).
  { clear - HF HA Hlo Hhi HL. induction HF as [|o [rs cs] A ex (H & _) HF IH]; [constructor|]. cbn [map concat snd]. inversion HA as [|? ? (H1 & H2 & H3) HR']; subst.
    apply Forall_app. split; [|auto]. pose proof (lite_read_calls_range L (snd o) lo hi HL ltac:(lia) Hlo Hhi ltac:(lia) H3) as K. rewrite <- H, Forall_map in K. exact K. }
  destruct (rreplays_part L lo hi mp phi inv view tw tr Hpt HL Hmp _ _ _ Ht Hrg HrepN) as (HW & _ & _).
  assert (Hlen : length ex = length A) by (clear - HF; induction HF; cbn; congruence).
  assert (Hfst : forall (a : list (Z * lrcmd)) (b : list (list lrd)), length b = length a -> map fst (combine a b) = a).
  { induction a as [|x a IH]; intros [|z b] E; try discriminate; cbn; [reflexivity|]. now rewrite IH by (injection E; auto). }
  assert (Hall : Forall (fun d => lite_read_resp L (snd (fst d)) (snd d) =
      (part_data mp phi (view t0) (lr_addr (snd (fst d))) (lr_len (snd (fst d))), part_resp mp (lr_addr (snd (fst d))) (lr_len (snd (fst d))))) (combine A (map fst ex))).
  { clear - HF HA HW HL Hmp. induction HF as [|o [rs cs] A ex (F1 & F2 & F3) HF IH]; [constructor|]. cbn [map concat snd fst combine] in *.
    inversion HA as [|? ? (H1 & H2 & H3) HR']; subst. apply Forall_app in HW as [HW1 HW2]. constructor; [|auto]. cbn [fst snd] in *.
    destruct (part_reads L mp phi HL Hmp (view t0) cs (lite_read_calls L (snd o)) (fun x => x / L - lr_addr (snd o) / L) (lr_addr (snd o)) (lr_len (snd o)) F1 HW1) as (P1 & P2 & P3).
    { intros x Hx. split; [assert (lr_addr (snd o) / L <= x / L) by (apply Z.div_le_mono; lia); lia|]. apply lread_calls_nth; auto; lia. }
    { intros e He. now apply lread_calls_touch. }
    rewrite (surjective_pairing (lite_read_resp L (snd o) rs)). rewrite F2, (F3 P1), P3. f_equal. now apply resp_eq. }
  exists k. split; [exact Hk|]. split; [|split].
  - rewrite Hcomp. apply Hfst. rewrite !firstn_length, map_length. lia.
  - rewrite Hcomp, <- combine_firstn. rewrite <- (firstn_skipn k (combine A (map fst ex))) in Hall. now apply Forall_app in Hall.
  - intros Hqq. destruct (Hq Hqq) as (_ & Hpe & Hc). split; [exact Hpe|]. rewrite Hc. apply Hfst. now rewrite map_length.
Qed.

Lemma part_serve_feq ep ops : forall m m', m =f m' ->
  fst (part_serve ep mp phi m ops) =f fst (part_serve ep mp phi m' ops) /\ snd (part_serve ep mp phi m ops) = snd (part_serve ep mp phi m' ops).
Proof.
  clear. induction ops as [|[n c] ops IH]; intros m m' H; cbn [part_serve snd]; [auto|].
  assert (Hr : forall a k, part_data mp phi m a k = part_data mp phi m' a k).
  { intros a k. unfold part_data. apply map_ext. intros x. now rewrite H. }
  destruct c as [w|r].
  - destruct (IH (put phi m (kept mp (addressed (lc_addr w) (lc_data w)))) (put phi m' (kept mp (addressed (lc_addr w) (lc_data w))))) as [I1 I2]; [now apply put_feq|].
    destruct (part_serve ep mp phi (put phi m _) ops), (part_serve ep mp phi (put phi m' _) ops). cbn [fst snd] in *. now rewrite I2.
  - destruct (IH m m' H) as [I1 I2]. rewrite Hr. destruct (part_serve ep mp phi m ops), (part_serve ep mp phi m' ops). cbn [fst snd] in *. now rewrite I2.
Qed.
Lemma serve_part ep : lo mod L = 0 -> hi mod L = 0 -> forall ops t, inv t ->
  Forall (fun x => op_in lo hi (snd x) /\ match snd x with ACR r => 0 < lr_len r | ACW _ => True end) ops ->
  exists t', serve_all tw tr L ep t ops = (t', snd (part_serve ep mp phi (view t) ops)) /\ inv t' /\ view t' =f fst (part_serve ep mp phi (view t) ops).
Proof.
  intros Hlo Hhi. induction ops as [|[n c] ops IH]; intros t Hi Ho; cbn [serve_all part_serve snd].
  - exists t. cbn. auto using feq_refl.
  - apply Forall_cons_iff in Ho as [[Hc Hp] Ho]. cbn [snd] in Hc, Hp. destruct c as [w|r]; cbn [op_in apb_serve] in *.
    + destruct Hc as (HD & H1 & H2). destruct (lw_part L lo hi mp phi inv view tw tr Hpt HL Hmp w t HD H1 H2 Hi) as (t1 & bs & E & Hi1 & Hv1 & Hr).
      rewrite E, Hr. destruct (IH t1 Hi1 Ho) as (t2 & E2 & Hi2 & Hv2). rewrite E2.
      destruct (part_serve_feq ep ops _ _ Hv1) as [F1 F2]. exists t2. fold (kept mp (addressed (lc_addr w) (lc_data w))) in *.
      destruct (part_serve ep mp phi (put phi (view t) _) ops) as [m2 rs]. cbn [fst snd] in *.
      split; [now rewrite F2|]. split; auto. eapply feq_trans; eauto.
    + destruct Hc as (H0 & H1 & H2). destruct (lr_part L lo hi mp phi inv view tw tr Hpt HL Hmp Hlo Hhi r t Hp ltac:(lia) H2 Hi) as (t1 & rs & E & Hi1 & Hv1 & Hr).
      rewrite E, Hr. cbn [fst snd]. destruct (IH t1 Hi1 Ho) as (t2 & E2 & Hi2 & Hv2). rewrite E2.
      destruct (part_serve_feq ep ops _ _ Hv1) as [F1 F2]. exists t2.
      destruct (part_serve ep mp phi (view t) ops) as [m2 rs']. cbn [fst snd] in *.
      split; [now rewrite F2|]. split; auto. eapply feq_trans; eauto.
Qed.
Lemma part_apb ep t0 h : lo mod L = 0 -> hi mod L = 0 -> inv t0 -> Forall no_reset h -> Forall kop_ok h ->
  Forall (fun x => op_in lo hi (snd x) /\ match snd x with ACR r => 0 < lr_len r | ACW _ => True end) (starts (snd (k_run tw tr L ep (sys0 t0) h))) ->
  let '(y, o) := k_run tw tr L ep (sys0 t0) h in
  (exists n, (n <= length (starts o))%nat /\ sets o = firstn n (snd (part_serve ep mp phi (view t0) (starts o)))) /\
  (length (sets o) = length (starts o) -> view (v_t (k_s y)) =f fst (part_serve ep mp phi (view t0) (starts o))).
Proof.
  intros Hlo Hhi Hi Hn Hk Hin.
  pose proof (C35_system T tw tr L ep t0 h HL Hn Hk) as HS. destruct (k_run tw tr L ep (sys0 t0) h) as [y o]. cbn [snd] in Hin.
  destruct HS as (n & j & H1 & H2 & H3).
  destruct (serve_part ep Hlo Hhi _ t0 Hi Hin) as (t' & E & Hi' & Hv).
  pose proof (serve_all_len L ep tw tr (starts o) t0) as Hl. rewrite E in *. cbn [fst snd] in *. split.
  - exists n. auto.
  - intros Hall. assert (n = length (starts o)) as -> by (rewrite H2, firstn_length in Hall; lia).
    rewrite (proj2 (nth_error_None (starts o) _)) in H3 by lia. rewrite H3. exact Hv.
Qed.
End Generic.

(** Ranges with holes: [mp] says which addresses of [lo, hi) are bytes of memories; the others are nothing (no region, or beyond a region of a
    nested space).  The holes are made of whole bus words.

    AXI writes, any schedule: write() returns SLVERR exactly if it covers an address that is not mapped; its other bytes are written all the same, in
    order, and nothing else is. *)
Theorem C71_axi_write_holes : forall lim i h0 L lo hi (mp : Z -> bool), space_ok h0 -> 0 < L -> of_words L mp ->
  (forall x, lo <= x < hi -> if mp x then mapped lim h0 i x else unmapped lim h0 i x) ->
  forall c idn h, m_lanes c = L -> 0 < idn -> Forall no_poke h ->
  let phi := cell_of (Nof h0) lim h0 i in
  let '(y, l) := wsys_run c idn (log_write (as_write lim i)) L true (h0, []) h in
  let A := assigned op_id idn 0 (xstarted l) in
  Forall (fun p => write_legal L (fst p) /\ lo <= wc_addr (snd (fst p)) /\ wc_addr (snd (fst p)) + zlen (wc_data (snd (fst p))) <= hi) A ->
  exists rss bytes,
    Forall2 (fun p rs => Forall (fun b => b_id b = snd p) rs /\
       write_returns c (fst p) (snd p) rs = Some (part_resp mp (wc_addr (snd (fst p))) (zlen (wc_data (snd (fst p)))))) A rss /\
    is_prefix bytes (kept mp (op_bytes_of A)) /\
    cells (Nof h0) (fst (ws_target (y_s y))) =f put phi (cells (Nof h0) h0) bytes /\
    (forall u, exists k, (k <= length (with_tag u A))%nat /\
       completed_on u l = combine (firstn k (with_tag u A)) (firstn k (on_tag u A rss))) /\
    (forall i o u, nth_error A i = Some (o, u) -> wc_data (snd o) <> [] ->
       (length (with_tag u (firstn i A)) < length (completed_on u l))%nat ->
       is_prefix (kept mp (op_bytes_of (firstn (S i) A))) bytes) /\
    (quiescent (wsys_step c idn (log_write (as_write lim i)) L true) y ->
       bytes = kept mp (op_bytes_of A) /\ e_pend (y_m y) = [] /\
       forall u, completed_on u l = combine (with_tag u A) (on_tag u A rss)).
Proof.
  intros lim i h0 L lo hi mp (HR & HC & HLw & HB) HL Hmp HM c idn h Hc Hi Hh phi.
  exact (part_write L lo hi mp phi (as_inv h0) (cells (Nof h0)) (as_write lim i) (as_read lim i)
    (aspace_part lim i h0 (a_reach_hok _ HR) L lo hi mp HL HM) HL Hmp c idn h0 h Hc Hi
    (conj (a_reach_hok _ HR) (conj HC (conj HLw (conj eq_refl HB)))) Hh).
Qed.
Print Assumptions C71_axi_write_holes.

(** AXI reads: SLVERR exactly if an address asked for is not mapped; the mapped ones are delivered, the others read 0. *)
Theorem C71_axi_read_holes : forall lim i h0 L lo hi (mp : Z -> bool), space_ok h0 -> 0 < L -> of_words L mp -> lo mod L = 0 -> hi mod L = 0 ->
  (forall x, lo <= x < hi -> if mp x then mapped lim h0 i x else unmapped lim h0 i x) ->
  forall c idn h, m_lanes c = L -> 0 < idn -> Forall no_poke h ->
  let phi := cell_of (Nof h0) lim h0 i in
  let '(y, l) := rsys_run c idn (log_read (as_read lim i)) L (h0, []) h in
  let A := assigned op_id idn 0 (xstarted l) in
  Forall (fun p => read_legal L (fst p) /\ 0 < rc_len (snd (fst p)) /\ lo <= rc_addr (snd (fst p)) /\ rc_addr (snd (fst p)) + rc_len (snd (fst p)) <= hi) A ->
  exists rss,
    Forall2 (fun p rs => Forall (fun r => r_id r = snd p) rs /\ read_returns c (fst p) (snd p) rs =
       Some (part_data mp phi (cells (Nof h0) h0) (rc_addr (snd (fst p))) (rc_len (snd (fst p))), part_resp mp (rc_addr (snd (fst p))) (rc_len (snd (fst p))))) A rss /\
    (forall u, exists k, (k <= length (with_tag u A))%nat /\
       completed_on u l = combine (firstn k (with_tag u A)) (firstn k (on_tag u A rss))) /\
    (quiescent (rsys_step c idn (log_read (as_read lim i)) L) y -> e_pend (y_m y) = [] /\
       forall u, completed_on u l = combine (with_tag u A) (on_tag u A rss)).
Proof.
  intros lim i h0 L lo hi mp (HR & HC & HLw & HB) HL Hmp Hlo Hhi HM c idn h Hc Hi Hh phi.
  exact (part_read L lo hi mp phi (as_inv h0) (cells (Nof h0)) (as_write lim i) (as_read lim i)
    (aspace_part lim i h0 (a_reach_hok _ HR) L lo hi mp HL HM) HL Hmp c idn h0 h Hlo Hhi Hc Hi
    (conj (a_reach_hok _ HR) (conj HC (conj HLw (conj eq_refl HB)))) Hh).
Qed.
Print Assumptions C71_axi_read_holes.

(** AXI-Lite writes and reads *)
Theorem C71_lite_write_holes : forall lim i h0 L lo hi (mp : Z -> bool), space_ok h0 -> 0 < L -> of_words L mp ->
  (forall x, lo <= x < hi -> if mp x then mapped lim h0 i x else unmapped lim h0 i x) ->
  forall h, Forall uno_poke h ->
  let phi := cell_of (Nof h0) lim h0 i in
  let '(y, l) := lwsys_run L (log_write (as_write lim i)) true (h0, []) h in
  let A := started l in
  Forall (fun o => lite_write_legal o /\ lo <= lc_addr (snd o) /\ lc_addr (snd o) + zlen (lc_data (snd o)) <= hi) A ->
  exists k bytes, (k <= length A)%nat /\ map fst (completed l) = firstn k A /\
    Forall (fun d => lite_write_resp (snd d) = part_resp mp (lc_addr (snd (fst d))) (zlen (lc_data (snd (fst d))))) (completed l) /\
    is_prefix bytes (kept mp (lite_op_bytes A)) /\ is_prefix (kept mp (lite_op_bytes (firstn k A))) bytes /\
    cells (Nof h0) (fst (lws_target (u_s y))) =f put phi (cells (Nof h0) h0) bytes /\
    (uquiescent (lwsys_step L (log_write (as_write lim i)) true) y ->
       bytes = kept mp (lite_op_bytes A) /\ g_pend (u_m y) = [] /\ map fst (completed l) = A).
Proof.
  intros lim i h0 L lo hi mp (HR & HC & HLw & HB) HL Hmp HM h Hh phi.
  exact (part_lwrite L lo hi mp phi (as_inv h0) (cells (Nof h0)) (as_write lim i) (as_read lim i)
    (aspace_part lim i h0 (a_reach_hok _ HR) L lo hi mp HL HM) HL Hmp h0 h
    (conj (a_reach_hok _ HR) (conj HC (conj HLw (conj eq_refl HB)))) Hh).
Qed.
Print Assumptions C71_lite_write_holes.
Theorem C71_lite_read_holes : forall lim i h0 L lo hi (mp : Z -> bool), space_ok h0 -> 0 < L -> of_words L mp -> lo mod L = 0 -> hi mod L = 0 ->
  (forall x, lo <= x < hi -> if mp x then mapped lim h0 i x else unmapped lim h0 i x) ->
  forall h, Forall uno_poke h ->
  let phi := cell_of (Nof h0) lim h0 i in
  let '(y, l) := lrsys_run L (log_read (as_read lim i)) (h0, []) h in
  let A := started l in
  Forall (fun o => 0 < lr_len (snd o) /\ lo <= lr_addr (snd o) /\ lr_addr (snd o) + lr_len (snd o) <= hi) A ->
  exists k, (k <= length A)%nat /\ map fst (completed l) = firstn k A /\
    Forall (fun d => lite_read_resp L (snd (fst d)) (snd d) =
      (part_data mp phi (cells (Nof h0) h0) (lr_addr (snd (fst d))) (lr_len (snd (fst d))), part_resp mp (lr_addr (snd (fst d))) (lr_len (snd (fst d))))) (completed l) /\
    (uquiescent (lrsys_step L (log_read (as_read lim i))) y -> g_pend (u_m y) = [] /\ map fst (completed l) = A).
Proof.
  intros lim i h0 L lo hi mp (HR & HC & HLw & HB) HL Hmp Hlo Hhi HM h Hh phi.
  exact (part_lread L lo hi mp phi (as_inv h0) (cells (Nof h0)) (as_write lim i) (as_read lim i)
    (aspace_part lim i h0 (a_reach_hok _ HR) L lo hi mp HL HM) HL Hmp h0 h Hlo Hhi
    (conj (a_reach_hok _ HR) (conj HC (conj HLw (conj eq_refl HB)))) Hh).
Qed.
Print Assumptions C71_lite_read_holes.

(** APB: writes and reads in any order, pauses at any time.  The answers are those of a byte memory with these holes; without pslverr ([ep] = false) errors
    are not reported. *)
Theorem C71_apb_holes : forall lim i h0 L lo hi (mp : Z -> bool) ep, space_ok h0 -> 0 < L -> of_words L mp -> lo mod L = 0 -> hi mod L = 0 ->
  (forall x, lo <= x < hi -> if mp x then mapped lim h0 i x else unmapped lim h0 i x) ->
  forall h, Forall no_reset h -> Forall kop_ok h ->
  let phi := cell_of (Nof h0) lim h0 i in
  Forall (fun x => op_in lo hi (snd x) /\ match snd x with ACR r => 0 < lr_len r | ACW _ => True end)
    (starts (snd (k_run (as_write lim i) (as_read lim i) L ep (sys0 h0) h))) ->
  let '(y, o) := k_run (as_write lim i) (as_read lim i) L ep (sys0 h0) h in
  (exists n, (n <= length (starts o))%nat /\ sets o = firstn n (snd (part_serve ep mp phi (cells (Nof h0) h0) (starts o)))) /\
  (length (sets o) = length (starts o) -> cells (Nof h0) (v_t (k_s y)) =f fst (part_serve ep mp phi (cells (Nof h0) h0) (starts o))).
Proof.
  intros lim i h0 L lo hi mp ep (HR & HC & HLw & HB) HL Hmp Hlo Hhi HM h Hn Hk phi.
  exact (part_apb L lo hi mp phi (as_inv h0) (cells (Nof h0)) (as_write lim i) (as_read lim i)
    (aspace_part lim i h0 (a_reach_hok _ HR) L lo hi mp HL HM) HL Hmp ep h0 h Hlo Hhi
    (conj (a_reach_hok _ HR) (conj HC (conj HLw (conj eq_refl HB)))) Hn Hk).
Qed.
Print Assumptions C71_apb_holes.

(** ** examples: the heap of C10, bytes [0, 24) and [40, 56) of the space 0 are mapped *)
Definition ex_mp (x : Z) : bool := (0 <=? x) && (x <? 24) || (40 <=? x) && (x <? 56).
Lemma holds_bytes_check h n : Forall (fun o => o_size o <= n) h ->
  forallb (fun l => forallb (fun x => match content h l x with Some b => (0 <=? b) && (b <? 256) | None => true end) (zrange 0 n)) (seq 0 (length h)) = true ->
  holds_bytes h.
Proof.
  intros Hn H l x b E. rewrite forallb_forall in H. pose proof E as E'. unfold content in E'. destruct (hget h l) as [o|] eqn:Hl; [|discriminate].
  pose proof (hget_lt _ _ _ Hl) as Hlt. assert (Hx : 0 <= x < n).
  { destruct ((0 <=? x) && (x <? o_size o)) eqn:Er; [|discriminate]. rewrite Forall_forall in Hn. specialize (Hn o (hget_In _ _ _ Hl)). lia. }
  specialize (H l). rewrite forallb_forall in H by (apply in_seq; lia). specialize (H ltac:(apply in_seq; lia) x).
  rewrite E in H. unfold is_byte. assert (In x (zrange 0 n)) by (apply in_zrange; lia). specialize (H H0). lia.
Qed.
Lemma ex_space_ok : space_ok ex_heap.
Proof.
  split; [exact ex_reach|]. split; [|split].
  - intros i o regs al e Hi Hk He. do 5 (destruct i as [|i]; [vm_compute in Hi; injection Hi as <-; cbn in Hk; try discriminate; injection Hk as <- _; cbn in He;
      repeat (destruct He as [<-|He]; [cbn; lia|]); destruct He|]). destruct i; discriminate.
  - intros i o p log a n d Hi Hk. exfalso. do 5 (destruct i as [|i]; [vm_compute in Hi; injection Hi as <-; discriminate|]). destruct i; discriminate.
  - apply (holds_bytes_check _ 64); [vm_compute; repeat constructor; discriminate|vm_compute; reflexivity].
Qed.
Lemma ex_mapped x : 0 <= x < 64 -> if ex_mp x then mapped 20 ex_heap 0 x else unmapped 20 ex_heap 0 x.
Proof.
  intros Hx. pose proof (a_reach_hok _ ex_reach) as Hok.
  assert (H : forallb (fun x => match locate 20 ex_heap 0 x with
    | Some (l, y) => ex_mp x && match content ex_heap l y with Some _ => true | None => false end | None => negb (ex_mp x) end) (zrange 0 64) = true) by (vm_compute; reflexivity).
  rewrite forallb_forall in H. specialize (H x ltac:(apply in_zrange; lia)). destruct (locate 20 ex_heap 0 x) as [[l y]|] eqn:E.
  - apply andb_true_iff in H as [-> H]. apply mapped_locate; auto. exists l, y. split; auto. destruct (content ex_heap l y); congruence.
  - apply negb_true_iff in H. rewrite H. now apply unmapped_locate.
Qed.
Lemma ex_words : of_words 4 ex_mp.
Proof.
  intros x y H. unfold ex_mp. unfold down in H. pose proof (Z.div_mod x 4 ltac:(lia)). pose proof (Z.div_mod y 4 ltac:(lia)).
  pose proof (Z.mod_pos_bound x 4 ltac:(lia)). pose proof (Z.mod_pos_bound y 4 ltac:(lia)).
  assert (x / 4 = y / 4) by lia. lia.
Qed.
Example C71_locate_nontrivial : map (locate 20 ex_heap 0) [7; 8; 23; 24; 39; 40; 63] = [Some (1%nat, 7); Some (2%nat, 4); Some (2%nat, 19); None; None; Some (4%nat, 0); None].
Proof. vm_compute. reflexivity. Qed.

(** AXI: a write across the two memories, one into the hole and one across its end *)
Definition ex71_ops : list wop := [ex_write 1 None 6 [1; 2; 3; 4] 2; ex_write 2 (Some 7) 22 [5; 6; 7; 8; 9] 1; ex_write 3 None 26 [10] 0; ex_write 4 (Some 7) 38 [11; 12; 13; 14] 2].
Definition ex71_sched {S} (n : nat) : list (yop wop S) := map YInit ex71_ops ++ concat (repeat ex_round n).
Example C71_axi_write_nontrivial :
  let '(y, l) := wsys_run ex_cfg 4 (log_write (as_write 20 0)) 4 true (ex_heap, []) (ex71_sched 60) in
  let h := fst (ws_target (y_s y)) in
  map (fun d => (fst (fst (fst (fst d))), write_returns ex_cfg (fst (fst d)) (match snd (fst d) with Some u => u | None => 0 end) (snd d))) (xcompleted l) =
    [(1, Some OKAY); (2, Some SLVERR); (3, Some SLVERR); (4, Some SLVERR)] /\
  snd (rd_obj 20 h 0 5 6) = Ok [0; 1; 2; 3; 4; 0] /\ snd (rd_obj 20 h 0 20 4) = Ok [0; 0; 5; 6] /\ snd (rd_obj 20 h 4 0 3) = Ok [13; 14; 0].
Proof. vm_compute. auto. Qed.
Example C71_axi_write_hyp : space_ok ex_heap /\ of_words 4 ex_mp /\ (forall x, 0 <= x < 64 -> if ex_mp x then mapped 20 ex_heap 0 x else unmapped 20 ex_heap 0 x) /\
  Forall (fun o => write_legal 4 o /\ 0 <= wc_addr (snd o) /\ wc_addr (snd o) + zlen (wc_data (snd o)) <= 64) ex71_ops.
Proof.
  split; [exact ex_space_ok|]. split; [exact ex_words|]. split; [exact ex_mapped|].
  repeat constructor; cbn; try lia; try (exists 2; lia); repeat constructor; unfold is_byte; lia.
Qed.

(** AXI: reads of that heap *)
Definition ex71_heap : heap := fst (wr_obj 20 (fst (wr_obj 20 ex_heap 0 6 (PBytes [1; 2; 3; 4]))) 0 40 (PBytes [5; 6])).
Definition ex71_rops : list rop := [ex_read 1 None 6 4 1; ex_read 2 (Some 7) 22 20 2; ex_read 3 None 30 1 0].
Definition ex71_rsched {S} (n : nat) : list (yop rop S) := map YInit ex71_rops ++ concat (repeat ex_rround n).
Example C71_axi_read_nontrivial :
  let '(y, l) := rsys_run ex_cfg 4 (log_read (as_read 20 0)) 4 (ex71_heap, []) (ex71_rsched 60) in
  map (fun d => (fst (fst (fst (fst d))), read_returns ex_cfg (fst (fst d)) (match snd (fst d) with Some u => u | None => 0 end) (snd d))) (xcompleted l) =
    [(1, Some ([1; 2; 3; 4], OKAY)); (2, Some ([0; 0; 0; 0; 0; 0; 0; 0; 0; 0; 0; 0; 0; 0; 0; 0; 0; 0; 5; 6], SLVERR)); (3, Some ([0], SLVERR))].
Proof. vm_compute. reflexivity. Qed.

(** AXI-Lite *)
Example C71_lite_nontrivial :
  let '(y, l) := lwsys_run 4 (log_write (as_write 20 0)) true (ex_heap, [])
    (map UInit [exl_write 1 6 [1; 2; 3; 4]; exl_write 2 22 [5; 6; 7; 8; 9]; exl_write 3 38 [11; 12; 13; 14]] ++ concat (repeat exl_round 40)) in
  let h := fst (lws_target (u_s y)) in
  let '(y', l') := lrsys_run 4 (log_read (as_read 20 0)) (h, [])
    (map UInit [exl_read 1 5 6; exl_read 2 22 3; exl_read 3 39 4] ++ concat (repeat exl_round 40)) in
  map (fun d => (fst (fst d), lite_write_resp (snd d))) (completed l) = [(1, OKAY); (2, SLVERR); (3, SLVERR)] /\
  map (fun d => (fst (fst d), lite_read_resp 4 (snd (fst d)) (snd d))) (completed l') =
    [(1, ([0; 1; 2; 3; 4; 0], OKAY)); (2, ([5; 6; 0], SLVERR)); (3, ([0; 13; 14; 0], SLVERR))].
Proof. vm_compute. auto. Qed.

(** APB *)
Example C71_apb_nontrivial :
  let ops := [ex_w 6 [1; 2; 3; 4]; ex_w 22 [5; 6; 7; 8; 9]; ex_r 5 6; ex_r 20 8; ex_r 24 2] in
  let h := map (fun c => KM (BIssue c)) ops ++ concat (repeat [KM BWake; KEdge false false; KEdge true true] 60) in
  let run ep := sets (snd (k_run (as_write 20 0) (as_read 20 0) 4 ep (sys0 ex_heap) h)) in
  map snd (run true) = [Some (AWResp 6 4 OKAY); Some (AWResp 22 5 SLVERR); Some (ARResp 5 [0; 1; 2; 3; 4; 0] OKAY);
    Some (ARResp 20 [0; 0; 5; 6; 0; 0; 0; 0] SLVERR); Some (ARResp 24 [0; 0] SLVERR)] /\
  map snd (run false) = [Some (AWResp 6 4 OKAY); Some (AWResp 22 5 OKAY); Some (ARResp 5 [0; 1; 2; 3; 4; 0] OKAY);
    Some (ARResp 20 [0; 0; 5; 6; 0; 0; 0; 0] OKAY); Some (ARResp 24 [0; 0] OKAY)].
Proof. vm_compute. auto. Qed.

(** Holes that are not whole bus words: a bus of 16 bytes on the same space.  A read of mapped bytes only fails and delivers zeros, because the slave reads the whole
    bus word; a write of the same bytes succeeds.  That reads of mapped addresses return OKAY is false without the hypothesis on the holes. *)
Theorem C71_partial_words_refuted : ~ (forall lim i h0 L ep r, space_ok h0 -> 0 < L -> 0 < lr_len r ->
  (forall x, lr_addr r <= x < lr_addr r + lr_len r -> mapped lim h0 i x) ->
  exists d, snd (apb_serve (as_write lim i) (as_read lim i) L ep h0 (ACR r)) = ARResp (lr_addr r) d OKAY).
Proof.
  intros H. destruct (H 20%nat 0%nat ex_heap 16 true {| lr_addr := 16; lr_len := 8; lr_prot := 2 |} ex_space_ok) as [d E]; [lia|cbn; lia| |].
  - cbn [lr_addr lr_len]. intros x Hx. pose proof (ex_mapped x ltac:(lia)) as K. replace (ex_mp x) with true in K by (unfold ex_mp; lia). exact K.
  - vm_compute in E. discriminate.
Qed.
Print Assumptions C71_partial_words_refuted.
Example C71_partial_words :
  let h := fst (apb_serve (as_write 20 0) (as_read 20 0) 16 true ex_heap (ex_w 16 [1; 2; 3; 4; 5; 6; 7; 8])) in
  snd (apb_serve (as_write 20 0) (as_read 20 0) 16 true ex_heap (ex_w 16 [1; 2; 3; 4; 5; 6; 7; 8])) = AWResp 16 8 OKAY /\
  snd (rd_obj 20 h 0 16 8) = Ok [1; 2; 3; 4; 5; 6; 7; 8] /\
  snd (apb_serve (as_write 20 0) (as_read 20 0) 16 true h (ex_r 16 8)) = ARResp 16 [0; 0; 0; 0; 0; 0; 0; 0] SLVERR.
Proof. vm_compute. auto. Qed.
