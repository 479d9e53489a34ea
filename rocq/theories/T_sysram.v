(** C55: AxiMaster - AxiSlave on one byte-storing target: reads and writes together, under every schedule. *)
From Coq Require Import ZArith Lia List Bool.
From Coq Require Import ZifyBool ZifyNat.
From Verif Require Import Py S_flat M_sparse S_sparse P_sparse M_memory P_memory M_axi S_axi P_axi P_axislave P_axiop P_axicomp P_axiram
  M_liteeng M_axieng S_axieng P_axieng P_axiattr T_axieng M_sys S_sys P_sys P_syswr P_sysrd T_sys T_sysrd M_axisys S_axisys P_sysram.
Import ListNotations.
Open Scope Z_scope.

(** C55.  Any schedule of the user, the tasks and the channels of both paths, split at any moment (h1, then h2).  W, R: the
    writes and reads in issue order with their IDs.  For every byte address x that read number j asks for there is a moment, given by the
    bytes [pts j x] written before it, such that the read returns the memory's byte at that moment, and
    - all writes and reads are answered OKAY; the memory always is the initial one with a prefix of the bytes of W in issue order;
    - the bytes of one container (2^size bytes, one beat) are read at the same moment, and the moments are in the order of R and of the addresses;
    - a read started after a write completed sees that write and all writes issued before it;
    - a read completed before a write started does not see the write;
    - for each ID the operations complete in issue order, each with its own responses, and all complete if no task or channel can run. *)
Theorem C55_memory : forall T L lo hi phi (inv : T -> Prop) view tw tr,
  flat_target L lo hi phi inv view tw tr -> 0 < L -> lo mod L = 0 -> hi mod L = 0 ->
  forall c widn ridn t0 h1 h2, m_lanes c = L -> 0 < widn -> 0 < ridn -> inv t0 -> Forall a_nopoke (h1 ++ h2) ->
  let '(z1, l1) := rw_run c widn ridn tw tr (rw_init t0) h1 in
  let '(z, l2) := rw_run c widn ridn tw tr z1 h2 in
  let l := l1 ++ l2 in let W := writes_of widn l in let R := reads_of ridn l in
  Forall (write_in L lo hi) W -> Forall (read_in L lo hi) R ->
  exists wrss rrss bytes (pts : nat -> Z -> list (Z * Z)),
    Forall2 (fun p rs => Forall (fun b => b_id b = snd p) rs /\ write_returns c (fst p) (snd p) rs = Some OKAY) W wrss /\
    length rrss = length R /\
    (forall j o u, nth_error R j = Some (o, u) -> exists rs, nth_error rrss j = Some rs /\ Forall (fun r => r_id r = u) rs /\
       read_returns c o u rs = Some (map (fun x => put phi (view t0) (pts j x) (phi x)) (zrange (rc_addr (snd o)) (rc_addr (snd o) + rc_len (snd o))), OKAY)) /\
    is_prefix bytes (op_bytes_of W) /\ view (rw_target z) =f put phi (view t0) bytes /\
    (forall j x k, reads_byte R j x k -> is_prefix (pts j x) bytes) /\
    (forall j x x' k, reads_byte R j x k -> reads_byte R j x' k -> pts j x = pts j x') /\
    (forall j x k j' x' k', reads_byte R j x k -> reads_byte R j' x' k' -> ((j < j')%nat \/ j = j' /\ x <= x') -> is_prefix (pts j x) (pts j' x')) /\
    (forall i o u j x k, nth_error (writes_of widn l1) i = Some (o, u) -> wc_data (snd o) <> [] -> done_at (writes_of widn l1) (w_outs l1) i u ->
       reads_byte R j x k -> (length (reads_of ridn l1) <= j)%nat -> is_prefix (op_bytes_of (firstn (S i) W)) (pts j x)) /\
    (forall j o u x k, nth_error (reads_of ridn l1) j = Some (o, u) -> done_at (reads_of ridn l1) (r_outs l1) j u -> reads_byte R j x k ->
       is_prefix (pts j x) (op_bytes_of (writes_of widn l1))) /\
    (forall u, exists k, (k <= length (with_tag u W))%nat /\
       completed_on u (w_outs l) = combine (firstn k (with_tag u W)) (firstn k (on_tag u W wrss))) /\
    (forall u, exists k, (k <= length (with_tag u R))%nat /\
       completed_on u (r_outs l) = combine (firstn k (with_tag u R)) (firstn k (on_tag u R rrss))) /\
    (forall i o u, nth_error W i = Some (o, u) -> wc_data (snd o) <> [] -> done_at W (w_outs l) i u -> is_prefix (op_bytes_of (firstn (S i) W)) bytes) /\
    ((forall o, a_internal o -> ax_step c widn ridn (log_write tw) (log_read tr) cp_w2r cp_r2w z o = (z, [])) -> bytes = op_bytes_of W /\
       (forall u, completed_on u (w_outs l) = combine (with_tag u W) (on_tag u W wrss)) /\
       (forall u, completed_on u (r_outs l) = combine (with_tag u R) (on_tag u R rrss))).
Proof.
  intros T L lo hi phi inv view tw tr Hft HL Hlo Hhi c widn ridn t0 h1 h2 <- Hw Hr Ht Hn.
  exact (ram_main lo hi phi inv view tw tr c Hft HL Hlo Hhi widn ridn Hw Hr t0 Ht h1 h2 Hn).
Qed.
Print Assumptions C55_memory.

(** ** read after write *)
(** the write has a byte in a memory cell that the read reads *)
Definition touches (phi : Z -> Z) (p : wop * Z) (o : rop) : Prop :=
  exists a x, wc_addr (snd (fst p)) <= a < wc_addr (snd (fst p)) + zlen (wc_data (snd (fst p))) /\
    rc_addr (snd o) <= x < rc_addr (snd o) + rc_len (snd o) /\ phi a = phi x.

Lemma last_index (P Q : nat -> Prop) n : (forall i, (i < n)%nat -> P i \/ Q i) ->
  exists m, (m <= n)%nat /\ (forall i, (m <= i < n)%nat -> Q i) /\ (m = 0%nat \/ exists i, m = S i /\ P i).
Proof.
  induction n as [|n IH]; intros H.
  - exists 0%nat. split; [lia|]. split; [lia|auto].
  - destruct (H n ltac:(lia)) as [Hp|Hq].
    + exists (S n). split; [lia|]. split; [lia|]. right. eauto.
    + destruct IH as (m & M1 & M2 & M3); [intros; apply H; lia|]. exists m. split; [lia|]. split; [|auto]. intros i Hi.
      destruct (Nat.eq_dec i n) as [->|]; auto. apply M2. lia.
Qed.
Lemma put_missed phi l : forall f y, (forall p, In p l -> phi (fst p) <> y) -> put phi f l y = f y.
Proof.
  induction l as [|[a b] l IH]; intros f y H; [reflexivity|]. cbn [put]. rewrite IH by (intros p Hp; apply H; now right).
  unfold upd. destruct (Z.eqb_spec y (phi a)) as [E|]; auto. exfalso. apply (H (a, b) (or_introl eq_refl)). now symmetry.
Qed.

(** Every read started when all writes that touch its cells were completed returns the bytes written, the last of them in issue order for each cell. *)
Theorem C55_read_after_write : forall T L lo hi phi (inv : T -> Prop) view tw tr,
  flat_target L lo hi phi inv view tw tr -> 0 < L -> lo mod L = 0 -> hi mod L = 0 ->
  forall c widn ridn t0 h1 h2, m_lanes c = L -> 0 < widn -> 0 < ridn -> inv t0 -> Forall a_nopoke (h1 ++ h2) ->
  let '(z1, l1) := rw_run c widn ridn tw tr (rw_init t0) h1 in
  let '(z, l2) := rw_run c widn ridn tw tr z1 h2 in
  let l := l1 ++ l2 in let W := writes_of widn l in let R := reads_of ridn l in
  Forall (write_in L lo hi) W -> Forall (read_in L lo hi) R ->
  exists rrss, length rrss = length R /\
    (forall u, exists k, (k <= length (with_tag u R))%nat /\
       completed_on u (r_outs l) = combine (firstn k (with_tag u R)) (firstn k (on_tag u R rrss))) /\
    forall j o u, nth_error R j = Some (o, u) -> (length (reads_of ridn l1) <= j)%nat ->
      (forall i p, nth_error W i = Some p ->
         ((i < length (writes_of widn l1))%nat /\ done_at (writes_of widn l1) (w_outs l1) i (snd p)) \/ ~ touches phi p o) ->
      exists rs, nth_error rrss j = Some rs /\
        read_returns c o u rs = Some (map (fun x => put phi (view t0) (op_bytes_of W) (phi x)) (zrange (rc_addr (snd o)) (rc_addr (snd o) + rc_len (snd o))), OKAY).
Proof.
  intros T L lo hi phi inv view tw tr Hft HL Hlo Hhi c widn ridn t0 h1 h2 Hc Hw Hr Ht Hn.
  pose proof (C55_memory T L lo hi phi inv view tw tr Hft HL Hlo Hhi c widn ridn t0 h1 h2 Hc Hw Hr Ht Hn) as M.
  destruct (rw_run c widn ridn tw tr (rw_init t0) h1) as [z1 l1]. destruct (rw_run c widn ridn tw tr z1 h2) as [z l2]. cbn zeta in *.
  set (l := l1 ++ l2) in *. set (W := writes_of widn l) in *. set (R := reads_of ridn l) in *. intros HW HR.
  destruct (M HW HR) as (wrss & rrss & bytes & pts & _ & M1 & M2 & [mb M3] & _ & M4 & _ & _ & M5 & _ & _ & M6 & _).
  exists rrss. split; auto. split; auto. intros j o u Hj Hj1 Hd. destruct (M2 j o u Hj) as (rs & R1 & R2 & R3). exists rs. split; auto. rewrite R3.
  f_equal. f_equal. apply map_ext_in. intros x Hx. apply in_zrange in Hx.
  assert (Hrb : reads_byte R j x (x / 2 ^ rc_size (snd o))) by (exists o, u; auto).
  destruct (zW_app widn l1 l2) as [W2 HW2]. fold l in HW2. fold W in HW2.
  set (P := fun i => exists o' u', nth_error (writes_of widn l1) i = Some (o', u') /\ wc_data (snd o') <> [] /\ done_at (writes_of widn l1) (w_outs l1) i u').
  set (Q := fun i => forall p, nth_error W i = Some p -> ~ touches phi p o).
  destruct (last_index P Q (length W)) as (m & Hm & HQ & HP).
  { intros i Hi. destruct (nth_error W i) as [[o' u']|] eqn:E; [|apply nth_error_None in E; lia].
    destruct (Hd i _ E) as [[Hl D]|D]; [|right; intros p Hp; congruence].
    destruct (wc_data (snd o')) as [|b dd] eqn:Ed.
    - right. intros p Hp. rewrite E in Hp. injection Hp as <-. intros (a & x' & Ha & _). cbn [fst] in Ha. rewrite Ed in Ha. cbn in Ha. lia.
    - left. exists o', u'. rewrite HW2, nth_error_app1 in E by exact Hl. split; auto. split; [congruence|exact D]. }
  assert (Hpre : is_prefix (op_bytes_of (firstn m W)) (pts j x)).
  { destruct HP as [->|(i & -> & o' & u' & P1 & P2 & P3)]; [exists (pts j x); reflexivity|]. eapply M5; eauto. }
  destruct Hpre as [q Hq]. destruct (M4 j x _ Hrb) as [r Hrr].
  assert (E : op_bytes_of W = op_bytes_of (firstn m W) ++ op_bytes_of (skipn m W)).
  { rewrite <- (firstn_skipn m W) at 1. unfold op_bytes_of. apply flat_map_app. }
  assert (Eq : op_bytes_of W = pts j x ++ (r ++ mb)) by (rewrite M3, Hrr, <- app_assoc; reflexivity).
  rewrite Eq, put_app. symmetry. apply put_missed. intros p Hp Hphi.
  assert (Hin : In p (op_bytes_of (skipn m W))).
  { rewrite Hq, <- app_assoc, E in Eq. apply app_inv_head in Eq. rewrite Eq. apply in_or_app. now right. }
  unfold op_bytes_of in Hin. apply in_flat_map in Hin. destruct Hin as (w & Hw1 & Hw2). apply In_nth_error in Hw1. destruct Hw1 as (i & Hi).
  assert (Hi' : nth_error W (m + i) = Some w). { rewrite <- (firstn_skipn m W) at 1. rewrite nth_error_app2; rewrite firstn_length_le by lia; [|lia]. now replace (m + i - m)%nat with i by lia. }
  apply (HQ (m + i)%nat) in Hi'; [|split; [lia|apply nth_error_Some; congruence]]. apply Hi'. destruct p as [a b]. apply in_addressed in Hw2.
  exists a, x. cbn [fst] in *. auto.
Qed.
Print Assumptions C55_read_after_write.

(** the RAM of [size] bytes *)
Lemma upper_bound {X} (f : X -> Z) L (l : list X) : 0 < L -> exists hi, hi mod L = 0 /\ 0 < hi /\ Forall (fun p => f p < hi) l.
Proof.
  intros HL. induction l as [|p l (hi & H1 & H2 & H3)].
  - exists L. rewrite Z.mod_same by lia. split; [auto|split; [auto|constructor]].
  - exists (hi + L * (Z.abs (f p) + 1)). split; [rewrite Z.mul_comm, Z.mod_add; lia|].
    assert (1 * (Z.abs (f p) + 1) <= L * (Z.abs (f p) + 1)) by (apply Z.mul_le_mono_nonneg_r; lia). split; [lia|]. constructor; [lia|].
    eapply Forall_impl; [|exact H3]. cbv beta. intros q Hq. lia.
Qed.
Corollary C55_ram_read_after_write : forall size c widn ridn m0 h1 h2, 0 < size -> 0 < m_lanes c -> size mod m_lanes c = 0 -> sm_reachable size m0 ->
  0 < widn -> 0 < ridn -> Forall a_nopoke (h1 ++ h2) ->
  let '(z1, l1) := rw_run c widn ridn ram_write ram_read (rw_init m0) h1 in
  let '(z, l2) := rw_run c widn ridn ram_write ram_read z1 h2 in
  let l := l1 ++ l2 in let W := writes_of widn l in let R := reads_of ridn l in
  Forall (fun p => write_legal (m_lanes c) (fst p)) W -> Forall (fun p => read_legal (m_lanes c) (fst p)) R ->
  exists rrss, length rrss = length R /\
    (forall u, exists k, (k <= length (with_tag u R))%nat /\
       completed_on u (r_outs l) = combine (firstn k (with_tag u R)) (firstn k (on_tag u R rrss))) /\
    forall j o u, nth_error R j = Some (o, u) -> (length (reads_of ridn l1) <= j)%nat ->
      (forall i p, nth_error W i = Some p ->
         ((i < length (writes_of widn l1))%nat /\ done_at (writes_of widn l1) (w_outs l1) i (snd p)) \/ ~ touches (fun x => x mod size) p o) ->
      exists rs, nth_error rrss j = Some rs /\
        read_returns c o u rs = Some (map (fun x => put (fun x => x mod size) (peek m0) (op_bytes_of W) (x mod size)) (zrange (rc_addr (snd o)) (rc_addr (snd o) + rc_len (snd o))), OKAY).
Proof.
  intros size c widn ridn m0 h1 h2 Hs HL Hm Hr Hw Hri Hn.
  destruct (rw_run c widn ridn ram_write ram_read (rw_init m0) h1) as [z1 l1] eqn:E1.
  destruct (rw_run c widn ridn ram_write ram_read z1 h2) as [z l2] eqn:E2. cbn zeta. intros HW HR.
  destruct (upper_bound (fun p : wop * Z => wc_addr (snd (fst p)) + zlen (wc_data (snd (fst p)))) (m_lanes c) (writes_of widn (l1 ++ l2)) HL) as (b1 & B1 & B2 & B3).
  destruct (upper_bound (fun p : rop * Z => rc_addr (snd (fst p)) + rc_len (snd (fst p))) (m_lanes c) (reads_of ridn (l1 ++ l2)) HL) as (b2 & B4 & B5 & B6).
  assert (Hhi : (b1 + b2) mod m_lanes c = 0) by (rewrite Z.add_mod, B1, B4 by lia; reflexivity).
  assert (HLn : m_lanes c <> 0) by lia.
  pose proof (C55_read_after_write _ (m_lanes c) 0 (b1 + b2) _ _ _ _ _ (ram_flat (m_lanes c) size 0 (b1 + b2) HL Hs Hm) HL (Z.mod_0_l _ HLn) Hhi
    c widn ridn m0 h1 h2 eq_refl Hw Hri Hr Hn) as M. rewrite E1, E2 in M. cbn zeta in M. apply M; clear M.
  - rewrite Forall_forall in *. intros p Hp. specialize (HW p Hp). specialize (B3 p Hp). cbv beta in B3. split; [exact HW|]. destruct HW as (_ & _ & _ & HW). lia.
  - rewrite Forall_forall in *. intros p Hp. specialize (HR p Hp). specialize (B6 p Hp). cbv beta in B6. split; [exact HR|]. destruct HR as (_ & _ & HR & HR2). lia.
Qed.
Print Assumptions C55_ram_read_after_write.

(** ** examples: the three writes of T_sys.v, two reads started with them and one started when all had completed *)
Definition ex_rw_round : list (aop (sparse * list call) (sparse * list rcall)) := map BW ex_round ++ map BR ex_rround.
Definition ex_rw_h1 (n : nat) := map BW (map YInit ex_ops) ++ map BR (map YInit ex_rops) ++ concat (repeat ex_rw_round n).
Definition ex_rw_h2 (n : nat) := map BR (map YInit [ex_read 3 None 0 16 2]) ++ concat (repeat ex_rw_round n).
Definition ex_rw (n m : nat) :=
  let '(z1, l1) := rw_run ex_cfg 4 4 ram_write ram_read (rw_init (sm_init 16)) (ex_rw_h1 n) in
  let '(z, l2) := rw_run ex_cfg 4 4 ram_write ram_read z1 (ex_rw_h2 m) in (z, l1, l2).
Definition ex_show (l : list aout) :=
  map (fun d => (fst (fst (fst (fst d))), read_returns ex_cfg (fst (fst d)) (match snd (fst d) with Some u => u | None => 0 end) (snd d))) (xcompleted (r_outs l)).
Example C55_nontrivial :
  let '(z, l1, l2) := ex_rw 40 40 in
  (ex_show l1, map (fun d => fst (fst (fst (fst d)))) (xcompleted (w_outs l1)), ex_show l2) =
  ([(1, Some ([2; 3; 4; 5; 6; 7], OKAY)); (2, Some ([0; 1], OKAY))], [1; 2; 3],
   [(3, Some ([32; 33; 1; 2; 21; 22; 23; 6; 7; 8; 9; 10; 11; 0; 0; 31], OKAY))]).
Proof. vm_compute. reflexivity. Qed.
Example C55_nontrivial_hyp : let '(z, l1, l2) := ex_rw 40 40 in
  Forall (fun p => write_legal 4 (fst p)) (writes_of 4 (l1 ++ l2)) /\ Forall (fun p => read_legal 4 (fst p)) (reads_of 4 (l1 ++ l2)) /\
  Forall a_nopoke (ex_rw_h1 40 ++ ex_rw_h2 40) /\ length (reads_of 4 l1) = 2%nat /\
  forall i p, nth_error (writes_of 4 (l1 ++ l2)) i = Some p -> (i < length (writes_of 4 l1))%nat /\ done_at (writes_of 4 l1) (w_outs l1) i (snd p).
Proof.
  assert (E : exists x, x = ex_rw 40 40) by eauto. destruct E as [[[z l1] l2] E]. rewrite <- E.
  assert (E1 : writes_of 4 (l1 ++ l2) = writes_of 4 l1 /\ reads_of 4 (l1 ++ l2) = combine (ex_rops ++ [ex_read 3 None 0 16 2]) [0; 7; 1] /\ length (reads_of 4 l1) = 2%nat /\
    writes_of 4 l1 = combine ex_ops [0; 7; 1] /\ map (fun u => length (completed_on u (w_outs l1))) [0; 7; 1] = [1; 1; 1]%nat)
    by (vm_compute in E; injection E as _ -> ->; vm_compute; repeat split).
  destruct E1 as (E1 & E2 & E3 & E4 & E5). rewrite E1, E2, E4. clear E E1 E2. split; [|split; [|split; [|split; [exact E3|]]]].
  - repeat constructor; cbn; try lia; try (exists 2; lia).
  - repeat constructor; cbn; try lia; try (exists 2; lia).
  - unfold ex_rw_h1, ex_rw_h2. repeat (apply Forall_app; split); try (apply Forall_concat, Forall_forall; intros r Hr; apply repeat_spec in Hr; subst r); repeat constructor.
  - injection E5 as A1 A2 A3. intros [|[|[|i]]] p Hp; cbn in Hp; try (injection Hp as <-); try (destruct i; discriminate); unfold done_at; cbn [snd];
      rewrite ?A1, ?A2, ?A3; vm_compute; lia.
Qed.
