(** C75: the rate of transfers. *)
From Coq Require Import ZArith Lia List Bool.
From Verif Require Import Py M_stream S_stream M_axisframe M_axis S_axis S_axisrun P_axisframe P_axis S_rate P_rate.
Import ListNotations.
Open Scope Z_scope.

(** ** what an edge means for the next one *)
Theorem C75_next :
  (forall A (dflt : A) hr limit h l1 e e' l2, limit <= 0 -> Forall plain h ->
     notes dflt hr (chan_init limit) false false h = l1 ++ e :: e' :: l2 -> next_ok hr e e') /\
  (forall c slb slf klb klf h l1 e e' l2, cfg_ok c -> klb <= 0 -> klf <= 0 -> Forall aplain h ->
     anotes c (achan_init slb slf klb klf) false false h = l1 ++ e :: e' :: l2 -> next_ok (x_ready c) e e').
Proof.
  split.
  - intros A dflt hr limit h l1 e e' l2 Hl HF E. exact (run_next dflt hr h _ false false l1 e e' l2 HF (init_cinv hr limit Hl) E).
  - intros c slb slf klb klf h l1 e e' l2 Hc H1 H2 HF E. exact (arun_next c Hc h _ false false l1 e e' l2 HF (ainit_inv c slb slf klb klf H1 H2) E).
Qed.
Print Assumptions C75_next.

(** ** with something to transfer, an edge without pause costs nothing: transfers >= open edges, up to one that is on its way *)
Theorem C75_rate :
  (forall A (dflt : A) hr limit h, limit <= 0 -> Forall plain h ->
     let l := notes dflt hr (chan_init limit) false false h in
     (count open_edge l <= count nt_xfer l + (if offered hr (chan_end dflt hr (chan_init limit) h) then 1 else 0))%nat) /\
  (forall c slb slf klb klf h, cfg_ok c -> klb <= 0 -> klf <= 0 -> Forall aplain h ->
     let x := achan_init slb slf klb klf in
     let l := anotes c x false false h in
     (count open_edge l <= count nt_xfer l + (if aoffered c (achan_end c x h) then 1 else 0))%nat).
Proof.
  split.
  - intros A dflt hr limit h Hl HF. cbv zeta. pose proof (run_open dflt hr h (chan_init limit) false false HF (init_cinv hr limit Hl)) as H.
    destruct (offered hr (chan_end _ _ _ _)); cbn [Nat.b2n] in H; lia.
  - intros c slb slf klb klf h Hc H1 H2 HF. cbv zeta. pose proof (arun_open c Hc h _ false false HF (ainit_inv c slb slf klb klf H1 H2)) as H.
    destruct (aoffered c (achan_end _ _ _)); cbn [Nat.b2n] in H; lia.
Qed.
Print Assumptions C75_rate.

(** ** a pause is a pause: as many transfers as edges at which the source is not paused, as edges before which the sink is not paused all the time *)
Theorem C75_pauses :
  (forall A (dflt : A) hr limit h, limit <= 0 -> Forall plain h ->
     let l := notes dflt hr (chan_init limit) false false h in
     (count nt_xfer l <= count (fun e => negb (nt_srcp e)) l)%nat /\
     (hr = true -> (count nt_xfer l <= count (fun e => negb (nt_snkpp e)) l)%nat)) /\
  (forall c slb slf klb klf h, cfg_ok c -> klb <= 0 -> klf <= 0 -> Forall aplain h ->
     let l := anotes c (achan_init slb slf klb klf) false false h in
     (count nt_xfer l <= count (fun e => negb (nt_srcp e)) l)%nat /\
     (x_ready c = true -> (count nt_xfer l <= count (fun e => negb (nt_snkpp e)) l)%nat)).
Proof.
  split.
  - intros A dflt hr limit h Hl HF. cbv zeta. split.
    + pose proof (run_src dflt hr h (chan_init limit) false false HF (init_cinv hr limit Hl)) as H. cbn [chan_init c_src s_valid src_init Nat.b2n] in H. lia.
    + intros ->. pose proof (run_snk dflt h (chan_init limit) false false HF (init_cinv true limit Hl)) as H. cbn [chan_init c_snk k_ready snk_init Nat.b2n] in H. lia.
  - intros c slb slf klb klf h Hc H1 H2 HF. cbv zeta. split.
    + pose proof (arun_src c Hc h _ false false HF (ainit_inv c slb slf klb klf H1 H2)) as H. cbn [achan_init ac_src a_valid asrc_init Nat.b2n] in H. lia.
    + intros Hr. pose proof (arun_snk c Hc h Hr _ false false HF (ainit_inv c slb slf klb klf H1 H2)) as H. cbn [achan_init ac_snk z_ready asnk_init Nat.b2n] in H. lia.
Qed.
Print Assumptions C75_pauses.

(** ** without any pause: one clock cycle per item (beat), and one more *)
Theorem C75_full_speed :
  (forall A (dflt : A) hr limit l, limit <= 0 ->
     count nt_xfer (notes dflt hr (chan_init limit) false false (map (fun x => CSrc (SSend x)) l ++ repeat CClk (S (length l)))) = length l) /\
  (forall c slb slf klb klf (l : list (Z * frame)), cfg_ok c -> slb <= 0 -> slf <= 0 -> klb <= 0 -> klf <= 0 ->
     Forall (fun y => (exists g, normalize (snd y) = Ok g) /\ 0 < zlen (f_data (snd y))) l ->
     let n := list_sum (map (fun y => beats_of c (snd y)) l) in
     count nt_xfer (anotes c (achan_init slb slf klb klf) false false (map (fun y => ACSrc (ASend (fst y) (snd y))) l ++ repeat ACClk (S n))) = n).
Proof. split; [intros; now apply full_speed|intros; now apply afull_speed]. Qed.
Print Assumptions C75_full_speed.

(** *** examples: nine edges, the source paused over one, the sink over two *)
Definition c75_h : list (cop Z) :=
  map (fun x => CSrc (SSend x)) [1; 2; 3; 4; 5] ++ [CClk; CClk; CSrc (SPause true); CClk; CSrc (SPause false); CSnk (KPause true); CClk; CClk; CSnk (KPause false); CClk; CClk; CClk; CClk].
Example C75_ex :
  let l := notes 0 true (chan_init (-1)) false false c75_h in
  Forall plain c75_h /\ map nt_xfer l = [false; true; true; false; true; false; true; true; false] /\ map open_edge l = [true; true; false; false; false; false; true; false; false] /\
  map nt_srcp l = [false; false; true; false; false; false; false; false; false] /\ map nt_snkpp l = [false; false; false; false; true; false; false; false; false].
Proof. split; [repeat constructor|]. vm_compute. auto. Qed.
Definition c75_cfg : scfg := {| x_lanes := 4; x_bsize := 8; x_ready := true; x_last := true; x_keep := true; x_id := false; x_dest := false; x_user := false |}.
Definition c75_f (n : nat) : frame := {| f_ba := true; f_data := repeat 7 n; f_keep := None; f_id := SNone; f_dest := SNone; f_user := SNone |}.
Example C75_axis_ex :
  let l := [(1, c75_f 9); (2, c75_f 4); (3, c75_f 1)] in
  list_sum (map (fun y => beats_of c75_cfg (snd y)) l) = 5%nat /\
  map nt_xfer (anotes c75_cfg (achan_init (-1) (-1) (-1) (-1)) false false (map (fun y => ACSrc (ASend (fst y) (snd y))) l ++ repeat ACClk 7)) = [false; true; true; true; true; true; false].
Proof. vm_compute. auto. Qed.
