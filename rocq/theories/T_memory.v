(** Property theorems C01-C04 (SparseMemory and Memory). *)
From Coq Require Import ZArith List Bool Lia.
From Verif Require Import Py S_flat M_sparse S_sparse P_sparse M_memory P_memory.
Import ListNotations.
Open Scope Z_scope.

(** C01: every history of calls returns what a flat zero-initialised array returns. *)
Theorem C01_sparse_memory_is_flat_array : forall size ops,
  snd (sm_run (sm_init size) ops) = snd (f_run (f_init size) ops).
Proof.
  intros. pose proof (sm_run_spec ops _ _ (sm_rel_init size)) as H.
  destruct (sm_run (sm_init size) ops), (f_run (f_init size) ops). apply H.
Qed.
Print Assumptions C01_sparse_memory_is_flat_array.

(** a history that straddles a block boundary, reads back, and includes rejected calls *)
Example C01_nontrivial :
  snd (sm_run (sm_init 10000)
    [SWrite 4094 [1;2;3;4;5]; SRead 4093 7; SWrite 9999 [1;2]; SRead 10000 0; SClear; SRead 4094 2])
  = [OUnit; OBytes [0;1;2;3;4;5;0]; OErr ValueError; OErr ValueError; OUnit; OBytes [0;0]].
Proof. vm_compute. reflexivity. Qed.

(** C01: a rejected write of bytes changes nothing at all. *)
Theorem C01_rejected_write_no_effect : forall size m a d m' e,
  sm_reachable size m -> are_bytes d -> sm_write m a d = (m', Err e) -> m' = m /\ e = ValueError.
Proof.
  intros size m a d m' e Hr Hd H. eapply sm_write_atomic; eauto.
  destruct (sm_reachable_rel _ _ Hr) as (s & Hs & _). eauto.
Qed.
Print Assumptions C01_rejected_write_no_effect.

(** The hypothesis [are_bytes] is needed: a list with an element outside range(256) in a
    later block leaves the earlier block modified although ValueError was raised. *)
Theorem C01_rejected_list_write_no_effect_refuted :
  exists size m a d m', sm_reachable size m /\ sm_write m a d = (m', Err ValueError)
    /\ sm_read m' 4095 1 <> sm_read m 4095 1.
Proof.
  exists 10000, (sm_init 10000), 4095, [7; 256].
  eexists. split; [now exists []|]. split; [reflexivity|]. vm_compute. discriminate.
Qed.
Print Assumptions C01_rejected_list_write_no_effect_refuted.

(** C02: slices read the Python slice of the contents (clamped bounds); an empty slice that
    starts at the end, and a reversed slice, raise ValueError instead of returning b''. *)
Theorem C02_getitem_slice : forall size m a b st,
  sm_reachable size m -> 0 <= size -> (st = None \/ st = Some 1) ->
  let a' := py_bound size 0 a in
  let b' := py_bound size size b in
  sm_getitem m (KSlice a b st) =
    if (a' <=? b') && (a' <? size)
    then Ok (zslice (map (peek m) (zrange 0 size)) a' b')
    else Err ValueError.
Proof. intros size m a b st. exact (sm_getitem_slice m size a b st). Qed.
Print Assumptions C02_getitem_slice.

Theorem C02_setitem_slice : forall size m a b st v,
  sm_reachable size m -> 0 <= size -> (st = None \/ st = Some 1) ->
  let a' := py_bound size 0 a in
  let b' := py_bound size size b in
  let '(m', r) := sm_setitem m (KSlice a b st) v in
  (are_bytes v /\ zlen v = b' - a' /\ a' < size ->
     r = Ok tt /\
     forall x, 0 <= x < size ->
       peek m' x = if (a' <=? x) && (x <? b') then znth 0 v (x - a') else peek m x) /\
  (~ (are_bytes v /\ zlen v = b' - a' /\ a' < size) ->
     m' = m /\ exists e, r = Err e).
Proof. intros size m a b st v. exact (sm_setitem_slice m size a b st v). Qed.
Print Assumptions C02_setitem_slice.

Example C02_nontrivial :
  let m := fst (sm_setitem (sm_init 8192) (KSlice (Some (-4097)) (Some (-4095)) None) [5; 6]) in
  sm_getitem m (KSlice (Some 4094) (Some 4099) (Some 1)) = Ok [0; 5; 6; 0; 0] /\
  sm_getitem m (KSlice (Some (-2)) None None) = Ok [0; 0] /\
  sm_getitem m (KInt 4095) = Ok [5] /\
  sm_getitem m (KSlice (Some 0) (Some 4) (Some 2)) = Err IndexError.
Proof. vm_compute. auto. Qed.

(** C03: word accessors round-trip, lay the words out in the stated byte order, and touch
    nothing else. *)
Theorem C03_words_roundtrip : forall size m a words bo ws,
  sm_reachable size m -> 0 <= ws -> 0 <= a < size -> a + ws * zlen words <= size ->
  Forall (fun w => 0 <= w < 256 ^ ws) words ->
  exists m', mem_write_words m a words bo ws = (m', Ok tt) /\
    mem_read_words m' a (zlen words) bo ws = Ok words /\
    (forall x, 0 <= x < size -> x < a \/ a + ws * zlen words <= x -> peek m' x = peek m x) /\
    (forall i j, 0 <= i < zlen words -> 0 <= j < ws ->
       peek m' (a + ws * i + j)
       = (znth 0 words i / 256 ^ (match bo with Little => j | Big => ws - 1 - j end)) mod 256).
Proof. exact mem_words_api. Qed.
Print Assumptions C03_words_roundtrip.

Example C03_nontrivial :
  let m := fst (mem_write_words (sm_init 8192) 4094 [258; 772] Big 3) in
  mem_read_words m 4094 2 Big 3 = Ok [258; 772] /\ sm_read m 4094 6 = Ok [0; 1; 2; 0; 3; 4].
Proof. vm_compute. auto. Qed.

Theorem C03_words_overflow : forall m a words bo ws,
  0 <= ws -> ~ Forall (fun w => 0 <= w < 256 ^ ws) words ->
  mem_write_words m a words bo ws = (m, Err OverflowError).
Proof. exact mem_words_overflow. Qed.
Print Assumptions C03_words_overflow.

Example C03_overflow_nontrivial :
  ~ Forall (fun w => 0 <= w < 256 ^ 2) [1; 65536].
Proof.
  intros H. rewrite Forall_forall in H.
  destruct (H 65536 ltac:(cbn; auto)) as [_ C]. change (256 ^ 2) with 65536 in C. lia.
Qed.

Theorem C03_single_word : forall size m a w bo ws,
  sm_reachable size m -> 0 <= ws -> 0 <= a < size -> a + ws <= size -> 0 <= w < 256 ^ ws ->
  exists m', mem_write_word m a w bo ws = (m', Ok tt) /\ mem_read_word m' a bo ws = Ok w.
Proof. exact mem_single_word. Qed.
Print Assumptions C03_single_word.

Theorem C03_dword_qword : forall size m a w bo,
  sm_reachable size m -> 0 <= a ->
  (a + 4 <= size -> 0 <= w < 2 ^ 32 ->
     exists m', mem_write_dword m a w bo = (m', Ok tt) /\ mem_read_dword m' a bo = Ok w) /\
  (a + 8 <= size -> 0 <= w < 2 ^ 64 ->
     exists m', mem_write_qword m a w bo = (m', Ok tt) /\ mem_read_qword m' a bo = Ok w).
Proof.
  intros size m a w bo Hr Ha. split; intros Hs Hw.
  - apply (mem_single_word size m a w bo 4); auto; lia.
  - apply (mem_single_word size m a w bo 8); auto; lia.
Qed.
Print Assumptions C03_dword_qword.

Theorem C03_byte : forall size m a b,
  sm_reachable size m -> 0 <= a < size -> is_byte b ->
  exists m', mem_write_byte m a b = (m', Ok tt) /\ mem_read_byte m' a = Ok b.
Proof. exact mem_byte_api. Qed.
Print Assumptions C03_byte.

Example C03_single_nontrivial :
  mem_read_qword (fst (mem_write_qword (sm_init 5000) 4090 (2 ^ 64 - 2) Little)) 4090 Little
    = Ok (2 ^ 64 - 2) /\
  mem_read_byte (fst (mem_write_byte (sm_init 16) 15 200)) 15 = Ok 200.
Proof. vm_compute. auto. Qed.

(** Memory.read never raises for an existing start address: it silently returns fewer bytes at
    the end of the memory. *)
Theorem C03_read_truncates : forall size m a n,
  sm_reachable size m -> 0 <= a < size -> 0 <= n ->
  mem_read m a n = Ok (map (peek m) (zrange a (Z.min (a + n) size))).
Proof. exact mem_read_api. Qed.
Print Assumptions C03_read_truncates.

Example C03_read_truncates_nontrivial : mem_read (sm_init 16) 14 8 = Ok [0; 0].
Proof. reflexivity. Qed.

(** C04: construction succeeds exactly for sizes below 2**63 ... *)
Theorem C04_memory_constructible_partial : forall size,
  (exists m, mem_new size = Ok m) <-> 0 <= size < 2 ^ 63.
Proof.
  intros size. unfold mem_new, sm_len, sm_init, py_len. cbn [sm_size].
  destruct (Z.ltb_spec size 0).
  - split; [intros [m H1]; discriminate|lia].
  - destruct (Z.ltb_spec size (2 ^ 63)); cbn [bind].
    + split; [lia|eauto].
    + split; [intros [m H1]; discriminate|lia].
Qed.
Print Assumptions C04_memory_constructible_partial.

(** ... so the documented default size 2**64 raises OverflowError. *)
Theorem C04_memory_default_size_refuted : mem_new (2 ^ 64) = Err OverflowError.
Proof. reflexivity. Qed.
Print Assumptions C04_memory_default_size_refuted.

Example C04_nontrivial : mem_new (2 ^ 16) = Ok (sm_init (2 ^ 16)).
Proof. reflexivity. Qed.
