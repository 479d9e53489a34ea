(** Property theorems C06-C09 (BuddyAllocator). *)
From Coq Require Import ZArith List Bool Lia.
From Verif Require Import Py M_buddy S_buddy P_buddy.
Import ListNotations.
Open Scope Z_scope.

(** C06: a successful allocation is large enough, naturally aligned and disjoint from all
    allocations that are live according to the history. *)
Theorem C06_alloc_aligned_disjoint : forall size mn b live n b' a,
  b_reach size mn b live -> b_alloc_op b n = (b', Ok a) ->
  let B := block_size mn n in
  n <= B /\ mn <= B /\ a mod B = 0 /\ 0 <= a /\ a + B <= managed size /\
  forall a' B', In (a', B') live -> disjoint a B a' B'.
Proof. exact buddy_alloc_ok. Qed.
Print Assumptions C06_alloc_aligned_disjoint.

Theorem C06_live_pairwise_disjoint : forall size mn b live,
  1 <= size -> b_reach size mn b live ->
  ForallOrdPairs (fun p q => disjoint (fst p) (snd p) (fst q) (snd q)) live /\
  Forall (fun p => 0 <= fst p /\ fst p mod snd p = 0 /\ fst p + snd p <= managed size) live.
Proof. exact buddy_live_disjoint. Qed.
Print Assumptions C06_live_pairwise_disjoint.

Example C06_nontrivial :
  let ops := [BAlloc 3; BAlloc 16; BAlloc 1; BFree 0; BAlloc 5; BAlloc 100; BAlloc 2] in
  snd (b_run (b_init 64 2) ops)
    = [BAddr 0; BAddr 16; BAddr 4; BDone; BAddr 8; BErr ValueError; BAddr 6] /\
  live_after 2 [] ops (snd (b_run (b_init 64 2) ops)) = [(16, 16); (4, 2); (8, 8); (6, 2)].
Proof. vm_compute. auto. Qed.

(** C07: inside [0, size) for power-of-two capacities ... *)
Theorem C07_alloc_in_range : forall size mn b live n b' a,
  is_pow2 size -> b_reach size mn b live -> b_alloc_op b n = (b', Ok a) ->
  0 <= a /\ a + block_size mn n <= size.
Proof.
  intros size mn b live n b' a Hp HR HA.
  pose proof (buddy_alloc_ok _ _ _ _ _ _ _ HR HA) as H. cbv zeta in H.
  rewrite managed_pow2 in H by auto. tauto.
Qed.
Print Assumptions C07_alloc_in_range.

(** ... and for every other capacity some history of two calls hands out bytes beyond it. *)
Theorem C07_alloc_in_range_other_sizes_refuted : forall size,
  1 <= size -> ~ is_pow2 size ->
  exists n ops a, snd (b_run (b_init size 1) ops) = [BAddr (fst a); BAddr (snd a)] /\
    ops = [BAlloc n; BAlloc n] /\ 1 <= n <= size /\
    (size < fst a + n \/ size < snd a + n).
Proof. exact buddy_overrun. Qed.
Print Assumptions C07_alloc_in_range_other_sizes_refuted.

Example C07_nontrivial :
  snd (b_run (b_init 3 1) [BAlloc 2; BAlloc 2]) = [BAddr 0; BAddr 2] /\
  snd (b_run (b_init 4 1) [BAlloc 2; BAlloc 2; BAlloc 1]) = [BAddr 0; BAddr 2; BErr Plain].
Proof. vm_compute. auto. Qed.

(** C08: free succeeds exactly on live addresses; failures have no effect and are ValueError. *)
Theorem C08_free_iff_live : forall size mn b live a,
  b_reach size mn b live ->
  ((exists b', b_free_op b a = (b', Ok tt)) <-> exists B, In (a, B) live) /\
  (forall b' e, b_free_op b a = (b', Err e) -> b' = b /\ e = ValueError).
Proof. exact buddy_free_iff. Qed.
Print Assumptions C08_free_iff_live.

(** C08: with nothing live the allocator is exactly in its initial state. *)
Theorem C08_all_freed_is_initial : forall size mn b,
  b_reach size mn b [] -> b = b_init size mn.
Proof. exact buddy_all_freed. Qed.
Print Assumptions C08_all_freed_is_initial.

Example C08_nontrivial :
  let ops := [BAlloc 3; BAlloc 1; BAlloc 9; BFree 4; BFree 4; BFree 16; BFree 0] in
  snd (b_run (b_init 32 1) ops) =
    [BAddr 0; BAddr 4; BAddr 16; BDone; BErr ValueError; BDone; BDone] /\
  live_after 1 [] ops (snd (b_run (b_init 32 1) ops)) = [].
Proof. vm_compute. auto. Qed.

(** C09: allocation succeeds iff some aligned block of the rounded size is free of live bytes. *)
Theorem C09_alloc_succeeds_iff_space : forall size mn b live n,
  b_reach size mn b live -> 1 <= n <= size ->
  let B := block_size mn n in
  (exists b' a, b_alloc_op b n = (b', Ok a)) <->
  (exists A, A mod B = 0 /\ 0 <= A /\ A + B <= managed size /\
     forall a' B', In (a', B') live -> disjoint A B a' B').
Proof. exact buddy_alloc_complete. Qed.
Print Assumptions C09_alloc_succeeds_iff_space.

(** a failing allocation changes nothing; out-of-range requests are ValueError, lack of space is
    the plain "out of memory" exception *)
Theorem C09_alloc_failure_no_effect : forall size mn b live n b' e,
  b_reach size mn b live -> b_alloc_op b n = (b', Err e) ->
  b' = b /\ (e = if (1 <=? n) && (n <=? size) then Plain else ValueError).
Proof. exact buddy_alloc_err. Qed.
Print Assumptions C09_alloc_failure_no_effect.

(** fragmentation: four bytes free but not as an aligned pair *)
Example C09_nontrivial :
  snd (b_run (b_init 4 1) [BAlloc 1; BAlloc 1; BAlloc 1; BAlloc 1; BFree 1; BFree 2; BAlloc 2; BFree 3; BAlloc 2])
  = [BAddr 0; BAddr 1; BAddr 2; BAddr 3; BDone; BDone; BErr Plain; BDone; BAddr 2].
Proof. vm_compute. auto. Qed.
