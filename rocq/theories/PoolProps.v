(** Properties C11, C12, C69. *)
From Coq Require Import ZArith List Lia.
From Verif Require Import Base PoolModel PoolSpec PoolProofs.
Import ListNotations.
Open Scope Z_scope.

(** C11: in every reachable state, blocks in use are pairwise disjoint, inside memory the pool owns
    and disjoint from every block on the free list; the counter is exact. *)
Theorem C11_pool_safe bs bpc p live na nd : 0 < bs -> 0 < bpc -> hist bs bpc p live na nd ->
  (forall l1 b l2 b' l3, live = l1 ++ b :: l2 ++ b' :: l3 -> disjoint b b') /\
  (forall b, In b live -> owned p b) /\
  (forall b a, In b live -> In a (p_free p) -> disjoint b (a, bs)) /\
  blocks_in_use p = Z.of_nat na - Z.of_nat nd /\ 0 <= blocks_in_use p.
Proof. exact (pool_safe bs bpc p live na nd). Qed.
Print Assumptions C11_pool_safe.

(** C11: allocation always succeeds, and reuses a freed block if there is one. *)
Theorem C11_pool_total bs bpc p live na nd k : 0 < bs -> 0 < bpc -> bs * bpc <= SIZE_MAX ->
  hist bs bpc p live na nd -> (p_free p = [] -> k = bs) ->
  exists a p', allocate p k = Ok (a, p') /\
    (p_free p <> [] -> p_chunks p' = p_chunks p /\ In a (p_free p)).
Proof. exact (pool_total bs bpc p live na nd k). Qed.
Print Assumptions C11_pool_total.

(** Three allocations from a pool of two-block chunks, then one deallocation. *)
Example C11_example : exists p, hist 16 2 p [((0%nat, 16), 16); ((0%nat, 0), 16)] 3 1 /\ blocks_in_use p = 2.
Proof.
  exists (mkPool [32; 32] [(1%nat, 0); (1%nat, 16)] 2). split; [|reflexivity].
  apply (h_free 16 2 (mkPool [32; 32] [(1%nat, 16)] 2) [] ((1%nat, 0), 16) [((0%nat, 16), 16); ((0%nat, 0), 16)] 3 0).
  apply (h_alloc 16 2 (mkPool [32] [] 2)); [|lia|intros _; reflexivity|reflexivity].
  apply (h_alloc 16 2 (mkPool [32] [(0%nat, 16)] 2)); [|lia|intros _; reflexivity|reflexivity].
  apply (h_alloc 16 2 (pool_new 2)); [apply h_new|lia|intros _; reflexivity|reflexivity].
Qed.

(** C12 (full claim is false): two requests of different sizes on one pool; the second block runs
    past the end of the chunk. *)
Theorem C12_mixed_sizes_refuted : exists p1 p2 a b,
  allocate (pool_new 2) 8 = Ok (a, p1) /\ allocate p1 16 = Ok (b, p2) /\ ~ owned p2 (b, 16).
Proof.
  eexists _, _, _, _. split; [reflexivity|]. split; [reflexivity|].
  intros H. destruct (H 0%nat 20) as (size & E & L); [split; cbn; [reflexivity|lia]|].
  cbn in E. injection E as <-. lia.
Qed.
Print Assumptions C12_mixed_sizes_refuted.

(** C12 (part): when chunk-extending requests are the largest, every returned block has its bytes to
    itself. *)
Theorem C12_size_served_partial bs bpc p live na nd k a p' : 0 < bs -> 0 < bpc ->
  hist bs bpc p live na nd -> 0 < k <= bs -> (p_free p = [] -> k = bs) -> allocate p k = Ok (a, p') ->
  owned p' (a, k) /\ forall b, In b live -> disjoint (a, k) b.
Proof.
  exact (fun Hbs Hbpc H Hk Hf E =>
    let H' := h_alloc bs bpc p live na nd k a p' H Hk Hf E in
    let S := pool_safe bs bpc p' _ _ _ Hbs Hbpc H' in
    conj (proj1 (proj2 S) (a, k) (or_introl eq_refl))
      (fun b Hb => match in_split b live Hb with
       | ex_intro _ l1 (ex_intro _ l2 Hs) =>
           proj1 S [] (a, k) l1 b l2 (f_equal (cons (a, k)) Hs) end)).
Qed.
Print Assumptions C12_size_served_partial.

(** C69 (claim is false): a node created on one thread, destroyed on another; after the first thread
    ends, the second thread's pool hands out memory of the dead pool. *)
Theorem C69_cross_thread_refuted : exists s1 s2 a b s4,
  t_allocate (mkThreads (Some (mkTPool [] [] 2)) (Some (mkTPool [] [] 2))) false 16 = Ok (a, s1) /\
  t_deallocate s1 true a = Ok s2 /\
  t_allocate (t_exit s2 false) true 16 = Ok (b, s4) /\
  fst b = false /\ th_get s4 false = None.
Proof. eexists _, _, _, _, _. repeat split; reflexivity. Qed.
Print Assumptions C69_cross_thread_refuted.
