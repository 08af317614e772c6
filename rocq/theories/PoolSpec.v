(** Client histories of a pool and the memory-safety vocabulary. *)
From Coq Require Import ZArith List.
From Verif Require Import Base PoolModel.
Import ListNotations.
Open Scope Z_scope.

(** A block in use: its address and requested size. *)
Definition blk : Type := addr * Z.

(** Byte [x] of chunk [c] belongs to block [b]. *)
Definition covers (b : blk) (c : nat) (x : Z) : Prop :=
  fst (fst b) = c /\ snd (fst b) <= x < snd (fst b) + snd b.

Definition disjoint (b b' : blk) : Prop := forall c x, covers b c x -> covers b' c x -> False.

(** All bytes of the block lie in memory owned by the pool. *)
Definition owned (p : pool) (b : blk) : Prop :=
  forall c x, covers b c x -> exists size, nth_error (p_chunks p) c = Some size /\ 0 <= x < size.

(** [hist bs bpc p live na nd]: after some history of [na] allocations and [nd] deallocations on a
    fresh pool the blocks in use are [live].  Requests are at most [bs] bytes and the requests that
    extend the pool are of exactly [bs] bytes (e.g. all requests have size [bs]). *)
Inductive hist (bs bpc : Z) : pool -> list blk -> nat -> nat -> Prop :=
| h_new : hist bs bpc (pool_new bpc) [] 0 0
| h_alloc p live na nd k a p' : hist bs bpc p live na nd ->
    0 < k <= bs -> (p_free p = [] -> k = bs) ->
    allocate p k = Ok (a, p') -> hist bs bpc p' ((a, k) :: live) (S na) nd
| h_free p l1 b l2 na nd : hist bs bpc p (l1 ++ b :: l2) na nd ->
    hist bs bpc (deallocate p (fst b)) (l1 ++ l2) na (S nd).
