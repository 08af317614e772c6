(** Model of include/sleipnir/util/pool.hpp and src/util/pool.cpp. *)
From Coq Require Import ZArith List.
From Verif Require Import Base.
Import ListNotations.
Open Scope Z_scope.

(** An address: the chunk ([m_buffer] entry) and the byte offset inside it. *)
Definition addr : Type := nat * Z.

(** pool.hpp 89-91: [m_buffer] (size in bytes of each chunk), [m_free_list] (head of the list =
    [back()] of the vector), [blocks_per_chunk]. *)
Record pool := mkPool { p_chunks : list Z; p_free : list addr; p_bpc : Z }.

Definition SIZE_MAX := 2 ^ 64 - 1.

(** pool.hpp 25-26. *)
Definition pool_new (bpc : Z) : pool := mkPool [] [] bpc.

(** pool.hpp 99-101: the loop appends blocks i = n-1 downto 0, so block 0 ends at the back of the
    vector; as a stack this is block 0 on top. *)
Definition chunk_blocks (chunk : nat) (bytes : Z) (n : nat) : list addr :=
  map (fun i => (chunk, bytes * Z.of_nat i)) (seq 0 n).

(** pool.hpp 97-102.  A byte count beyond size_t wraps in C++ and the loop then forms pointers past
    the array: [UB].  [int i = blocks_per_chunk - 1] is modelled for counts below 2^31. *)
Definition add_chunk (p : pool) (bytes : Z) : outcome pool :=
  if bytes * p_bpc p <=? SIZE_MAX then
    Ok (mkPool (p_chunks p ++ [bytes * p_bpc p])
               (chunk_blocks (length (p_chunks p)) bytes (Z.to_nat (p_bpc p)) ++ p_free p)
               (p_bpc p))
  else UB.

(** pool.hpp 49-58. [back()] of an empty vector is UB. *)
Definition allocate (p : pool) (bytes : Z) : outcome (addr * pool) :=
  let* p := (match p_free p with [] => add_chunk p bytes | _ => Ok p end) in
  match p_free p with
  | [] => UB
  | a :: f => Ok (a, mkPool (p_chunks p) f (p_bpc p))
  end.

(** pool.hpp 65-69. *)
Definition deallocate (p : pool) (a : addr) : pool :=
  mkPool (p_chunks p) (a :: p_free p) (p_bpc p).

(** pool.hpp 84-86 (size_t arithmetic; the subtraction is checked in the theorem not to wrap). *)
Definition blocks_in_use (p : pool) : Z :=
  Z.of_nat (length (p_chunks p)) * p_bpc p - Z.of_nat (length (p_free p)).

(** src/util/pool.cpp 5-8: one pool per thread; two threads, [false] and [true].  A node is returned
    to the pool of the thread that drops the last handle (expression.hpp 759-761); a thread's pool dies
    with the thread. *)
Definition taddr : Type := bool * addr.   (* owning thread of the chunk, address *)

Record tpool := mkTPool { t_chunks : list Z; t_free : list taddr; t_bpc : Z }.
Record threads := mkThreads { th_a : option tpool; th_b : option tpool }.

(** global_pool_resource() of a thread, src/util/pool.cpp 5-8. *)
Definition th_get (s : threads) (t : bool) := if t then th_b s else th_a s.
(** The pool of a thread changes. *)
Definition th_set (s : threads) (t : bool) (p : option tpool) :=
  if t then mkThreads (th_a s) p else mkThreads p (th_b s).

(** allocate on thread [t] (as [allocate], free-list entries remember the thread owning the chunk). *)
Definition t_allocate (s : threads) (t : bool) (bytes : Z) : outcome (taddr * threads) :=
  match th_get s t with
  | None => UB
  | Some p =>
      let p := match t_free p with
               | [] => mkTPool (t_chunks p ++ [bytes * t_bpc p])
                         (map (fun a => (t, a)) (chunk_blocks (length (t_chunks p)) bytes (Z.to_nat (t_bpc p))))
                         (t_bpc p)
               | _ => p
               end in
      match t_free p with
      | [] => UB
      | a :: f => Ok (a, th_set s t (Some (mkTPool (t_chunks p) f (t_bpc p))))
      end
  end.

(** deallocate on thread [t]. *)
Definition t_deallocate (s : threads) (t : bool) (a : taddr) : outcome threads :=
  match th_get s t with
  | None => UB
  | Some p => Ok (th_set s t (Some (mkTPool (t_chunks p) (a :: t_free p) (t_bpc p))))
  end.

(** Thread exit destroys its thread_local pool and so frees its chunks. *)
Definition t_exit (s : threads) (t : bool) : threads := th_set s t None.
