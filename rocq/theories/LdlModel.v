(** An exact linear solver: LDL' elimination in natural order, inside RegularizedLDLT. It stands for Eigen's
    SimplicialLDLT and LDLT (external, not part of the repository; simplification: no reordering) as
    include/sleipnir/optimization/solver/util/{dense,sparse}_regularized_ldlt.hpp use them. *)
From Coq Require Import ZArith Reals List Bool.
From Verif Require Import Base ExprModel ExprReal ExprXR NumModel UtilModel SolverModel LinR.
Import ListNotations.
Local Open Scope R_scope.

(** What is left of a symmetric matrix when the first variable is eliminated. *)
Definition schur (M : nat -> nat -> R) : nat -> nat -> R := fun i j => M (S i) (S j) - M (S i) 0%nat * M 0%nat (S j) / M 0%nat 0%nat.
(** The diagonal D of M = L D L'; nothing when a pivot is 0. *)
Fixpoint pivots (n : nat) (M : nat -> nat -> R) : option (list R) :=
  match n with
  | O => Some []
  | S n => if Req_EM_T (M 0%nat 0%nat) 0 then None else match pivots n (schur M) with Some D => Some (M 0%nat 0%nat :: D) | None => None end
  end.
(** Elimination and back substitution. *)
Fixpoint ldl_solve (n : nat) (M : nat -> nat -> R) (r : nat -> R) : list R :=
  match n with
  | O => []
  | S n => let p := ldl_solve n (schur M) (fun i => r (S i) - M (S i) 0%nat / M 0%nat 0%nat * r 0%nat) in
           (r 0%nat - sumn n (fun j => M 0%nat (S j) * p.[j])) / M 0%nat 0%nat :: p
  end.

(** The symmetric matrix of which the lower triangle is read: rows of the top-left block, then rows of the bottom-left
    block, zero elsewhere. *)
Definition real (x : XR) : R := match x with Fin r => r | _ => 0 end.
Definition kkt_at (n : nat) (k : kkt Xn) (i j : nat) : R :=
  let a := Nat.max i j in let b := Nat.min i j in
  if Nat.ltb a n then real (nth b (nth a (k_tl k) []) (Fin 0)) else if Nat.ltb b n then real (nth b (nth (a - n) (k_bl k) []) (Fin 0)) else 0.
(** lhs + [d I, 0; 0, -g I]: dense 201-209, sparse 218-226 (regularization). *)
Definition regularized (n : nat) (M : nat -> nat -> R) (d g : R) (i j : nat) : R :=
  if Nat.eqb i j then if Nat.ltb i n then M i j + d else M i j - g else M i j.
(** What the object remembers: sizes, gamma_min, the matrix that was factored, delta of the last call. *)
Record ldl := mkLdl { l_n : nat; l_m : nat; l_gmin : R; l_M : nat -> nat -> R; l_prev : R }.
(** dense 34-156, sparse 36-173 behind regularized_ldlt.hpp 38-118: constructors, compute(), solve(); [fuel] bounds the regularization loop (see C46).
    Simplification: after a failed compute() the matrix kept is the one with the last delta and gamma, which was never factored
    (only Newton's method calls solve() then). *)
Definition ldl_lin (fuel : nat) : linear Xn := mkLin (S := Xn) ldl
  (fun n m zero => mkLdl n m (if zero then 0 else 1 / IZR (10 ^ 10)) (fun _ _ => 0) 0)
  (fun l k =>
     let n := l_n l in let M := kkt_at n k in
     match ldlt_compute (S := Rn) fuel (fun d g => pivots (n + l_m l) (regularized n M d g)) n (l_m l) (l_gmin l) (l_prev l) with
     | Ok r => (mkLdl n (l_m l) (l_gmin l) (regularized n M (ld_d r) (ld_g r)) (ld_d r), ld_ok r)
     | _ => (l, false)
     end)
  (fun l b => map Fin (ldl_solve (length b) (l_M l) (fun i => real (nth i b (Fin 0))))).
(** The rest of the environment stays arbitrary. *)
Definition with_ldl (fuel : nat) (E : env Xn) : env Xn := mkEnv (S := Xn) (ldl_lin fuel) (e_clock E) (e_est E).
