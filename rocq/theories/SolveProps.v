(** Property C09. *)
From Coq Require Import ZArith List Lia Reals Lra.
From Verif Require Import Base SliceModel MatrixModel MatrixSpec MatrixProofs SolveModel SolveSpec SolveProofs.
Import ListNotations.
Open Scope Z_scope.

(** C09 (part): 2x2, 3x3 and 4x4 systems with any number of right-hand sides, 1x1 systems with one
    right-hand side.  Missing: 1x1 with several right-hand sides (refuted below). *)
Theorem C09_solve_partial n p A B F G : (n = 2 \/ n = 3 \/ n = 4 \/ (n = 1 /\ p = 1)) ->
  represents A n n F -> represents B n p G -> det (Z.to_nat n) F <> 0%R ->
  exists m X, solve A B = Some (Ok m) /\ represents m n p X /\ solves n p F X G.
Proof. exact (solve_ok n p A B F G). Qed.
Print Assumptions C09_solve_partial.

Example C09_example :
  represents (mat_lit 2 2 [1; 2; 3; 4]%R) 2 2 (fun i j => nth (Z.to_nat (i * 2 + j)) [1; 2; 3; 4]%R 0%R) /\
  det 2 (fun i j => nth (Z.to_nat (i * 2 + j)) [1; 2; 3; 4]%R 0%R) <> 0%R.
Proof.
  split; [apply mat_lit_rep; [unfold dims, INT_MAX; lia|reflexivity]|]. cbv -[Rplus Rmult Rminus Ropp Rdiv IZR]. intros H. lra.
Qed.

(** C09 (full claim is false): for a 1x1 matrix and a 1x2 right-hand side the result is 1x1. *)
Theorem C09_solve_refuted : exists A B F G m,
  represents A 1 1 F /\ represents B 1 2 G /\ det 1 F <> 0%R /\ solve A B = Some (Ok m) /\ m_cols m = 1.
Proof.
  exists (mat_lit 1 1 [2%R]), (mat_lit 1 2 [1%R; 1%R]).
  eexists _, _, _. split; [apply mat_lit_rep; [unfold dims, INT_MAX; lia|reflexivity]|].
  split; [apply mat_lit_rep; [unfold dims, INT_MAX; lia|reflexivity]|].
  split; [cbv -[Rplus Rmult Rminus Ropp Rdiv IZR]; intros H; lra|]. split; reflexivity.
Qed.
Print Assumptions C09_solve_refuted.
