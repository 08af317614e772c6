(** Models of kkt_error.hpp and lagrange_multiplier_estimate.hpp
    (include/sleipnir/optimization/solver/util).  Jacobians are dense lists of rows (simplification: the code
    stores them sparsely). *)
From Coq Require Import ZArith List Bool.
From Verif Require Import Base ExprModel NumModel UtilModel.
Import ListNotations.

Section Kkt.
Context {S : nops}.
Notation "0" := (s_ofZ S 0).
Notation "1" := (s_ofZ S 1).
Infix "+" := (s_add S).
Infix "*" := (s_mul S).
Infix "/" := (s_div S).

(** a.cwiseProduct(b), as in kkt_error.hpp 118-146. *)
Definition vmul (a b : list S) : list S := vmap2 (s_mul S) a b.
(** s.cwiseInverse(), interior_point.hpp 426, 447, 480, 509. *)
Definition vinv (v : list S) : list S := map (fun x => 1 / x) v.
(** d.asDiagonal() * A *)
Definition diag_mul (d : list S) (A : mat (S := S)) : mat (S := S) := map (fun p => vscale (fst p) (snd p)) (combine d A).
Definition rows_of (v : list S) : S := s_ofZ S (Z.of_nat (length v)).

Definition s_max : S := s_ofZ S 100.
(** kkt_error.hpp 62-65, 112-120 *)
Definition s_factor (sum rows : S) : S := smax s_max (sum / rows) / s_max.

(** kkt_error.hpp 30-40 *)
Definition kkt_newton (g : list S) : S := norminf g.
Definition kkt1_newton (g : list S) : S := norm1 g.
(** kkt_error.hpp 51-77; [n] is the number of columns *)
Definition kkt_sqp (n : nat) (g : list S) (A_e : mat) (c_e y : list S) : S :=
  smax (norminf (vsub g (mtvec n A_e y)) / s_factor (norm1 y) (rows_of y)) (norminf c_e).
Definition kkt1_sqp (n : nat) (g : list S) (A_e : mat) (c_e y : list S) : S :=
  norm1 (vsub g (mtvec n A_e y)) + norm1 c_e.
(** kkt_error.hpp 93-146 *)
Definition kkt_ipm (n : nat) (g : list S) (A_e : mat) (c_e : list S) (A_i : mat) (c_i s y z : list S) (mu : S) : S :=
  let s_d := s_factor (norm1 y + norm1 z) (s_ofZ S (Z.of_nat (length y + length z))) in
  let s_c := s_factor (norm1 z) (rows_of z) in
  let mue := repeat mu (length s) in
  smax (smax (smax (norminf (vsub (vsub g (mtvec n A_e y)) (mtvec n A_i z)) / s_d)
                   (norminf (vsub (vmul s z) mue) / s_c))
             (norminf c_e))
       (norminf (vsub c_i s)).
(** kkt_error.hpp 93-146 with the 1-norm. *)
Definition kkt1_ipm (n : nat) (g : list S) (A_e : mat) (c_e : list S) (A_i : mat) (c_i s y z : list S) (mu : S) : S :=
  norm1 (vsub (vsub g (mtvec n A_e y)) (mtvec n A_i z)) + norm1 (vsub (vmul s z) (repeat mu (length s))) + norm1 c_e + norm1 (vsub c_i s).

(** kkt_error.hpp 155-167 *)
Definition unscaled_newton (sc : scaling S) (g : list S) : S :=
  if is_identity sc then kkt_newton g else kkt_newton (vscale (1 / sc_f sc) g).
(** kkt_error.hpp 181-204 *)
Definition unscaled_sqp (sc : scaling S) (n : nat) (g : list S) (A_e : mat) (c_e y : list S) : S :=
  if is_identity sc then kkt_sqp n g A_e c_e y
  else
    let i := 1 / sc_f sc in
    let ie := vinv (sc_e sc) in
    kkt_sqp n (vscale i g) (diag_mul ie A_e) (vmul ie c_e) (map (fun v => v * i) (vmul (sc_e sc) y)).
(** kkt_error.hpp 218-251 *)
Definition unscaled_ipm (sc : scaling S) (n : nat) (g : list S) (A_e : mat) (c_e : list S) (A_i : mat) (c_i s y z : list S) (mu : S) : S :=
  if is_identity sc then kkt_ipm n g A_e c_e A_i c_i s y z mu
  else
    let i := 1 / sc_f sc in
    let ie := vinv (sc_e sc) in
    let ii := vinv (sc_i sc) in
    kkt_ipm n (vscale i g) (diag_mul ie A_e) (vmul ie c_e) (diag_mul ii A_i) (vmul ii c_i) (vmul ii s)
      (map (fun v => v * i) (vmul (sc_e sc) y)) (map (fun v => v * i) (vmul (sc_i sc) z)) (i * mu).

(** lagrange_multiplier_estimate.hpp.  [solve L r] is SimplicialLDLT's solution of L x = r. *)
Variable solve : mat (S := S) -> list S -> list S.
(** A A^T *)
Definition mmt (A : mat (S := S)) : mat (S := S) := map (fun r => map (fun r' => vdot r r') A) A.
(** 34-45 *)
Definition estimate_sqp (g : list S) (A_e : mat) : list S := solve (mmt A_e) (mvec A_e g).
(** 83-92: A_hat = [A_e 0; A_i -S] (simplification: dense; the triplets are UtilModel.append_as_triplets) *)
Definition unit_row (n i : nat) (v : S) : list S := map (fun j => if Nat.eqb j i then v else 0) (seq 0 n).
Definition A_hat (A_e A_i : mat (S := S)) (s : list S) : mat (S := S) :=
  map (fun r => r ++ repeat 0 (length s)) A_e ++
  map (fun p => fst p ++ unit_row (length s) (fst (snd p)) (s_opp S (snd (snd p)))) (combine A_i (combine (seq 0 (length s)) s)).
(** 83-88 as triplets *)
Definition A_hat_triplets (A_e A_i : csc S) (s : list S) : outcome (sparse S) :=
  let* t := append_as_triplets [] 0 0 [A_e; A_i] in
  Ok (append_diagonal t (c_rows A_e) (length (c_cols A_i)) (map (s_opp S) s)).
(** 56-131 *)
Definition estimate_raw (g : list S) (A_e A_i : mat) (s : list S) (mu : S) : list S :=
  let A := A_hat A_e A_i s in solve (mmt A) (mvec A (g ++ repeat (s_opp S mu) (length s))).
Definition estimate_ipm (g : list S) (A_e A_i : mat) (s : list S) (mu : S) : outcome (list S * list S) :=
  let sol := estimate_raw g A_e A_i s mu in
  let* z := clamp_zs mu s (firstn (length s) (skipn (length A_e) sol)) in
  Ok (firstn (length A_e) sol, z).
End Kkt.
