(** Models of small solver utilities (include/sleipnir/optimization/solver/util). *)
From Coq Require Import ZArith List Bool.
From Verif Require Import Base ExprModel NumModel.
Import ListNotations.

Section Util.
Context {S : nops}.
Notation "0" := (s_ofZ S 0).
Notation "1" := (s_ofZ S 1).
Infix "+" := (s_add S).
Infix "-" := (s_sub S).
Infix "*" := (s_mul S).
Infix "/" := (s_div S).
Infix "<?" := (s_ltb S).
Infix "<=?" := (s_leb S).

(** fraction_to_the_boundary_rule.hpp 20-43 (x and p of equal length). *)
Fixpoint ftb_from (x p : list S) (tau a : S) : S :=
  match x, p with
  | xi :: x, pi :: p =>
      ftb_from x p tau (if a * pi <? s_opp S tau * xi then s_opp S tau / pi * xi else a)
  | _, _ => a
  end.
(** fraction_to_the_boundary_rule.hpp 20-43: starting from 1. *)
Definition ftb (x p : list S) (tau : S) : S := ftb_from x p tau 1.

(** is_locally_infeasible.hpp 18-29. [n] is the number of columns of A_e. *)
Definition eq_infeasible (n : nat) (A_e : mat (S := S)) (c_e : list S) : bool :=
  negb (Nat.eqb (length A_e) 0) && (norm2 (mtvec n A_e c_e) <? lit 1 6) && (lit 1 2 <? norm2 c_e).
(** is_locally_infeasible.hpp 37-60. *)
Definition ineq_infeasible (n : nat) (A_i : mat (S := S)) (c_i : list S) : bool :=
  if negb (Nat.eqb (length A_i) 0) then
    let cp := map (fun c => smin c 0) c_i in
    (norm2 (mtvec n A_i cp) <? lit 1 6) && (lit 1 6 <? norm2 cp)
  else false.

(** Stored entries (row, column, value) of a sparse matrix, in storage order. *)
Definition sparse := list (nat * nat * S).

(** all_finite.hpp 16-28. *)
Definition all_finite (A : sparse) : bool := forallb (fun '(_, _, v) => s_finite S v) A.

Fixpoint set_nth (l : list S) (i : nat) (v : S) : list S :=
  match l, i with
  | [], _ => []
  | _ :: l, O => v :: l
  | x :: l, Datatypes.S i => x :: set_nth l i v
  end.

(** sparse_inf_norms.hpp 18-32. *)
Definition sparse_inf_norms (rows : nat) (A : sparse) : list S :=
  fold_left (fun ns '(r, _, v) => set_nth ns r (smax (nth r ns 0) (s_abs S v))) A (repeat 0 rows).

(** problem_scaling.hpp 33-39. *)
Record scaling := mkSc { sc_f : S; sc_e : list S; sc_i : list S }.
Definition g_max : S := s_ofZ S 100.
(** 59-63, 79-80. *)
Definition scale_of (n : S) : S := smin 1 (g_max / n).
(** 59-63. *)
Definition scaling_newton (g : list S) : scaling := mkSc (scale_of (norminf g)) [] [].
(** 78-83: [.min(Scalar(1))] keeps the quotient unless 1 is smaller. *)
Definition scale_rows (rows : nat) (A : sparse) : list S := map (fun n => smin (g_max / n) 1) (sparse_inf_norms rows A).
Definition scaling_sqp (g : list S) (me : nat) (A_e : sparse) : scaling := mkSc (scale_of (norminf g)) (scale_rows me A_e) [].
(** 100-107. *)
Definition scaling_ipm (g : list S) (me : nat) (A_e : sparse) (mi : nat) (A_i : sparse) : scaling :=
  mkSc (scale_of (norminf g)) (scale_rows me A_e) (scale_rows mi A_i).
(** 112-114. *)
Definition is_identity (s : scaling) : bool :=
  s_eqb S (sc_f s) 1 && Nat.eqb (length (sc_e s)) 0 && Nat.eqb (length (sc_i s)) 0.

(** feasibility_restoration.hpp 85-97: one row of compute_p_n; the pair is (p, n). *)
Definition p_n (c rho mu : S) : S * S :=
  let a := rho in
  let b := rho * c - mu in
  let cc := s_opp S mu * c / s_ofZ S 2 in
  let n := (s_opp S b + s_sqrt S (b * b - s_ofZ S 4 * a * cc)) / (s_ofZ S 2 * a) in
  (c + n, n).
(** feasibility_restoration.hpp 52-100: all rows. *)
Definition compute_p_n (c : list S) (rho mu : S) : list S * list S :=
  (map (fun x => fst (p_n x rho mu)) c, map (fun x => snd (p_n x rho mu)) c).

(** std::clamp (undefined behaviour when hi < lo). *)
Definition clamp (v lo hi : S) : outcome S :=
  if hi <? lo then UB else Ok (if v <? lo then lo else if hi <? v then hi else v).
Definition kappa_sigma : S := s_ofZ S 10000000000.
(** lagrange_multiplier_estimate.hpp 123-126, interior_point.hpp 799-803: one row. *)
Definition clamp_z (mu s z : S) : outcome S := clamp z (1 / kappa_sigma * mu / s) (kappa_sigma * mu / s).
Fixpoint clamp_zs (mu : S) (s z : list S) : outcome (list S) :=
  match s, z with
  | s0 :: s, z0 :: z => let* v := clamp_z mu s0 z0 in let* vs := clamp_zs mu s z in Ok (v :: vs)
  | [], [] => Ok []
  | _, _ => UB
  end.

(** inertia.hpp 39-50; epsilon is 2^-52. *)
Definition eps : S := s_div S 1 (s_ofZ S (2 ^ 52)).
Record inertia := mkIn { in_pos : nat; in_neg : nat; in_zero : nat }.
Definition inertia_of (D : list S) : inertia :=
  fold_left (fun i e => if eps <? e then mkIn (Datatypes.S (in_pos i)) (in_neg i) (in_zero i)
                        else if e <? s_opp S eps then mkIn (in_pos i) (Datatypes.S (in_neg i)) (in_zero i)
                        else mkIn (in_pos i) (in_neg i) (Datatypes.S (in_zero i))) D (mkIn 0 0 0).
(** inertia.hpp 75. *)
Definition inertia_eqb (a b : inertia) : bool :=
  Nat.eqb (in_pos a) (in_pos b) && Nat.eqb (in_neg a) (in_neg b) && Nat.eqb (in_zero a) (in_zero b).

(** dense_regularized_ldlt.hpp, sparse_regularized_ldlt.hpp.  [factor d g] is Eigen's factorization of
    lhs + [d I, 0; 0, -g I]: the diagonal D, or nothing when info() is not Success. *)
Record ldlt := mkLd { ld_ok : bool; ld_d : S; ld_g : S }.

Fixpoint ldlt_loop (fuel : nat) (factor : S -> S -> option (list S)) (ideal : inertia) (d g : S) : outcome ldlt :=
  match fuel with
  | O => OutOfFuel
  | Datatypes.S fuel =>
      let g' := if s_eqb S g 0 then lit 1 10 else g * s_ofZ S 10 in
      let next d g :=
        if (s_ofZ S (10 ^ 20) <? d) || (s_ofZ S (10 ^ 20) <? g) then Ok (mkLd false d g)
        else ldlt_loop fuel factor ideal d g in
      match factor d g with
      | Some D =>
          let i := inertia_of D in
          if inertia_eqb i ideal then Ok (mkLd true d g)
          else if Nat.ltb 0 (in_zero i) then
            if s_eqb S g 0 then next d (lit 1 10) else next (d * s_ofZ S 10) (g * s_ofZ S 10)
          else if Nat.ltb (in_neg ideal) (in_neg i) then next (d * s_ofZ S 10) g
          else if Nat.ltb (in_pos ideal) (in_pos i) then next d g'
          else next d g
      | None => next (d * s_ofZ S 10) g'
      end
  end.

(** dense 59-136, sparse 64-152: [prev_d] is the factor remembered from the previous call. *)
Definition ldlt_compute (fuel : nat) (factor : S -> S -> option (list S)) (n m : nat) (gmin prev_d : S) : outcome ldlt :=
  let ideal := mkIn n m 0 in
  let start := if s_eqb S prev_d 0 then lit 1 4 else smax (prev_d / s_ofZ S 2) eps in
  match factor 0 0 with
  | Some D =>
      if inertia_eqb (inertia_of D) ideal && forallb (fun e => lit 1 4 <=? s_abs S e) D then Ok (mkLd true 0 0)
      else ldlt_loop fuel factor ideal start gmin
  | None => ldlt_loop fuel factor ideal start gmin
  end.

(** A sparse matrix for append_as_triplets: row count and, per column, the entries (row, value) in increasing row order. *)
Record csc := mkCsc { c_rows : nat; c_cols : list (list (nat * S)) }.
(** append_as_triplets.hpp 31-35. *)
Fixpoint row_offsets (off : nat) (ms : list csc) : list nat :=
  match ms with [] => [] | m :: ms => off :: row_offsets (off + c_rows m)%nat ms end.
(** 39-46, one column of one matrix. *)
Definition col_entries (row_offset col_offset mro col : nat) (m : csc) : outcome sparse :=
  match nth_error (c_cols m) col with
  | None => UB
  | Some es => Ok (map (fun e => ((row_offset + mro + fst e)%nat, (col_offset + col)%nat, snd e)) es)
  end.
(** append_as_triplets.hpp 39-46: one column of all matrices. *)
Fixpoint cols_of (row_offset col_offset col : nat) (offs : list nat) (ms : list csc) : outcome sparse :=
  match offs, ms with
  | o :: offs, m :: ms =>
      let* a := col_entries row_offset col_offset o col m in
      let* b := cols_of row_offset col_offset col offs ms in
      Ok (a ++ b)
  | _, _ => Ok []
  end.
(** append_as_triplets.hpp 38-47: the loop over the columns. *)
Fixpoint cols_from (row_offset col_offset col k : nat) (ms : list csc) : outcome sparse :=
  match k with
  | O => Ok []
  | Datatypes.S k =>
      let* a := cols_of row_offset col_offset col (row_offsets 0 ms) ms in
      let* b := cols_from row_offset col_offset (Datatypes.S col) k ms in
      Ok (a ++ b)
  end.
(** 26-48; an empty list of matrices is undefined behaviour (mats.begin()[0]). *)
Definition append_as_triplets (ts : sparse) (row_offset col_offset : nat) (ms : list csc) : outcome sparse :=
  match ms with
  | [] => UB
  | m :: _ => let* r := cols_from row_offset col_offset 0 (length (c_cols m)) ms in Ok (ts ++ r)
  end.
(** 58-64. *)
Definition append_diagonal (ts : sparse) (row_offset col_offset : nat) (diag : list S) : sparse :=
  ts ++ map (fun p => ((row_offset + fst p)%nat, (col_offset + fst p)%nat, snd p)) (combine (seq 0 (length diag)) diag).

End Util.
Arguments scaling : clear implicits.
Arguments sparse : clear implicits.
Arguments csc : clear implicits.
Arguments ldlt : clear implicits.
