(** Model of include/sleipnir/optimization/solver/util/bounds.hpp.

    Scalars are the reals with infinities and NaN ([XR]): the bounds start at the infinities. *)
From Coq Require Import ZArith Reals List Bool Arith.
From Verif Require Import Base ExprModel ExprReal ExprXR NumModel JacModel.
Import ListNotations.

(** What get_bounds reads of one inequality constraint c(x) >= 0: whether type() is LINEAR, the entries stored
    in its row of A_i, and value() as a function of the values of the decision variables. *)
Record constr := mkC {
  k_linear : bool;
  k_row : list (nat * XR);
  k_value : list XR -> XR
}.

(** l[i] = v. *)
Fixpoint upd {A} (l : list A) (i : nat) (v : A) : list A :=
  match l, i with
  | [], _ => []
  | _ :: l, O => v :: l
  | x :: l, S i => x :: upd l i v
  end.

(** Bounds<Scalar> (19-38) together with the bookkeeping of 77-79. *)
Record bstate := mkB {
  b_bounds : list (XR * XR);       (* decision_var_indices_to_bounds *)
  b_index : list (Z * Z);          (* decision_var_indices_to_constraint_indices; -1 is NO_BOUND *)
  b_conflicts : list (Z * Z);      (* conflicting_bound_indices *)
  b_mask : list bool               (* bound_constraint_mask, entries so far *)
}.

(** 77-96: [n] decision variables. *)
Definition bounds_init (n : nat) : bstate := mkB (repeat (MInf, PInf) n) (repeat (-1, -1)%Z n) [] [].

(** 120-137: the constraint evaluated with decision variable [j] at zero; the variable is restored after. *)
Definition constant_of (c : constr) (x : list XR) (j : nat) : outcome XR :=
  match nth_error x j with
  | Some v => Ok (if negb (X_eqb v (Fin 0)) then k_value c (upd x j (Fin 0)) else k_value c x)
  | None => UB
  end.

(** One iteration, 98-175. *)
Definition bounds_step (x : list XR) (k : nat) (c : constr) (s : bstate) : outcome bstate :=
  if negb (k_linear c) then Ok (mkB (b_bounds s) (b_index s) (b_conflicts s) (b_mask s ++ [false]))
  else
    match k_row c with
    | [] => AssertFail                                                     (* 108 *)
    | _ :: _ :: _ => Ok (mkB (b_bounds s) (b_index s) (b_conflicts s) (b_mask s ++ [false]))
    | [(j, a)] =>
        let* b := constant_of c x j in
        oassert (negb (X_eqb a (Fin 0))) (                                 (* 141 *)
        oassert (s_finite Xn b) (                                          (* 147 *)
        oassert (s_finite Xn a) (                                          (* 151 *)
        match nth_error (b_bounds s) j, nth_error (b_index s) j with
        | Some (lo, hi), Some (li, hii) =>
            let d := X_div (X_opp b) a in
            let '(lo, hi, li, hii) :=
              if X_ltb a (Fin 0) && X_ltb d hi then (lo, d, li, Z.of_nat k)
              else if X_ltb (Fin 0) a && X_ltb lo d then (d, hi, Z.of_nat k, hii)
              else (lo, hi, li, hii) in
            Ok (mkB (upd (b_bounds s) j (lo, hi)) (upd (b_index s) j (li, hii))
                  (if X_ltb hi lo then b_conflicts s ++ [(li, hii)] else b_conflicts s)
                  (b_mask s ++ [true]))
        | _, _ => UB
        end)))
    end.

(** The loop of bounds.hpp 96-176 over the constraints. *)
Fixpoint bounds_loop (x : list XR) (k : nat) (cs : list constr) (s : bstate) : outcome bstate :=
  match cs with
  | [] => Ok s
  | c :: cs => let* s := bounds_step x k c s in bounds_loop x (S k) cs s
  end.

(** 54-179; the size assertions of 68-71 hold by construction here. *)
Definition get_bounds (x : list XR) (cs : list constr) : outcome bstate :=
  bounds_loop x 0 cs (bounds_init (length x)).

(** One coordinate of project_onto_bounds, 211-229. *)
Definition project_one (k1 k2 lower upper x : XR) : outcome XR :=
  oassert (X_leb lower upper) (
  let dist b := X_mul k1 (smax (S := Xn) (Fin 1) (s_abs Xn b)) in
  Ok (if s_finite Xn lower && s_finite Xn upper then
        let p_L := smin (S := Xn) (dist lower) (X_mul k2 (X_sub upper lower)) in
        let p_U := smin (S := Xn) (dist upper) (X_mul k2 (X_sub upper lower)) in
        smin (S := Xn) (smax (S := Xn) (X_add lower p_L) x) (X_sub upper p_U)
      else if s_finite Xn lower then smax (S := Xn) x (X_add lower (dist lower))
      else if s_finite Xn upper then smin (S := Xn) x (X_sub upper (dist upper))
      else x)).

(** The loop of bounds.hpp 212-229 over the bounds. *)
Fixpoint project_loop (k1 k2 : XR) (bs : list (XR * XR)) (xs : list XR) : outcome (list XR) :=
  match bs, xs with
  | [], _ => Ok xs
  | (l, u) :: bs, x :: xs =>
      let* y := project_one k1 k2 l u x in
      let* ys := project_loop k1 k2 bs xs in
      Ok (y :: ys)
  | _ :: _, [] => UB
  end.

(** 193-231. *)
Definition project_onto_bounds (k1 k2 : XR) (bs : list (XR * XR)) (xs : list XR) : outcome (list XR) :=
  oassert (X_ltb (Fin 0) k1 && X_ltb (Fin 0) k2 && X_ltb k2 (Fin (1 / 2))) (project_loop k1 k2 bs xs).

(** The entries Eigen stores in row [i] of a matrix set from triplets, by column: one for every column that occurs,
    with duplicates added (JacModel.entry). *)
Definition stored_row (m : list (@triplet X_ops)) (i n : nat) : list (nat * XR) :=
  flat_map (fun c => if existsb (fun '(a, b, _) => Nat.eqb a i && Nat.eqb b c) m
                     then [(c, entry (S := X_ops) m i c)] else []) (seq 0 n).
