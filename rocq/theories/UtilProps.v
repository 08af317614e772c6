(** Properties C40, C41, C42, C43, C46, C47, C48, C63, C64: solver utilities. *)
From Coq Require Import ZArith Reals List Bool.
From Verif Require Import Base ExprModel ExprReal ExprXR NumModel LinR UtilModel UtilSpec KktModel KktSpec.
From Verif Require Import UtilProofs ScaleProofs LdltProofs TripletProofs KktProofs EstProofs.
Import ListNotations.
Local Open Scope R_scope.

(** C40: with finite gradients every factor is the largest number in (0,1] that brings the gradient to at most 100
    in infinity norm (division by zero gives infinity). *)
Theorem C40_scaling : forall (g : list R) (me mi : nat) (Ae Ai : list (nat * nat * R)),
  let s := scaling_ipm (S := Xn) (map Fin g) me (Fin_entries Ae) mi (Fin_entries Ai) in
  (exists f, sc_f s = Fin f /\ scales f g) /\
  length (sc_e s) = me /\ length (sc_i s) = mi /\
  (forall r, (r < me)%nat -> exists f, nth_error (sc_e s) r = Some (Fin f) /\ scales f (row_values r Ae)) /\
  (forall r, (r < mi)%nat -> exists f, nth_error (sc_i s) r = Some (Fin f) /\ scales f (row_values r Ai)).
Proof. exact c40. Qed.
Print Assumptions C40_scaling.
(** SQP and Newton use the same factors. *)
Theorem C40_scaling_other_solvers : forall (g : list R) (me : nat) (Ae : list (nat * nat * R)),
  scaling_sqp (S := Xn) (map Fin g) me (Fin_entries Ae) = scaling_ipm (S := Xn) (map Fin g) me (Fin_entries Ae) 0 [] /\
  scaling_newton (S := Xn) (map Fin g) = scaling_ipm (S := Xn) (map Fin g) 0 [] 0 [].
Proof. exact c40_sqp_newton. Qed.
Print Assumptions C40_scaling_other_solvers.
(** Gradients of at most 100 are not scaled. *)
Theorem C40_small_gradients : forall f xs, scales f xs -> (forall x, In x xs -> Rabs x <= 100) -> f = 1.
Proof. exact scales_small. Qed.
Print Assumptions C40_small_gradients.
Example C40_example : row_values 1 [(0%nat, 0%nat, 5); (1%nat, 0%nat, 1000); (1%nat, 2%nat, -3)] = [1000; -3] /\ scales (1/10) [1000; -3].
Proof. exact c40_ex. Qed.

(** C41: the error the solver compares with the tolerance, computed from scaled data, is at most t exactly when every
    residual of the original problem at the unscaled slacks and multipliers is. *)
Theorem C41_interior_point : forall n me mi (d d' : data) (f : R) (de di s y z : list R) (mu t : R),
  data_ok n me mi d -> is_scaled n me mi f (fun i => de.[i]) (fun i => di.[i]) d d' ->
  0 < f -> length de = me -> length di = mi -> (forall x, In x de -> 0 < x) -> (forall x, In x di -> 0 < x) ->
  length s = mi -> length y = me -> length z = mi -> (0 < mi)%nat -> 0 <= t ->
  unscaled_ipm (S := Rn) (mkSc (S := Rn) f de di) n (D_g d') (D_Ae d') (D_ce d') (D_Ai d') (D_ci d') s y z mu <= t <->
  within n me mi d (fun i => s.[i] / di.[i]) (fun i => de.[i] * y.[i] / f) (fun i => di.[i] * z.[i] / f) (mu / f) t.
Proof. exact c41. Qed.
Print Assumptions C41_interior_point.
Theorem C41_sqp : forall n me (d d' : data) (f : R) (de y : list R) (t : R),
  data_ok n me 0 d -> is_scaled n me 0 f (fun i => de.[i]) (fun _ => 0) d d' ->
  0 < f -> length de = me -> (forall x, In x de -> 0 < x) -> length y = me -> (0 < me)%nat -> 0 <= t ->
  unscaled_sqp (S := Rn) (mkSc (S := Rn) f de []) n (D_g d') (D_Ae d') (D_ce d') y <= t <->
  within_eq n me d (fun i => de.[i] * y.[i] / f) t.
Proof. exact c41_sqp. Qed.
Print Assumptions C41_sqp.
Theorem C41_newton : forall n (g g' : list R) (f t : R), length g = n -> length g' = n -> 0 < f ->
  (forall j, (j < n)%nat -> g'.[j] = f * g.[j]) ->
  0 <= t -> unscaled_newton (S := Rn) (mkSc (S := Rn) f [] []) g' <= t <-> forall j, (j < n)%nat -> Rabs (g.[j]) <= t.
Proof. exact c41_newton. Qed.
Print Assumptions C41_newton.
(** Unscaled problems. *)
Theorem C41_identity : forall n (d : data) (s y z : list R) (mu : R),
  (unscaled_ipm (S := Rn) (mkSc (S := Rn) 1 [] []) n (D_g d) (D_Ae d) (D_ce d) (D_Ai d) (D_ci d) s y z mu =
   kkt_ipm (S := Rn) n (D_g d) (D_Ae d) (D_ce d) (D_Ai d) (D_ci d) s y z mu) /\
  (unscaled_sqp (S := Rn) (mkSc (S := Rn) 1 [] []) n (D_g d) (D_Ae d) (D_ce d) y = kkt_sqp (S := Rn) n (D_g d) (D_Ae d) (D_ce d) y).
Proof. exact c41_identity. Qed.
Print Assumptions C41_identity.
Example C41_example : let d := mkData [200] [] [] [[400]] [2] in let d' := mkData [100] [] [] [[100]] [1/2] in
  data_ok 1 0 1 d /\ is_scaled 1 0 1 (1/2) (fun i => ([] : list R).[i]) (fun i => [1/4].[i]) d d' /\
  within 1 0 1 d (fun i => [1/2].[i] / [1/4].[i]) (fun i => ([] : list R).[i] * ([] : list R).[i] / (1/2)) (fun i => [1/4].[i] * [1].[i] / (1/2)) (1 / (1/2)) 1.
Proof. exact c41_ex. Qed.

(** C42: the error is at most t exactly when every residual is. *)
Theorem C42_interior_point : forall n me mi (d : data) (s y z : list R) (mu t : R), data_ok n me mi d ->
  length s = mi -> length y = me -> length z = mi -> 0 <= t ->
  kkt_ipm (S := Rn) n (D_g d) (D_Ae d) (D_ce d) (D_Ai d) (D_ci d) s y z mu <= t <->
  within n me mi d (fun i => s.[i]) (fun i => y.[i]) (fun i => z.[i]) mu t.
Proof. exact c42. Qed.
Print Assumptions C42_interior_point.
Theorem C42_sqp : forall n me (d : data) (y : list R) (t : R), length (D_g d) = n -> wf me n (D_Ae d) -> length (D_ce d) = me ->
  length y = me -> 0 <= t ->
  kkt_sqp (S := Rn) n (D_g d) (D_Ae d) (D_ce d) y <= t <-> within_eq n me d (fun i => y.[i]) t.
Proof. exact c42_sqp. Qed.
Print Assumptions C42_sqp.

(** C43 *)
Theorem C43_fraction_to_boundary : forall (x p : list R) (tau : R), List.Forall (fun v => 0 < v) x -> length x = length p -> 0 < tau <= 1 ->
  let a := ftb (S := Rn) x p tau in
  0 < a <= 1 /\ keeps x p tau a /\ (forall b, 0 <= b <= 1 -> keeps x p tau b -> b <= a).
Proof. exact c43. Qed.
Print Assumptions C43_fraction_to_boundary.
Example C43_example : List.Forall (fun v => 0 < v) [1; 2] /\ 0 < 99/100 <= 1 /\ ftb (S := Rn) [1; 2] [-3; 1] (99/100) < 1.
Proof. exact c43_ex. Qed.

(** C46: for every matrix (every outcome of its factorizations) the computation ends within F trials, success means n positive, m negative
    and no zero pivots, failure means the perturbation got too large, and the matrix is perturbed unless its pivots were right. *)
Theorem C46_regularized : forall (gmin : R), 0 <= gmin -> exists F, forall (factor : R -> R -> option (list R)) n m (prev : R),
  (forall d g D, factor d g = Some D -> length D = (n + m)%nat) -> forall fuel, (F <= fuel)%nat ->
  exists l, ldlt_compute (S := Rn) fuel factor n m gmin prev = Ok l /\
    (ld_ok l = true -> exists D, factor (ld_d l) (ld_g l) = Some D /\ signs n m D) /\
    (ld_ok l = false -> IZR (10 ^ 20) < ld_d l \/ IZR (10 ^ 20) < ld_g l) /\
    ((ld_ok l = true /\ ld_d l = 0 /\ ld_g l = 0) \/ (tiny <= ld_d l /\ gmin <= ld_g l)) /\
    ((exists D, factor 0 0 = Some D /\ signs n m D /\ forall x, In x D -> 1 / IZR (10 ^ 4) <= Rabs x) ->
       ld_ok l = true /\ ld_d l = 0 /\ ld_g l = 0).
Proof. exact c46. Qed.
Print Assumptions C46_regularized.
Example C46_example : let factor := fun d g : R => Some [1 + d; -1 + d - g] in
  (forall d g D, factor d g = Some D -> length D = (2 + 0)%nat) /\ ~ (exists D, factor 0 0 = Some D /\ signs 2 0 D) /\
  exists D, factor 10 0 = Some D /\ signs 2 0 D.
Proof. exact c46_ex. Qed.

(** C47 *)
Theorem C47_stacked_triplets : forall (S : nops) (ts : sparse S) ro co (ms : list (csc S)) n, ms <> [] ->
  List.Forall csc_ok ms -> List.Forall (fun m => length (c_cols m) = n) ms ->
  exists out, append_as_triplets ts ro co ms = Ok (ts ++ out) /\ ascending before out /\
    forall r c v, In (r, c, v) out <->
      exists i m r' c', nth_error ms i = Some m /\ stored m r' c' v /\
        r = (ro + list_sum (map (fun m => c_rows m) (firstn i ms)) + r')%nat /\ c = (co + c')%nat.
Proof. exact @c47. Qed.
Print Assumptions C47_stacked_triplets.
Theorem C47_diagonal_triplets : forall (S : nops) (ts : sparse S) ro co (d : list S),
  exists out, append_diagonal ts ro co d = ts ++ out /\ ascending before out /\
    forall r c v, In (r, c, v) out <-> exists i, nth_error d i = Some v /\ r = (ro + i)%nat /\ c = (co + i)%nat.
Proof. exact @c47_diag. Qed.
Print Assumptions C47_diagonal_triplets.
Example C47_example : let m1 := mkCsc (S := Rn) 2 [[(0%nat, 1); (1%nat, 2)]; []] in let m2 := mkCsc (S := Rn) 1 [[(0%nat, 3)]; [(0%nat, 4)]] in
  List.Forall csc_ok [m1; m2] /\
  append_as_triplets (S := Rn) [] 5 7 [m1; m2] = Ok [(5%nat, 7%nat, 1); (6%nat, 7%nat, 2); (7%nat, 7%nat, 3); (7%nat, 8%nat, 4)].
Proof. exact c47_ex. Qed.

(** C48 *)
Theorem C48_elastic_start : forall (c : list R) (rho mu : R), 0 < rho -> 0 < mu -> let '(p, n) := compute_p_n (S := Rn) c rho mu in
  length p = length c /\ length n = length c /\
  forall i, (i < length c)%nat ->
    0 < (p : list R).[i] /\ 0 < (n : list R).[i] /\ c.[i] - (p : list R).[i] + (n : list R).[i] = 0 /\
    (forall p' n', 0 < p' -> 0 < n' -> c.[i] - p' + n' = 0 ->
       elastic rho mu ((p : list R).[i]) ((n : list R).[i]) <= elastic rho mu p' n').
Proof. exact c48. Qed.
Print Assumptions C48_elastic_start.
Example C48_example : p_n (S := Rn) 0 1 1 = (1, 1) /\ compute_p_n (S := Rn) [0; 0] 1 1 = ([1; 1], [1; 1]).
Proof. exact c48_ex. Qed.

(** C63: whenever Eigen solved the normal equations, the estimate minimises the squared residual; the inequality multipliers
    are then clamped to the interval around mu / s, and unchanged if already inside. *)
Theorem C63_estimate_equalities : forall (solve : list (list R) -> list R -> list R) n me (g : list R) (A_e : list (list R)), wf me n A_e -> length g = n ->
  let y := estimate_sqp (S := Rn) solve g A_e in
  length y = me -> mvec (S := Rn) (mmt (S := Rn) A_e) y = mvec (S := Rn) A_e g ->
  forall y' : nat -> R,
  sumn n (fun j => (g.[j] - sumn me (fun i => ent A_e i j * (y : list R).[i])) * (g.[j] - sumn me (fun i => ent A_e i j * (y : list R).[i]))) <=
  sumn n (fun j => (g.[j] - sumn me (fun i => ent A_e i j * y' i)) * (g.[j] - sumn me (fun i => ent A_e i j * y' i))).
Proof. exact c63_sqp. Qed.
Print Assumptions C63_estimate_equalities.
Theorem C63_estimate : forall (solve : list (list R) -> list R -> list R) n me mi (d : data) (s : list R) (mu : R), data_ok n me mi d -> length s = mi ->
  let A := A_hat (S := Rn) (D_Ae d) (D_Ai d) s in
  let sol := estimate_raw (S := Rn) solve (D_g d) (D_Ae d) (D_Ai d) s mu in
  length sol = (me + mi)%nat -> mvec (S := Rn) (mmt (S := Rn) A) sol = mvec (S := Rn) A (D_g d ++ repeat (- mu) mi) ->
  (forall y' z' : nat -> R,
    sq_residual n me mi d (fun i => s.[i]) mu (fun i => (sol : list R).[i]) (fun i => (sol : list R).[me + i]) <=
    sq_residual n me mi d (fun i => s.[i]) mu y' z') /\
  (0 < mu -> List.Forall (fun v => 0 < v) s ->
    exists z : list R, estimate_ipm (S := Rn) solve (D_g d) (D_Ae d) (D_Ai d) s mu = Ok (firstn me sol, z) /\ length z = mi /\
      forall i, (i < mi)%nat -> 0 < mu / (IZR (10 ^ 10) * s.[i]) <= z.[i] /\ z.[i] <= IZR (10 ^ 10) * mu / s.[i] /\
        (mu / (IZR (10 ^ 10) * s.[i]) <= (sol : list R).[me + i] <= IZR (10 ^ 10) * mu / s.[i] -> z.[i] = (sol : list R).[me + i])).
Proof. exact c63_ipm. Qed.
Print Assumptions C63_estimate.
(** The sparse assembly of [A_e 0; A_i -S] is sorted (as setFromSortedTriplets requires) and exact. *)
Theorem C63_assembly : forall (A_e A_i : csc Rn) (s : list R) n, csc_ok A_e -> csc_ok A_i -> length (c_cols A_e) = n -> length (c_cols A_i) = n ->
  exists t, A_hat_triplets (S := Rn) A_e A_i s = Ok t /\ ascending before t /\
    forall r c (v : R), In (r, c, v) t <->
      (exists r', r = r' /\ stored A_e r' c v) \/ (exists r', r = (c_rows A_e + r')%nat /\ stored A_i r' c v) \/
      (exists k x, nth_error s k = Some x /\ r = (c_rows A_e + k)%nat /\ c = (n + k)%nat /\ v = - x).
Proof. exact c63_triplets. Qed.
Print Assumptions C63_assembly.
Example C63_example : let d := mkData [1] [] [] [[1]] [0] in let solve := fun (_ : list (list R)) (_ : list R) => [1] in
  data_ok 1 0 1 d /\ length (estimate_raw (S := Rn) solve (D_g d) (D_Ae d) (D_Ai d) [1] 1) = (0 + 1)%nat /\
  mvec (S := Rn) (mmt (S := Rn) (A_hat (S := Rn) (D_Ae d) (D_Ai d) [1])) (estimate_raw (S := Rn) solve (D_g d) (D_Ae d) (D_Ai d) [1] 1) =
  mvec (S := Rn) (A_hat (S := Rn) (D_Ae d) (D_Ai d) [1]) (D_g d ++ repeat (- (1)) 1).
Proof. exact c63_ex. Qed.

(** C64: declared exactly when there are constraints, the squared gradient of the violation is below 1e-12 and the squared violation is above
    the square of the threshold; never at a feasible point. *)
Theorem C64_equality : forall m n (A : list (list R)) (c : list R), wf m n A -> length c = m -> eq_infeasible (S := Rn) n A c = true <->
  (0 < m)%nat /\
  sumn n (fun j => sumn m (fun i => ent A i j * c.[i]) * sumn m (fun i => ent A i j * c.[i])) < 1 / IZR (10 ^ 6) * (1 / IZR (10 ^ 6)) /\
  1 / IZR (10 ^ 2) * (1 / IZR (10 ^ 2)) < sumn m (fun i => c.[i] * c.[i]).
Proof. exact c64_eq. Qed.
Print Assumptions C64_equality.
Theorem C64_inequality : forall m n (A : list (list R)) (c : list R), wf m n A -> length c = m -> ineq_infeasible (S := Rn) n A c = true <->
  (0 < m)%nat /\
  sumn n (fun j => sumn m (fun i => ent A i j * Rmin (c.[i]) 0) * sumn m (fun i => ent A i j * Rmin (c.[i]) 0)) < 1 / IZR (10 ^ 6) * (1 / IZR (10 ^ 6)) /\
  1 / IZR (10 ^ 6) * (1 / IZR (10 ^ 6)) < sumn m (fun i => Rmin (c.[i]) 0 * Rmin (c.[i]) 0).
Proof. exact c64_ineq. Qed.
Print Assumptions C64_inequality.
Theorem C64_feasible_point : forall m n (A : list (list R)) (c : list R), wf m n A -> length c = m ->
  ((forall i, (i < m)%nat -> c.[i] = 0) -> eq_infeasible (S := Rn) n A c = false) /\
  ((forall i, (i < m)%nat -> 0 <= c.[i]) -> ineq_infeasible (S := Rn) n A c = false).
Proof. exact c64_feasible. Qed.
Print Assumptions C64_feasible_point.
Example C64_example : eq_infeasible (S := Rn) 1 [[0]; [1]] [1; 0] = true /\ ineq_infeasible (S := Rn) 1 [[0]; [1]] [-1; 2] = true.
Proof. exact c64_ex. Qed.
