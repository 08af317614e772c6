(** Properties C49 and C73: the subproblem feasibility restoration poses, and where it starts. *)
From Coq Require Import ZArith Reals List Bool.
From Verif Require Import Base ExprModel ExprReal ExprXR NumModel LinR UtilModel SolverModel NewtonModel SqpModel IpmModel RestoreModel FinEval RestoreSpec.
From Verif Require Import FrProofs4 FrProofs5 FrProofs6.
Import ListNotations.
Local Open Scope R_scope.

(** C49: the cost is the restoration cost, its gradient and the constraint Jacobians are the derivatives of the functions
    the subproblem's solver is given, whenever those of the original problem are. *)
Theorem C49_functions : forall (P : iprob Xn) (xr : list R) (zeta : R), length xr = ip_n P ->
  jacobian_of (ip_n P) (ip_me P) (ip_ce P) (ip_Ae P) -> jacobian_of (ip_n P) (ip_mi P) (ip_ci P) (ip_Ai P) ->
  let Q := fr_ipm_prob P (fv xr) (Fin zeta) in let k := (2 * ip_me P + 2 * ip_mi P)%nat in
  ip_n Q = (ip_n P + k)%nat /\ ip_me Q = ip_me P /\ ip_mi Q = (ip_mi P + k)%nat /\
  jacobian_of (ip_n Q) (ip_me Q) (ip_ce Q) (ip_Ae Q) /\ jacobian_of (ip_n Q) (ip_mi Q) (ip_ci Q) (ip_Ai Q) /\
  gradient_of (ip_n Q) (ip_f Q) (ip_g Q) /\
  (forall v, length v = ip_n Q -> ip_f Q (fv v) = Fin (restoration_cost (ip_n P) k xr zeta v)).
Proof. exact c49_functions. Qed.
Print Assumptions C49_functions.
Theorem C49_functions_without_inequalities : forall (P : sprob Xn) (xr : list R) (zeta : R), length xr = sp_n P ->
  jacobian_of (sp_n P) (sp_me P) (sp_ce P) (sp_Ae P) ->
  let Q := fr_sqp_prob P (fv xr) (Fin zeta) in let k := (2 * sp_me P)%nat in
  ip_n Q = (sp_n P + k)%nat /\ ip_me Q = sp_me P /\ ip_mi Q = k /\
  jacobian_of (ip_n Q) (ip_me Q) (ip_ce Q) (ip_Ae Q) /\ jacobian_of (ip_n Q) (ip_mi Q) (ip_ci Q) (ip_Ai Q) /\
  gradient_of (ip_n Q) (ip_f Q) (ip_g Q) /\
  (forall v, length v = ip_n Q -> ip_f Q (fv v) = Fin (restoration_cost (sp_n P) k xr zeta v)).
Proof. exact c49_functions_sqp. Qed.
Print Assumptions C49_functions_without_inequalities.

(** C49: with p = n = 0 a point satisfies the subproblem's constraints exactly when it satisfies the original ones. *)
Theorem C49_relaxes_exactly : forall (P : iprob Xn) (xr x : list XR) (zeta : XR),
  length x = ip_n P -> length (ip_ce P x) = ip_me P -> length (ip_ci P x) = ip_mi P ->
  let Q := fr_ipm_prob P xr zeta in let w := x ++ repeat (Fin 0) (2 * ip_me P + 2 * ip_mi P) in
  satisfied (ip_ce Q w) (ip_ci Q w) <-> satisfied (ip_ce P x) (ip_ci P x).
Proof. exact c49_zero. Qed.
Print Assumptions C49_relaxes_exactly.
Theorem C49_relaxes_exactly_without_inequalities : forall (P : sprob Xn) (xr x : list XR) (zeta : XR), length x = sp_n P -> length (sp_ce P x) = sp_me P ->
  let Q := fr_sqp_prob P xr zeta in let w := x ++ repeat (Fin 0) (2 * sp_me P) in
  satisfied (ip_ce Q w) (ip_ci Q w) <-> satisfied (sp_ce P x) [].
Proof. exact c49_zero_sqp. Qed.
Print Assumptions C49_relaxes_exactly_without_inequalities.

(** C49: the least sum of relaxation variables that makes a point feasible is its constraint violation. *)
Theorem C49_relaxation_is_violation : forall (P : iprob Xn) (xr x e i : list R) (zeta : R),
  length x = ip_n P -> length e = ip_me P -> length i = ip_mi P -> ip_ce P (fv x) = fv e -> ip_ci P (fv x) = fv i ->
  let Q := fr_ipm_prob P (fv xr) (Fin zeta) in let k := (2 * ip_me P + 2 * ip_mi P)%nat in
  let relaxed w := satisfied (ip_ce Q (fv (x ++ w))) (ip_ci Q (fv (x ++ w))) in
  (forall w, length w = k -> relaxed w -> violation e i <= sumn k (fun j => nth j w 0)) /\
  (exists w, length w = k /\ relaxed w /\ sumn k (fun j => nth j w 0) = violation e i).
Proof. exact c49_cheapest. Qed.
Print Assumptions C49_relaxation_is_violation.
Theorem C49_relaxation_is_violation_without_inequalities : forall (P : sprob Xn) (xr x e : list R) (zeta : R),
  length x = sp_n P -> length e = sp_me P -> sp_ce P (fv x) = fv e ->
  let Q := fr_sqp_prob P (fv xr) (Fin zeta) in let k := (2 * sp_me P)%nat in
  let relaxed w := satisfied (ip_ce Q (fv (x ++ w))) (ip_ci Q (fv (x ++ w))) in
  (forall w, length w = k -> relaxed w -> violation e [] <= sumn k (fun j => nth j w 0)) /\
  (exists w, length w = k /\ relaxed w /\ sumn k (fun j => nth j w 0) = violation e []).
Proof. exact c49_cheapest_sqp. Qed.
Print Assumptions C49_relaxation_is_violation_without_inequalities.
(** min 0 subject to x^2 = 0 and x >= 1, at x = -2. *)
Example C49_example : jacobian_of 1 1 (ip_ce square_ge) (ip_Ae square_ge) /\ jacobian_of 1 1 (ip_ci square_ge) (ip_Ai square_ge) /\
  ip_ce square_ge (fv [-2]) = fv [4] /\ ip_ci square_ge (fv [-2]) = fv [-3] /\ violation [4] [-3] = 7 /\
  satisfied (ip_ce (fr_ipm_prob square_ge (fv [0]) (Fin 1)) (fv [-2; 4; 0; 0; 3])) (ip_ci (fr_ipm_prob square_ge (fv [0]) (Fin 1)) (fv [-2; 4; 0; 0; 3])).
Proof. exact c49_ex. Qed.

(** C49, the Hessian.  Full claim: the matrix given to the subproblem's solver is the Hessian of the subproblem's Lagrangian
    whenever the original one is.  Proved for constraints with constant Jacobians; refuted otherwise: Eigen's resize() drops
    the constraints' part. *)
Theorem C49_hessian_partial : forall (P : iprob Xn) (xr : list R) (zeta : R) (A0 B0 : list (list R)), length xr = ip_n P ->
  wf (ip_me P) (ip_n P) A0 -> wf (ip_mi P) (ip_n P) B0 ->
  (forall x, length x = ip_n P -> ip_Ae P (fv x) = fm A0) -> (forall x, length x = ip_n P -> ip_Ai P (fv x) = fm B0) ->
  let Q := fr_ipm_prob P (fv xr) (Fin zeta) in
  hessian_of (ip_n Q) (ip_me Q) (ip_mi Q) (ip_g Q) (ip_Ae Q) (ip_Ai Q) (ip_H Q).
Proof. exact c49_hess. Qed.
Print Assumptions C49_hessian_partial.
(** 3 x = 0 *)
Example C49_hessian_example : let P := as_ipm (mkSP (S := Xn) 1 1 (fun _ => Fin 0) (fun _ => [Fin 0]) (fun _ _ => [[Fin 0]]) (fun _ _ => [[Fin 0]])
      (fun w => match w with [a] => [X_mul (Fin 3) a] | _ => [NaN] end) (fun _ => [[Fin 3]]) (mkSc (S := Xn) (Fin 1) [Fin 1] [])) in
  wf (ip_me P) (ip_n P) [[3]] /\ wf (ip_mi P) (ip_n P) [] /\ (forall x, length x = ip_n P -> ip_Ae P (fv x) = fm [[3]]) /\ (forall x, length x = ip_n P -> ip_Ai P (fv x) = fm []).
Proof. exact c49_hess_ex. Qed.
Theorem C49_hessian_refuted : exists P : sprob Xn,
  jacobian_of (sp_n P) (sp_me P) (sp_ce P) (sp_Ae P) /\
  hessian_of (sp_n P) (sp_me P) 0 (sp_g P) (sp_Ae P) (fun _ => []) (fun x y _ => sp_H P x y) /\ sp_Hc P = sp_H P /\ sp_g P = (fun _ => [Fin 0]) /\
  forall (xr : list R) (zeta : R), length xr = sp_n P -> let Q := fr_sqp_prob P (fv xr) (Fin zeta) in
    ~ hessian_of (ip_n Q) (ip_me Q) (ip_mi Q) (ip_g Q) (ip_Ae Q) (ip_Ai Q) (ip_H Q).
Proof. exact c49_hess_refuted. Qed.
Print Assumptions C49_hessian_refuted.

(** C73: the start keeps x, satisfies the relaxed equality constraints exactly and the relaxed inequality constraints with
    the slacks it is given; every other inequality is strictly satisfied; slacks and multipliers are positive, and each
    multiplier times its constraint's value is the barrier parameter. *)
Theorem C73_start_partial : forall (P : iprob Rn) (x s : list R) (mu : R),
  length x = ip_n P -> length s = ip_mi P -> @length R (ip_ce P x) = ip_me P -> @length R (ip_ci P x) = ip_mi P ->
  List.Forall (fun v => 0 < v) s -> 0 < mu ->
  let k := (2 * ip_me P + 2 * ip_mi P)%nat in
  let '(frx, frs, frz, m) := fr_ipm_start (S := Rn) P x s mu in
  let Q := fr_ipm_prob (S := Rn) P x (sqrt m) in
  let e : list R := ip_ce Q frx in let c : list R := ip_ci Q frx in
  length frx = (ip_n P + k)%nat /\ @length R frs = (ip_mi P + k)%nat /\ @length R frz = (ip_mi P + k)%nat /\ firstn (ip_n P) frx = x /\
  mu <= m /\ length e = ip_me P /\ length c = (ip_mi P + k)%nat /\
  (forall r, (r < ip_me P)%nat -> e.[r] = 0) /\
  (forall r, (r < ip_mi P)%nat -> c.[r] = (frs : list R).[r]) /\
  (forall r, (r < ip_mi P + k)%nat -> 0 < c.[r] /\ 0 < (frs : list R).[r] /\ 0 < (frz : list R).[r] /\ c.[r] * (frz : list R).[r] = m).
Proof. exact c73_start. Qed.
Print Assumptions C73_start_partial.
(** What is missing: the multipliers are not complementary with the slacks, which are 1 for the bounds on the relaxation
    variables. *)
Theorem C73_complementarity_refuted : exists (P : iprob Rn) (x s : list R) (mu : R),
  length x = ip_n P /\ length s = ip_mi P /\ @length R (ip_ce P x) = ip_me P /\ @length R (ip_ci P x) = ip_mi P /\ List.Forall (fun v => 0 < v) s /\ 0 < mu /\
  let '(frx, frs, frz, m) := fr_ipm_start (S := Rn) P x s mu in
  exists r, (r < ip_mi P + (2 * ip_me P + 2 * ip_mi P))%nat /\ (frs : list R).[r] * (frz : list R).[r] <> m.
Proof. exact c73_refuted_ex. Qed.
Print Assumptions C73_complementarity_refuted.
(** One equality constraint x = 0, at x = 0 with barrier parameter 1. *)
Example C73_example : let '(frx, frs, frz, m) := fr_ipm_start (S := Rn) linear1 [0] [] 1 in
  m = 1 /\ frs = [1; 1] /\ (frz : list R).[0%nat] = 1000 /\ (frz : list R).[1%nat] = 1000.
Proof. exact c73_refuted. Qed.
