(** Model of include/sleipnir/optimization/solver/util/feasibility_restoration.hpp (without
    SLEIPNIR_ENABLE_BOUND_PROJECTION), and the three solvers as Problem::solve() calls them. *)
From Coq Require Import ZArith List Bool.
From Verif Require Import Base ExprModel NumModel UtilModel KktModel FilterModel ExitModel SolverModel NewtonModel SqpModel IpmModel.
Import ListNotations.

Section Restore.
Context {S : nops}.
Notation "0" := (s_ofZ S 0).
Notation "1" := (s_ofZ S 1).
Infix "+" := (s_add S).
Infix "-" := (s_sub S).
Infix "*" := (s_mul S).
Infix "/" := (s_div S).

(** Eigen's segment(start, n). *)
Definition segment (v : list S) (start n : nat) : list S := firstn n (skipn start v).
(** 151, 391. *)
Definition fr_rho : S := s_ofZ S 1000.
(** 163-164, 405-406. *)
Definition fr_D (x : list S) : list S := map (fun v => smin (1 / (v * v)) 1) x.
Definition zeros (r c : nat) : mat (S := S) := repeat (repeat 0 c) r.
(** 231, 486: Eigen's SparseMatrix::resize() discards the coefficients (conservativeResize() would keep them). *)
Definition sparse_resize (r c : nat) (A : mat (S := S)) : mat (S := S) := zeros r c.
(** 221-225, 476-480: diag(d) in the top left corner of an n x n matrix. *)
Definition diag_in (n : nat) (d : list S) : mat (S := S) :=
  map (fun i => if Nat.ltb i (length d) then unit_row n i (nth i d 0) else repeat 0 n) (seq 0 n).

(** The cost and its gradient: 187-210, 436-462; [k] slack variables follow the [n] decision variables. *)
Definition fr_cost (n k : nat) (xr D : list S) (zeta : S) (xp : list S) : S :=
  let diff := vsub (segment xp 0 n) xr in
  fr_rho * vsum (segment xp n k) + vdot (vmul (vscale (zeta / s_ofZ S 2) diff) D) diff.
Definition fr_grad (n k : nat) (xr D : list S) (zeta : S) (xp : list S) : list S :=
  vmul (vscale zeta D) (vsub (segment xp 0 n) xr) ++ repeat fr_rho k.

(** 252, 509. *)
Definition fr_ce (n me : nat) (ce : list S -> list S) (xp : list S) : list S :=
  vadd (vsub (ce (segment xp 0 n)) (segment xp n me)) (segment xp (n + me) me).
(** 254-277, 511-534 ([k] further columns of zeros). *)
Definition fr_Ae (n me k : nat) (Ae : list S -> mat (S := S)) (xp : list S) : mat (S := S) :=
  map (fun p => snd p ++ unit_row me (fst p) (s_opp S 1) ++ unit_row me (fst p) 1 ++ repeat 0 k)
      (combine (seq 0 me) (Ae (segment xp 0 n))).
(** The rows [0 I] for the slack variables: 285-301, 572-588. *)
Definition fr_bounds (n k : nat) : mat (S := S) := map (fun i => repeat 0 n ++ unit_row k i 1) (seq 0 k).

(** 183-302. *)
Definition fr_sqp_prob (P : sprob S) (xr : list S) (zeta : S) : iprob S :=
  let n := sp_n P in let me := sp_me P in let k := (2 * me)%nat in let N := (n + k)%nat in
  let D := fr_D xr in
  mkIP N me k (fr_cost n k xr D zeta) (fr_grad n k xr D zeta)
    (fun xp y _ => madd (diag_in N (vscale zeta D)) (sparse_resize N N (sp_Hc P (segment xp 0 n) y)))
    (fun _ _ _ => zeros N N)
    (fr_ce n me (sp_ce P)) (fr_Ae n me 0 (sp_Ae P))
    (fun xp => segment xp n k) (fun _ => fr_bounds n k)
    (mkSc 1 (sc_e (sp_sc P)) (repeat 1 k)).

(** 535-552. *)
Definition fr_ci (n me mi : nat) (ci : list S -> list S) (xp : list S) : list S :=
  vadd (vsub (ci (segment xp 0 n)) (segment xp (n + 2 * me) mi)) (segment xp (n + 2 * me + mi) mi)
  ++ segment xp n (2 * me + 2 * mi).
(** 553-593. *)
Definition fr_Ai (n me mi : nat) (Ai : list S -> mat (S := S)) (xp : list S) : mat (S := S) :=
  map (fun p => snd p ++ repeat 0 (2 * me) ++ unit_row mi (fst p) (s_opp S 1) ++ unit_row mi (fst p) 1)
      (combine (seq 0 mi) (Ai (segment xp 0 n)))
  ++ fr_bounds n (2 * me + 2 * mi).
(** 432-594. *)
Definition fr_ipm_prob (P : iprob S) (xr : list S) (zeta : S) : iprob S :=
  let n := ip_n P in let me := ip_me P in let mi := ip_mi P in let k := (2 * me + 2 * mi)%nat in let N := (n + k)%nat in
  let D := fr_D xr in
  mkIP N me (mi + k) (fr_cost n k xr D zeta) (fr_grad n k xr D zeta)
    (fun xp y z => madd (diag_in N (vscale zeta D)) (sparse_resize N N (ip_Hc P (segment xp 0 n) y (segment z 0 mi))))
    (fun _ _ _ => zeros N N)
    (fr_ce n me (ip_ce P)) (fr_Ae n me (2 * mi) (ip_Ae P))
    (fr_ci n me mi (ip_ci P)) (fr_Ai n me mi (ip_Ai P))
    (mkSc 1 (sc_e (ip_sc P)) (sc_i (ip_sc P) ++ repeat 1 k)).

Variables (E : env S) (o : options S).
Context {U : Type}.

(** 313-324, 612-627. *)
Definition fr_status (s : status) : status :=
  match s with CALLBACK_REQUESTED_STOP => SUCCESS | SUCCESS => LOCALLY_INFEASIBLE | _ => FEASIBILITY_RESTORATION_FAILED end.

(** Where the subproblem starts (151-175): the point, the multipliers of its bounds, and its barrier parameter. *)
Definition fr_sqp_start (P : sprob S) (x : list S) : list S * list S * S :=
  let ce := sp_ce P x in
  let mu := smax (o_tol o / s_ofZ S 10) (norminf ce) in
  let '(pe, ne) := compute_p_n ce fr_rho mu in
  (x ++ pe ++ ne, vscale mu (vinv pe) ++ vscale mu (vinv ne), mu).

(** 118-325. *)
Definition sqp_restore (fuel : nat) (P : sprob S) (cbs : list (callback S (U * filter S))) (x y : list S) (it : Z)
    (uf : U * filter S) (clk : nat) : outcome (status * list S * list S * Z * (U * filter S) * nat) :=
  let '(frx, frz, mu) := fr_sqp_start P x in
  let* (status, st) :=
    ipm_from E (fr_sqp_prob P x (s_sqrt S mu)) o cbs None fuel true frx (repeat 1 (2 * sp_me P)) (repeat 0 (sp_me P)) frz mu it uf clk in
  let x := segment (is_x E st) 0 (length x) in
  let y := match status with CALLBACK_REQUESTED_STOP => estimate_sqp (e_est E) (sp_g P x) (sp_Ae P x) | _ => y end in
  Ok (fr_status status, x, y, is_it E st, is_u E st, is_clk E st).

(** 391-421: the point, the slacks, the multipliers of the inequalities and the barrier parameter. *)
Definition fr_ipm_start (P : iprob S) (x s : list S) (mu : S) : list S * list S * list S * S :=
  let ce := ip_ce P x in
  let cis := vsub (ip_ci P x) s in
  let mu := smax (smax mu (norminf ce)) (norminf cis) in
  let '(pe, ne) := compute_p_n ce fr_rho mu in
  let '(pi, ni) := compute_p_n cis fr_rho mu in
  (x ++ pe ++ ne ++ pi ++ ni, s ++ repeat 1 (2 * ip_me P + 2 * ip_mi P),
   vscale mu (vinv s) ++ vscale mu (vinv pe) ++ vscale mu (vinv ne) ++ vscale mu (vinv pi) ++ vscale mu (vinv ni), mu).

(** 347-628. *)
Definition ipm_restore (fuel : nat) (P : iprob S) (cbs : list (callback S (U * filter S))) (x s y z : list S) (mu : S) (it : Z)
    (uf : U * filter S) (clk : nat) : outcome (status * irestored S U) :=
  let '(frx, frs, frz, frmu) := fr_ipm_start P x s mu in
  let* (status, st) :=
    ipm_from E (fr_ipm_prob P x (s_sqrt S frmu)) o cbs None fuel true frx frs (repeat 0 (length (ip_ce P x))) frz frmu it uf clk in
  let x := segment (is_x E st) 0 (length x) in
  let s := segment (is_s E st) 0 (length s) in
  let* (y, z) :=
    match status with
    | CALLBACK_REQUESTED_STOP => estimate_ipm (e_est E) (ip_g P x) (ip_Ae P x) (ip_Ai P x) s mu
    | _ => Ok (y, z)
    end in
  Ok (fr_status status, mkIR x s y z (is_it E st) (is_u E st) (is_clk E st)).

(** sqp.hpp 56-66 and interior_point.hpp 63-87 with their feasibility restoration. *)
Definition sqp_solve (fuel : nat) (P : sprob S) (cbs : list (callback S U)) (x : list S) (u : U) (clk : nat) : outcome (status * sstate E) :=
  sqp E P o cbs (sqp_restore fuel P) fuel x u clk.
Definition ipm_solve (fuel : nat) (P : iprob S) (cbs : list (callback S U)) (x : list S) (u : U) (clk : nat) : outcome (status * istate E) :=
  ipm E P o cbs (Some (ipm_restore fuel P)) fuel x u clk.

End Restore.
