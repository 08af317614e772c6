(** Properties C74 to C79: the scalar type double (IEEE 754 binary64, round to nearest even),
    whatever the mathematics library [M] computes. *)
From Coq Require Import ZArith Reals List Bool.
From Flocq Require Import Core IEEE754.BinarySingleNaN.
From Verif Require Import Base ExprModel NumModel UtilModel FilterModel FilterSpec FilterProofs SolverModel NewtonModel SqpModel IpmModel
  FloatModel FloatSpec FloatProofs FloatLdlt FloatBarrier FloatScale.
Import ListNotations.
Local Open Scope R_scope.

(** C78: the scaling factors of finite gradients are finite, lie in (0,1], and bring the gradients to at most 100; they are 1
    or bring some entry to 100 (up to a relative error of 2^-53). *)
Theorem C78_scaling : forall (M : libm) (g : list dbl) (me mi : nat) (Ae Ai : list (nat * nat * dbl)),
  (forall x, In x g -> is_finite x = true) -> (forall e, In e Ae -> is_finite (snd e) = true) -> (forall e, In e Ai -> is_finite (snd e) = true) ->
  let s := scaling_ipm (S := Dn M) g me Ae mi Ai in
  brings_d (sc_f s) g /\ length (sc_e s) = me /\ length (sc_i s) = mi /\
  (forall r, (r < me)%nat -> exists f, nth_error (sc_e s) r = Some f /\ brings_d f (entries_of_row r Ae)) /\
  (forall r, (r < mi)%nat -> exists f, nth_error (sc_i s) r = Some f /\ brings_d f (entries_of_row r Ai)).
Proof. exact c40_d. Qed.
Print Assumptions C78_scaling.
Example C78_example : forall M, sc_f (scaling_ipm (S := Dn M) [d_ofZ 1000; d_ofZ (-3)] 0 [] 0 []) = (lit (S := Dn M) 1 1 : dbl) /\
  entries_of_row 1 [(0%nat, 0%nat, d_ofZ 5); (1%nat, 0%nat, d_ofZ 1000); (1%nat, 2%nat, d_ofZ (-3))] = [d_ofZ 1000; d_ofZ (-3)].
Proof. exact c40_ex_d. Qed.

(** C74: slacks of at least 2^-1000, any directions (infinities and NaN too), tau below 1 by more than the rounding errors of
    as many steps as there are components.  The step is finite and nonnegative, exceeds 1 by rounding errors only, is 1 or was
    cut short by a component, and, unless it is subnormal, keeps every computed new slack strictly positive. *)
Theorem C74_step_partial : forall (M : libm) (x p : list dbl) (tau : dbl),
  (forall v, In v x -> is_finite v = true /\ two_to (-1000) <= B2R v) -> length x = length p ->
  is_finite tau = true -> 1 / 2 <= B2R tau < 1 -> INR (length x) * two_to (-48) <= 1 - B2R tau - two_to (-52) ->
  let a := ftb (S := Dn M) x p tau in
  is_finite a = true /\ 0 <= B2R a <= 1 + INR (length x) * two_to (-48) /\
  (two_to (-1021) < B2R a -> forall i v w, nth_error x i = Some v -> nth_error p i = Some w -> is_finite w = true ->
     d_ltb (d_ofZ 0) (moved v a w) = true /\ (B2R w <= 0 -> is_finite (moved v a w) = true)) /\
  (a = d_ofZ 1 \/ exists i v w, nth_error x i = Some v /\ nth_error p i = Some w /\ stops_at (B2R tau) v w a).
Proof. exact c43_d. Qed.
Print Assumptions C74_step_partial.
Example C74_example : forall M, let x := [d_ofZ 1; d_lit 3 (-60)] in let p := [d_lit (-5) 3; d_ofZ 7] in let tau := (lit (S := Dn M) 99 2 : dbl) in
  (forall v, In v x -> is_finite v = true /\ two_to (-1000) <= B2R v) /\ length x = length p /\ is_finite tau = true /\ 1 / 2 <= B2R tau < 1 /\
  INR (length x) * two_to (-48) <= 1 - B2R tau - two_to (-52) /\ d_ltb (ftb (S := Dn M) x p tau) (d_ofZ 1) = true.
Proof. exact c43_ex. Qed.
(** Without the bound on the slacks the step can be infinite: slack 2^-1074, direction -2^-1073, tau 0.99. *)
Theorem C74_overflow_refuted : forall M : libm,
  ftb (S := Dn M) [d_lit 1 (-1074)] [d_lit (-1) (-1073)] (lit (S := Dn M) 99 2) = B754_infinity false.
Proof. exact c43_inf. Qed.
Print Assumptions C74_overflow_refuted.
(** A subnormal step can make a slack negative: slack 2^-100, direction -13 * 2^971, tau 0.99. *)
Theorem C74_underflow_refuted : forall M : libm,
  let v := d_lit 1 (-100) in let w := d_lit (-13) 971 in let a := ftb (S := Dn M) [v] [w] (lit (S := Dn M) 99 2) in
  B2R v = two_to (-100) /\ is_finite w = true /\ a = d_lit 1 (-1074) /\ d_ltb (moved v a w) (d_ofZ 0) = true.
Proof. exact c43_neg. Qed.
Print Assumptions C74_underflow_refuted.

(** C79: an accepted point has finite cost, a violation not above the maximum, is not dominated by a recorded entry, and passed
    the Armijo or the sufficient decrease test. *)
Theorem C79_accepted :
  forall (M : libm) (f : filter (Dn M)) (cur trial : fentry (Dn M)) (d a : Dn M) f', try_add f cur trial d a = (f', true) ->
    s_finite (Dn M) (fe_cost trial) = true /\ s_ltb (Dn M) (f_max f) (fe_viol trial) = false /\
    (forall e, In e (f_entries f) -> ~ no_better trial e) /\
    (sufficient cur trial a = true \/ (switching cur d a = true /\ armijo cur trial d a = true)).
Proof. exact (fun M => try_add_accepts (S := Dn M)). Qed.
Print Assumptions C79_accepted.
(** A region excluded once is excluded by every later filter up to the next reset. *)
Theorem C79_remembers :
  forall (M : libm) (f : filter (Dn M)) ops cur trial (d a : Dn M) f' e, In e (f_entries f) -> ~ In FReset ops -> no_better trial e ->
    try_add (frun f ops) cur trial d a <> (f', true).
Proof. exact (fun M => c44_remembers (S := Dn M) (Dn_trans M)). Qed.
Print Assumptions C79_remembers.
(** C79: a point of non-finite cost, or of infinite violation, is never accepted. *)
Theorem C79_nonfinite :
  forall (M : libm) (f : filter (Dn M)) (cur trial : fentry (Dn M)) (d a : dbl) f', try_add f cur trial (d : Dn M) (a : Dn M) = (f', true) ->
    is_finite (fe_cost trial : dbl) = true /\ (is_finite (f_max f : dbl) = true -> (fe_viol trial : dbl) <> B754_infinity false).
Proof. exact c45_d. Qed.
Print Assumptions C79_nonfinite.

(** C77: for every outcome of the factorizations the computation ends within 425 trials; success means the right pivots, failure
    that a perturbation exceeded 1e20; the matrix is perturbed by at least 2^-52 unless it was used as it is. *)
Theorem C77_regularized : forall (M : libm) (gmin prev : dbl) (factor : dbl -> dbl -> option (list dbl)) n m,
  is_finite gmin = true -> 0 <= B2R gmin -> is_finite prev = true -> 0 <= B2R prev ->
  (forall d g D, factor d g = Some D -> length D = (n + m)%nat) -> forall fuel, (425 <= fuel)%nat ->
  exists l, ldlt_compute (S := Dn M) fuel factor n m gmin prev = Ok l /\
    (ld_ok l = true -> exists D, factor (ld_d l) (ld_g l) = Some D /\ pivots n m D) /\
    (ld_ok l = false -> d_ltb d_1e20 (ld_d l) = true \/ d_ltb d_1e20 (ld_g l) = true) /\
    ((ld_ok l = true /\ ld_d l = d_ofZ 0 /\ ld_g l = d_ofZ 0) \/ (d_leb (d_lit 1 (-52)) (ld_d l) = true /\ d_leb gmin (ld_g l) = true)).
Proof. exact c46_d. Qed.
Print Assumptions C77_regularized.
Example C77_example : let factor := fun d g : dbl => Some [d_add (d_ofZ 1) d; d_sub (d_add (d_ofZ (-1)) d) g] in
  (forall d g D, factor d g = Some D -> length D = (2 + 0)%nat) /\ ~ (exists D, factor (d_ofZ 0) (d_ofZ 0) = Some D /\ pivots 2 0 D) /\
  exists D, factor (d_ofZ 10) (d_ofZ 0) = Some D /\ pivots 2 0 D.
Proof. exact c46_ex_d. Qed.

(** C75: Newton's method returns. *)
Theorem C75_newton :
  forall (M : libm) (U : Type) (E : env (Dn M)) (P : nprob (Dn M)) (cbs : list (callback (Dn M) U)) (o : options (Dn M)) x0 u clk fuel,
    length (np_g P x0) = np_n P -> mat_dims (np_n P) (np_n P) (np_H P x0) = true ->
    (67 <= fuel)%nat -> (Z.to_nat (o_max o) < fuel)%nat -> exists r, newton E P cbs o fuel x0 u clk = Ok r.
Proof. exact c50_d. Qed.
Print Assumptions C75_newton.

(** C76: however often one iteration lowers the barrier parameter, it stops, the parameter does not increase and does not fall
    below the floor (or its old value), for every mathematics library. *)
Theorem C76_update : forall (M : libm) (P : iprob (Dn M)) (o : options (Dn M)),
  is_finite (mu_min P o : dbl) = true -> 0 < B2R (mu_min P o : dbl) ->
  forall fuel err (mu tau : dbl) flt, is_finite mu = true -> 0 < B2R mu -> (2101 <= fuel)%nat ->
  exists m t f', barrier P o fuel err (mu : Dn M) (tau : Dn M) flt = Ok (m, t, f') /\ is_finite (m : dbl) = true /\
    Rmin (B2R (mu_min P o : dbl)) (B2R mu) <= B2R m <= B2R mu /\
    ((m = mu /\ t = tau) \/ (B2R m < B2R mu /\ t = tau_of (S := Dn M) m)).
Proof. exact @barrier_c53. Qed.
Print Assumptions C76_update.
(** With a floor of at least 2^e, tau stays at most 1 - 2^e. *)
Theorem C76_tau_partial : forall (M : libm) (P : iprob (Dn M)) (o : options (Dn M)) fuel err (mu tau : dbl) flt e,
  is_finite (mu_min P o : dbl) = true -> is_finite mu = true -> (-53 <= e <= -7)%Z -> two_to e <= B2R (mu_min P o : dbl) -> two_to e <= B2R mu <= 2 ->
  is_finite tau = true -> B2R (d_lit 126 (-7)) <= B2R tau <= 1 - two_to e -> (2101 <= fuel)%nat ->
  exists m t f', barrier P o fuel err (mu : Dn M) (tau : Dn M) flt = Ok (m, t, f') /\ two_to e <= B2R (m : dbl) <= 2 /\
    is_finite (t : dbl) = true /\ B2R (d_lit 126 (-7)) <= B2R (t : dbl) <= 1 - two_to e.
Proof. exact c53_tau. Qed.
Print Assumptions C76_tau_partial.
Example C76_example : forall M,
  is_finite (mu_min (sq_d M) (opt_d M) : dbl) = true /\ two_to (-40) <= B2R (mu_min (sq_d M) (opt_d M) : dbl) /\
  is_finite (lit (S := Dn M) 1 1 : dbl) = true /\ two_to (-40) <= B2R (lit (S := Dn M) 1 1 : dbl) <= 2 /\
  is_finite (lit (S := Dn M) 99 2 : dbl) = true /\ B2R (d_lit 126 (-7)) <= B2R (lit (S := Dn M) 99 2 : dbl) <= 1 - two_to (-40).
Proof. exact c53_ex_d. Qed.
(** With a tolerance of 1e-16 tau becomes 1 and the rule lets a slack reach 0. *)
Theorem C76_tau_refuted : forall M : libm, exists (P : iprob (Dn M)) (o : options (Dn M)) (mu tau : dbl) t,
  o_tol o = lit (S := Dn M) 1 16 /\ sc_f (ip_sc P) = (d_ofZ 1 : dbl) /\ d_ltb (mu_min P o) mu = true /\ d_ltb tau (d_ofZ 1) = true /\
  (forall fuel flt, (2 <= fuel)%nat -> exists m f', barrier P o fuel (fun _ => d_ofZ 0 : Dn M) (mu : Dn M) (tau : Dn M) flt = Ok (m, t, f')) /\
  t = (d_ofZ 1 : dbl) /\ ftb (S := Dn M) [d_ofZ 1] [d_lit (-1) 1] t = (d_lit 1 (-1) : dbl) /\ moved (d_ofZ 1) (d_lit 1 (-1)) (d_lit (-1) 1) = d_ofZ 0.
Proof. exact c53_ref_d. Qed.
Print Assumptions C76_tau_refuted.

(** C75: the line searches stop after at most 25 and 26 trial points, second-order corrections not counted. *)
Theorem C75_sqp_search :
  forall (M : libm) (E : env (Dn M)) (P : sprob (Dn M)) c d flt cnt,
    exists r, forall n, (25 <= n)%nat -> sqp_search E P n c d (s_ofZ (Dn M) 1) flt cnt = Ok r.
Proof. exact ssearch_d. Qed.
Print Assumptions C75_sqp_search.
Theorem C75_ipm_search_partial :
  forall (M : libm) (E : env (Dn M)) (P : iprob (Dn M)) (o : options (Dn M)) (c : ictx E) (d : istep (S := Dn M)) dphi az flt cnt,
  let tau := (ix_tau _ c : dbl) in let s := (ix_s _ c : list dbl) in
  (forall v, In v s -> is_finite v = true /\ two_to (-1000) <= B2R v) -> length s = length (p_s d) ->
  is_finite tau = true -> 1 / 2 <= B2R tau < 1 -> INR (length s) * two_to (-48) <= 1 - B2R tau - two_to (-52) ->
  let a := ftb (S := Dn M) s (p_s d) tau in
  exists r, forall n, (26 <= n)%nat -> ipm_search E P o n c d dphi a az a flt cnt = Ok r.
Proof. exact c55_search_d. Qed.
Print Assumptions C75_ipm_search_partial.
(** From an infinite step the interior-point line search never ends: halving infinity gives infinity. *)
Theorem C75_ipm_search_refuted :
  forall M : libm, exists (E : env (Dn M)) (P : iprob (Dn M)) (o : options (Dn M)) (c : ictx E) (d : istep (S := Dn M)) (v : dbl),
  ix_s _ c = [v] /\ d_ltb (d_ofZ 0) v = true /\ all_fin (S := Dn M) (p_s d) = true /\
  forall dphi (az : dbl) flt cnt n, let a := ftb (S := Dn M) (ix_s _ c) (p_s d) (ix_tau _ c) in ipm_search E P o n c d dphi a az a flt cnt = OutOfFuel.
Proof. exact c55_ref_d. Qed.
Print Assumptions C75_ipm_search_refuted.
