(** Theorems about OCP (include/sleipnir/optimization/ocp.hpp): C58-C62.

    [did m g sp a g' sp'] says that the code m, run where the program means [sp] to the user, returns a and leaves a
    program that means [sp'] (meaning as in ProblemSpec.v, which C31-C36 tie to the code of Variable and Problem). *)
From Coq Require Import Reals List Bool Arith Lia Lra.
From Coquelicot Require Import Coquelicot.
From Verif Require Import Base ExprModel MathSpec VarModel ExprReal VarSpec ProblemModel ProblemSpec ProbSolveSpec OcpModel OcpSpec OcpProofs OcpTrans OcpShoot OcpUse OcpOrder OcpEx.
Import ListNotations.
Local Open Scope nat_scope.

(** C58, direct transcription: N * num_states equality constraints and nothing else are added, and at a point that
    shows states [xs], inputs [us] and timesteps [hs] they hold exactly when every xs (k+1) is the Runge-Kutta (or
    user's discrete) update of xs k; every point shows a trajectory, and the new decision variables can be set to show
    any trajectory; they start at zero inputs and states and the given timestep. *)
Theorem C58_transcription :
  forall ns ni f F, computes ns ni f F -> forall dt N tm ty sp g, sync g sp ->
  exists o g' sp' ds es, did (ocp_make ns ni dt N f ty tm DIRECT_TRANSCRIPTION) g sp o g' sp' /\
    extends sp sp' ds es [] /\ length ds = ni * (N + 1) + dt_decisions tm N + ns * (N + 1) /\ length es = N * ns /\
    matrices sp' o ns ni N /\ total sp' o tm dt N /\ free sp' o ns ni tm dt N ds /\
    shows_inputs (sp_se sp') (se_val (sp_se sp')) o (fun _ => repeat 0%R ni) (fun _ => dt) /\
    shows_states (sp_se sp') (se_val (sp_se sp')) o (fun _ => repeat 0%R ns) /\
    forall rho xs us hs, shows_inputs (sp_se sp') rho o us hs -> shows_states (sp_se sp') rho o xs ->
      (List.Forall (rel_holds rho) es <-> forall k, k < N -> next_state ty F (time_at hs k) (xs k) (us k) (hs k) (xs (k + 1))).
Proof. exact transcription_makes. Qed.
Print Assumptions C58_transcription.

(** C58, single shooting: no constraint is added, and the states shown are the trajectory simulated from the first
    column. *)
Theorem C58_single_shooting :
  forall ns ni f F, computes ns ni f F -> forall dt N tm ty sp g, sync g sp ->
  exists o g' sp' ds, did (ocp_make ns ni dt N f ty tm SINGLE_SHOOTING) g sp o g' sp' /\
    extends sp sp' ds [] [] /\ length ds = ni * (N + 1) + dt_decisions tm N /\
    matrices sp' o ns ni N /\ total_inputs sp' o tm dt N /\ free_inputs sp' o ni tm dt N ds /\
    shows_inputs (sp_se sp') (se_val (sp_se sp')) o (fun _ => repeat 0%R ni) (fun _ => dt) /\
    (forall rho, moves_only sp' ds rho -> column (sp_se sp') rho (o_X o) 0 (repeat 0%R ns)) /\
    forall rho us hs xs, shows_inputs (sp_se sp') rho o us hs -> column (sp_se sp') rho (o_X o) 0 (xs 0) ->
      (shows_states (sp_se sp') rho o xs <-> forall k, k < N -> next_state ty F (time_at hs k) (xs k) (us k) (hs k) (xs (k + 1))).
Proof. exact shooting_makes. Qed.
Print Assumptions C58_single_shooting.

(** C59: with nonzero timesteps the collocation constraints hold exactly when on every interval the cubic through the
    two states with the dynamics' slopes there has the dynamics' slope at the midpoint, with the mean input. *)
Theorem C59_collocation :
  forall ns ni f F, computes ns ni f F -> forall dt N tm sp g, sync g sp ->
  exists o g' sp' ds es, did (ocp_make ns ni dt N f EXPLICIT_ODE tm DIRECT_COLLOCATION) g sp o g' sp' /\
    extends sp sp' ds es [] /\ length ds = ni * (N + 1) + dt_decisions tm N + ns * (N + 1) /\ length es = N * ns /\
    matrices sp' o ns ni N /\ total sp' o tm dt N /\ free sp' o ns ni tm dt N ds /\
    shows_inputs (sp_se sp') (se_val (sp_se sp')) o (fun _ => repeat 0%R ni) (fun _ => dt) /\
    shows_states (sp_se sp') (se_val (sp_se sp')) o (fun _ => repeat 0%R ns) /\
    forall rho xs us hs, shows_inputs (sp_se sp') rho o us hs -> shows_states (sp_se sp') rho o xs -> (forall k, k < N -> hs k <> 0%R) ->
      (List.Forall (rel_holds rho) es <-> forall k, k < N -> hermite_simpson F (time_at hs k) (xs k) (xs (k + 1)) (us k) (us (k + 1)) (hs k)).
Proof. exact collocation_makes. Qed.
Print Assumptions C59_collocation.

(** C59: collocation of discrete dynamics is refused. *)
Theorem C59_collocation_discrete :
  forall ns ni dt N f tm sp g, sync g sp -> ocp_make ns ni dt N f DISCRETE tm DIRECT_COLLOCATION g = AssertFail.
Proof. exact collocation_discrete. Qed.
Print Assumptions C59_collocation_discrete.

(** C60: the Runge-Kutta code integrates dynamics that are cubic in time exactly. *)
Theorem C60_polynomial :
  forall ni f ps, computes (length ps) ni f (fun t _ _ _ y => y = map (fun p => cub p t) ps) ->
  forall sp g t x u h, sync g sp -> t < length (se_exp (sp_se sp)) -> vars_of sp x (length ps) 1 -> vars_of sp u ni 1 -> h < length (se_exp (sp_se sp)) ->
  exists y g' sp', did (rk4 f x u t h) g sp y g' sp' /\ more sp sp' /\ vars_of sp' y (length ps) 1 /\
    forall rho tv xv uv hv, has (sp_se sp) rho t tv -> shows (sp_se sp) rho (v_at x) xv -> shows (sp_se sp) rho (v_at u) uv -> has (sp_se sp) rho h hv ->
      exists yv, shows (sp_se sp') rho (v_at y) yv /\ length yv = length ps /\
        forall i p a b, nth_error ps i = Some p -> nth_error xv i = Some a -> nth_error yv i = Some b -> is_RInt (cub p) tv (tv + hv)%R (b - a)%R.
Proof. exact code_cubics. Qed.
Print Assumptions C60_polynomial.

(** C60: for linear dynamics the step is the Taylor polynomial of the exponential of degree four. *)
Theorem C60_linear :
  forall ns ni f L, linear ns L -> computes ns ni f (fun _ x _ _ y => y = L x) ->
  forall sp g t x u h, sync g sp -> t < length (se_exp (sp_se sp)) -> vars_of sp x ns 1 -> vars_of sp u ni 1 -> h < length (se_exp (sp_se sp)) ->
  exists y g' sp', did (rk4 f x u t h) g sp y g' sp' /\ more sp sp' /\ vars_of sp' y ns 1 /\
    forall rho tv xv uv hv, has (sp_se sp) rho t tv -> shows (sp_se sp) rho (v_at x) xv -> shows (sp_se sp) rho (v_at u) uv -> has (sp_se sp) rho h hv ->
      forall yv, shows (sp_se sp') rho (v_at y) yv <->
        yv = vadd xv (vadd (vmul hv (L xv)) (vadd (vmul (hv ^ 2 / 2) (L (L xv))) (vadd (vmul (hv ^ 3 / 6) (L (L (L xv)))) (vmul (hv ^ 4 / 24) (L (L (L (L xv)))))))).
Proof. exact code_linear. Qed.
Print Assumptions C60_linear.

(** C60, the scalar case in the property's words. *)
Theorem C60_scalar :
  forall ns ni f a, computes ns ni f (fun _ x _ _ y => y = vmul a x) ->
  forall sp g t x u h, sync g sp -> t < length (se_exp (sp_se sp)) -> vars_of sp x ns 1 -> vars_of sp u ni 1 -> h < length (se_exp (sp_se sp)) ->
  exists y g' sp', did (rk4 f x u t h) g sp y g' sp' /\ more sp sp' /\ vars_of sp' y ns 1 /\
    forall rho tv xv uv hv, has (sp_se sp) rho t tv -> shows (sp_se sp) rho (v_at x) xv -> shows (sp_se sp) rho (v_at u) uv -> has (sp_se sp) rho h hv ->
      forall yv, shows (sp_se sp') rho (v_at y) yv <-> yv = vmul (1 + a * hv + (a * hv) ^ 2 / 2 + (a * hv) ^ 3 / 6 + (a * hv) ^ 4 / 24) xv.
Proof. exact code_scale. Qed.
Print Assumptions C60_scalar.

(** C61: for_each_step calls the callback once per column, in order, whatever the callback does. *)
Theorem C61_calls :
  forall o ns ni N, o_steps o = N -> shape (o_X o) ns (N + 1) -> length (v_at (o_X o)) = ns * (N + 1) -> shape (o_U o) ni (N + 1) -> length (v_at (o_U o)) = ni * (N + 1) ->
  exists l, length l = N + 1 /\ (forall k x u, nth_error l k = Some (x, u) -> is_col (o_X o) k x /\ is_col (o_U o) k u) /\
    forall cb g, for_each_step o cb g = calls cb l g.
Proof. exact each_step_calls. Qed.
Print Assumptions C61_calls.

(** C61: a callback that states constraints meaning P states P of every step's state and input. *)
Theorem C61_for_each_step :
  forall ns ni N o, o_steps o = N -> forall cb P sp g, states_cb ns ni cb P -> sync g sp -> matrices sp o ns ni N ->
  exists g' sp' es is, did (for_each_step o cb) g sp tt g' sp' /\ adds sp sp' es is /\
    forall rho xs us, (forall k, k <= N -> column (sp_se sp) rho (o_X o) k (xs k) /\ column (sp_se sp) rho (o_U o) k (us k)) ->
      (both rho es is <-> forall k, k <= N -> P (xs k) (us k)).
Proof. exact each_step_states. Qed.
Print Assumptions C61_for_each_step.

(** C61, the callback with time: it also gets the sum of the earlier timesteps, and its own timestep. *)
Theorem C61_for_each_step_time :
  forall ns ni N o, o_steps o = N -> forall cb P sp g, states_cb_t ns ni cb P -> sync g sp -> matrices sp o ns ni N ->
  exists g' sp' es is, did (for_each_step_t o cb) g sp tt g' sp' /\ adds sp sp' es is /\
    forall rho xs us hs, shows_inputs (sp_se sp) rho o us hs -> shows_states (sp_se sp) rho o xs ->
      (both rho es is <-> forall k, k <= N -> P (time_at hs k) (xs k) (us k) (hs k)).
Proof. exact each_step_states_t. Qed.
Print Assumptions C61_for_each_step_time.

(** C61: constrain_initial_state. *)
Theorem C61_initial_state :
  forall ns ni N o, o_steps o = N -> forall sp g v, sync g sp -> matrices sp o ns ni N -> fits (length (se_exp (sp_se sp))) v ns 1 ->
  exists g' sp' es, did (constrain_initial_state o v) g sp tt g' sp' /\ adds sp sp' es [] /\ length es = ns /\
    forall rho, List.Forall (rel_holds rho) es <-> forall i, i < ns -> exists x y, entry (sp_se sp) rho (o_X o) i 0 x /\ operand_is (sp_se sp) rho v i 0 y /\ x = y.
Proof. exact initial_state_adds. Qed.
Print Assumptions C61_initial_state.

(** C61: constrain_final_state. *)
Theorem C61_final_state :
  forall ns ni N o, o_steps o = N -> forall sp g v, sync g sp -> matrices sp o ns ni N -> fits (length (se_exp (sp_se sp))) v ns 1 ->
  exists g' sp' es, did (constrain_final_state o v) g sp tt g' sp' /\ adds sp sp' es [] /\ length es = ns /\
    forall rho, List.Forall (rel_holds rho) es <-> forall i, i < ns -> exists x y, entry (sp_se sp) rho (o_X o) i N x /\ operand_is (sp_se sp) rho v i 0 y /\ x = y.
Proof. exact final_state_adds. Qed.
Print Assumptions C61_final_state.

(** C61: set_lower_input_bound and set_upper_input_bound. *)
Theorem C61_input_bounds :
  forall ns ni N o, o_steps o = N -> forall lower sp g v, sync g sp -> matrices sp o ns ni N -> fits (length (se_exp (sp_se sp))) v ni 1 ->
  exists g' sp' is, did ((if lower : bool then set_lower_input_bound else set_upper_input_bound) o v) g sp tt g' sp' /\ adds sp sp' [] is /\ length is = (N + 1) * ni /\
    forall rho, List.Forall (rel_holds rho) is <->
      forall k j, k <= N -> j < ni -> exists x y, entry (sp_se sp) rho (o_U o) j k x /\ operand_is (sp_se sp) rho v j 0 y /\ (if lower then x >= y else x <= y)%R.
Proof. exact input_bound_adds. Qed.
Print Assumptions C61_input_bounds.

(** C61: set_min_timestep and set_max_timestep. *)
Theorem C61_timesteps :
  forall ns ni N o, o_steps o = N -> forall lower sp g h, sync g sp -> matrices sp o ns ni N ->
  exists g' sp' is, did ((if lower : bool then set_min_timestep else set_max_timestep) o h) g sp tt g' sp' /\ adds sp sp' [] is /\ length is = N + 1 /\
    forall rho, List.Forall (rel_holds rho) is <-> forall k, k <= N -> exists x, entry (sp_se sp) rho (o_DT o) 0 k x /\ (if lower then x >= h else x <= h)%R.
Proof. exact timestep_adds. Qed.
Print Assumptions C61_timesteps.

(** C62: whatever the method, constrain_initial_state(v) holds exactly where the first state is v, and with the direct
    methods the decision variables reach such a point.  Missing: for single shooting they do not, see below. *)
Theorem C62_initial_state_partial :
  forall ns ni f F, computes ns ni f F -> forall dt N tm ty tr sp g (v : list R), sync g sp -> length v = ns -> (tr = DIRECT_COLLOCATION -> ty = EXPLICIT_ODE) ->
  exists o g' sp' ds es, did (ocp_make ns ni dt N f ty tm tr) g sp o g' sp' /\ extends sp sp' ds es [] /\
    exists g2 sp2 es2, did (constrain_initial_state o (ONums (S := R_ops) ns 1 v)) g' sp' tt g2 sp2 /\ adds sp' sp2 es2 [] /\ length es2 = ns /\
      (forall rho, List.Forall (rel_holds rho) es2 <-> column (sp_se sp2) rho (o_X o) 0 v) /\
      (tr <> SINGLE_SHOOTING -> exists rho, moves_only sp2 ds rho /\ List.Forall (rel_holds rho) es2).
Proof. exact initial_any. Qed.
Print Assumptions C62_initial_state_partial.

(** C62 fails for single shooting: the first column of X is not made of decision variables, so for every v other than
    zero no assignment of the decision variables satisfies constrain_initial_state(v). *)
Theorem C62_single_shooting_refuted :
  forall ns ni f F, computes ns ni f F -> forall dt N tm ty sp g (v : list R), sync g sp -> length v = ns -> v <> repeat 0%R ns ->
  exists o g' sp' ds, did (ocp_make ns ni dt N f ty tm SINGLE_SHOOTING) g sp o g' sp' /\ extends sp sp' ds [] [] /\
    exists g2 sp2 es, did (constrain_initial_state o (ONums (S := R_ops) ns 1 v)) g' sp' tt g2 sp2 /\ extends sp' sp2 [] es [] /\
      forall rho, moves_only sp2 ds rho -> ~ List.Forall (rel_holds rho) es.
Proof. exact shooting_initial. Qed.
Print Assumptions C62_single_shooting_refuted.

(** A new program, and the driven pendulum with 2 states and 1 input. *)
Example C58_case : computes 2 1 pendulum Pendulum /\ sync (mkGen 0 0 []) spec_empty.
Proof. split; [exact pendulum_computes|split; reflexivity]. Qed.
(** The integrator with step 1/2: 0, 1, 3 under inputs 2, 4. *)
Example C58_steps : forall k, k < 2 -> next_state DISCRETE Integrator (time_at (fun _ => 1 / 2)%R k) (nth k [[0%R]; [1%R]; [3%R]] []) (nth k [[2%R]; [4%R]] []) (1 / 2)%R (nth (k + 1) [[0%R]; [1%R]; [3%R]] []).
Proof. intros [|[|k]] H; [cbn; f_equal; lra|cbn; f_equal; lra|lia]. Qed.
(** The parabola x = t^2 under x' = u with inputs 0 and 2 on one interval of length 1. *)
Example C59_case : (1 <> 0)%R /\ hermite_simpson (fun _ _ u _ y => y = u) 0%R [0%R] [1%R] [0%R] [2%R] 1%R.
Proof. split; [lra|]. exists [0%R], [2%R], [mkCub 0 0 1 0]. cbn. unfold cub, cub'. cbn. repeat split; try (f_equal; lra). Qed.
Example C60_case : computes (length [mkCub 0 0 0 4]) 1 ramp (fun t _ _ _ y => y = map (fun p => cub p t) [mkCub 0 0 0 4]) /\
  computes 1 1 growth (fun _ x _ _ y => y = vmul 3 x) /\ linear 1 (vmul 3).
Proof. split; [exact (ramp_computes 1)|]. split; [exact (growth_computes 1)|exact (linear_scale 1 3)]. Qed.
(** A program with two Variables, and an OCP of one step over them. *)
Definition one_step : ocp := mkOcp 1 (mkM 1 2 [0; 1]) (mkM 1 2 [1; 0]) (mkM 1 2 [0; 0]).
Definition two_vars : spec := mkS (mkSE [XVar 0; XVar 1] 2 (fun _ => 0%R)) [] [0; 1] None [] [].
Example C61_case : matrices two_vars one_step 1 1 1 /\ sync (mkGen 2 0 []) two_vars /\ fits 2 (ONum (S := R_ops) 5%R) 1 1 /\
  states_cb 1 1 fence (fun x u => List.Forall (fun a => (a <= 1)%R) x /\ List.Forall (fun a => (a >= 0)%R) u).
Proof. split; [repeat split; cbn; repeat constructor|]. split; [split; reflexivity|]. split; [split; [reflexivity|exact I]|exact (fence_states 1 1)]. Qed.
Example C62_case : computes 2 1 pendulum Pendulum /\ length [1%R; 0%R] = 2 /\ [1%R; 0%R] <> repeat 0%R 2.
Proof. split; [exact pendulum_computes|]. split; [reflexivity|]. cbn. intros H. injection H as H. lra. Qed.
