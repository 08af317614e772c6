(** What the OCP constructors promise, for C58-C62, in terms of the values that Variables show at a point and of the
    user's dynamics as a relation between numbers. *)
From Coq Require Import Reals List Bool Arith.
From Verif Require Import Base ExprModel MathSpec VarModel ExprReal VarSpec ProblemModel ProblemSpec ProbSolveSpec OcpModel.
Import ListNotations.
Local Open Scope R_scope.

(** Variable [i] is defined at the point and shows [v]. *)
Definition has (se : senv) (rho : nat -> R) (i : nat) (v : R) : Prop :=
  exists e, nth_error (se_exp se) i = Some e /\ XEv rho e v.
Definition shows (se : senv) (rho : nat -> R) : list nat -> list R -> Prop := Forall2 (has se rho).

(** Entry (i, j) of a matrix, and column j. *)
Definition entry (se : senv) (rho : nat -> R) (m : vmat) (i j : nat) (v : R) : Prop :=
  exists k, nth_error (v_at m) (i * v_cols m + j) = Some k /\ has se rho k v.
Definition column (se : senv) (rho : nat -> R) (m : vmat) (j : nat) (v : list R) : Prop :=
  length v = v_rows m /\ forall i x, nth_error v i = Some x -> entry se rho m i j x.

Definition shape (m : vmat) (rows cols : nat) : Prop := v_rows m = rows /\ v_cols m = cols.

(** Vectors. *)
Definition vadd (x y : list R) : list R := map (fun p => fst p + snd p) (combine x y).
Definition vsub (x y : list R) : list R := map (fun p => fst p - snd p) (combine x y).
Definition vmul (c : R) (x : list R) : list R := map (fun v => c * v) x.

(** The user's dynamics as mathematics: at time t, state x, input u and timestep h it is defined with result y. *)
Definition dynamics := R -> list R -> list R -> R -> list R -> Prop.

(** The classical fourth-order Runge-Kutta step. *)
Definition rk4_step (F : dynamics) (t : R) (x u : list R) (h : R) (x' : list R) : Prop :=
  exists k1 k2 k3 k4,
    F t x u h k1 /\
    F (t + h / 2) (vadd x (vmul (h / 2) k1)) u h k2 /\
    F (t + h / 2) (vadd x (vmul (h / 2) k2)) u h k3 /\
    F (t + h) (vadd x (vmul h k3)) u h k4 /\
    x' = vadd x (vmul (h / 6) (vadd (vadd (vadd k1 (vmul 2 k2)) (vmul 2 k3)) k4)).

(** The state after one timestep. *)
Definition next_state (ty : dyntype) (F : dynamics) (t : R) (x u : list R) (h : R) (x' : list R) : Prop :=
  match ty with EXPLICIT_ODE => rk4_step F t x u h x' | DISCRETE => F t x u h x' end.

(** Time at the start of step k. *)
Fixpoint time_at (hs : nat -> R) (k : nat) : R := match k with O => 0 | S k => time_at hs k + hs k end.

(** A vector of cubic polynomials and its derivative. *)
Record cubic := mkCub { c0 : R; c1 : R; c2 : R; c3 : R }.
Definition cub (p : cubic) (s : R) : R := c0 p + c1 p * s + c2 p * s ^ 2 + c3 p * s ^ 3.
Definition cub' (p : cubic) (s : R) : R := c1 p + 2 * c2 p * s + 3 * c3 p * s ^ 2.

(** Hermite-Simpson: the cubic through both states with the dynamics' slopes there has the dynamics' slope in the
    middle, with the mean of the two inputs. *)
Definition hermite_simpson (F : dynamics) (t : R) (x x' u u' : list R) (h : R) : Prop :=
  exists k k' (ps : list cubic),
    F t x u h k /\ F (t + h) x' u' h k' /\
    map (fun p => cub p 0) ps = x /\ map (fun p => cub p h) ps = x' /\
    map (fun p => cub' p 0) ps = k /\ map (fun p => cub' p h) ps = k' /\
    F (t + h / 2) (map (fun p => cub p (h / 2)) ps) (vmul (1 / 2) (vadd u u')) h (map (fun p => cub' p (h / 2)) ps).

(** The state [x'] is related by [Q], entry by entry, to the state after one timestep: equality gives [next_state], closeness
    the constraint within a tolerance. *)
Definition next_state_upto (Q : R -> R -> Prop) (ty : dyntype) (F : dynamics) (t : R) (x u : list R) (h : R) (x' : list R) : Prop :=
  exists w, next_state ty F t x u h w /\ Forall2 Q x' w.
(** The same for the two slopes at the midpoint in [hermite_simpson]. *)
Definition hermite_simpson_upto (Q : R -> R -> Prop) (F : dynamics) (t : R) (x x' u u' : list R) (h : R) : Prop :=
  exists k k' (ps : list cubic) m,
    F t x u h k /\ F (t + h) x' u' h k' /\
    map (fun p => cub p 0) ps = x /\ map (fun p => cub p h) ps = x' /\
    map (fun p => cub' p 0) ps = k /\ map (fun p => cub' p h) ps = k' /\
    F (t + h / 2) (map (fun p => cub p (h / 2)) ps) (vmul (1 / 2) (vadd u u')) h m /\
    Forall2 Q (map (fun p => cub' p (h / 2)) ps) m.

(** The number of Variables and constraint objects the program has. *)
Definition sync (g : gen) (sp : spec) : Prop := g_vars g = length (se_exp (sp_se sp)) /\ g_cons g = length (sp_cons sp).
(** [sp'] is [sp] with more Variables, none of them a new decision variable. *)
Definition more (sp sp' : spec) : Prop :=
  exists l, sp' = set_se sp (mkSE (se_exp (sp_se sp) ++ l) (se_n (sp_se sp)) (se_val (sp_se sp))).
(** Running [m] means the step from [sp] to [sp'] to the user. *)
Definition did {A} (m : G A) (g : gen) (sp : spec) (a : A) (g' : gen) (sp' : spec) : Prop :=
  m g = Ok (a, g') /\ sync g' sp' /\ exists code, g_code g' = g_code g ++ code /\ spec_run code sp = Some (sp', []).

(** [m] is a matrix of existing Variables. *)
Definition vars_of (sp : spec) (m : vmat) (rows cols : nat) : Prop :=
  shape m rows cols /\ length (v_at m) = (rows * cols)%nat /\ List.Forall (fun i => (i < length (se_exp (sp_se sp)))%nat) (v_at m).

(** The user's function [f] computes [F]: given Variables, it makes Variables only, and where the arguments have values
    the result has the value (if any) of [F]. *)
Definition computes (ns ni : nat) (f : dyn) (F : dynamics) : Prop :=
  forall sp g t x u h, sync g sp ->
    (t < length (se_exp (sp_se sp)))%nat -> vars_of sp x ns 1 -> vars_of sp u ni 1 -> (h < length (se_exp (sp_se sp)))%nat ->
    exists y g' sp', did (f t x u h) g sp y g' sp' /\ more sp sp' /\ vars_of sp' y ns 1 /\
      forall rho tv xv uv hv, has (sp_se sp) rho t tv -> shows (sp_se sp) rho (v_at x) xv -> shows (sp_se sp) rho (v_at u) uv ->
        has (sp_se sp) rho h hv -> forall yv, shows (sp_se sp') rho (v_at y) yv <-> F tv xv uv hv yv.

(** Which timesteps there can be. *)
Definition steps_ok (tm : timestep) (dt : R) (N : nat) (hs : nat -> R) : Prop :=
  match tm with
  | FIXED => forall k, (k <= N)%nat -> hs k = dt
  | VARIABLE_SINGLE => forall j k, (j <= N)%nat -> (k <= N)%nat -> hs j = hs k
  | VARIABLE => True
  end.

(** At [rho] the OCP shows the inputs [us] and timesteps [hs]. *)
Definition shows_inputs (se : senv) (rho : nat -> R) (o : ocp) (us : nat -> list R) (hs : nat -> R) : Prop :=
  forall k, (k <= o_steps o)%nat -> column se rho (o_U o) k (us k) /\ entry se rho (o_DT o) 0 k (hs k).
Definition shows_states (se : senv) (rho : nat -> R) (o : ocp) (xs : nat -> list R) : Prop :=
  forall k, (k <= o_steps o)%nat -> column se rho (o_X o) k (xs k).

(** Entry (i, j) of an operand of a comparison. *)
Definition operand_is (se : senv) (rho : nat -> R) (o : operand R_ops) (i j : nat) (v : R) : Prop :=
  match o with
  | OVar k => has se rho k v
  | ONum c => v = c
  | OVars _ cols l => exists k, nth_error l (i * cols + j) = Some k /\ has se rho k v
  | ONums _ cols l => nth_error l (i * cols + j) = Some v
  end.
Definition fits (n : nat) (o : operand R_ops) (rows cols : nat) : Prop :=
  owf n o = true /\ match oshape o with None => True | Some s => s = (rows, cols) end.

(** The program [sp'] is [sp] with the Variables, decision variables and constraints of an OCP added: [ds] are the new
    decision variables, [es] and [is] the new equality and inequality constraints. *)
Record extends (sp sp' : spec) (ds : list nat) (es is : list urel) : Prop := mkExtends {
  e_vars : exists l, se_exp (sp_se sp') = se_exp (sp_se sp) ++ l;
  e_values : forall v, (v < se_n (sp_se sp))%nat -> se_val (sp_se sp') v = se_val (sp_se sp) v;
  e_dec : sp_dec sp' = sp_dec sp ++ ds;
  e_new : NoDup ds /\ forall v, In v ds -> (se_n (sp_se sp) <= v < se_n (sp_se sp'))%nat;
  e_goal : sp_goal sp' = sp_goal sp;
  e_eqs : sp_eqs sp' = sp_eqs sp ++ es;
  e_ineqs : sp_ineqs sp' = sp_ineqs sp ++ is;
}.

(** How many decision variables the timesteps take. *)
Definition dt_decisions (tm : timestep) (N : nat) : nat := match tm with FIXED => 0 | VARIABLE_SINGLE => 1 | VARIABLE => N + 1 end.

(** The point [rho] differs from the current values at the decision variables [ds] only. *)
Definition moves_only (sp : spec) (ds : list nat) (rho : nat -> R) : Prop := forall v, ~ In v ds -> rho v = se_val (sp_se sp) v.

(** The matrices of an OCP of N steps. *)
Definition matrices (sp : spec) (o : ocp) (ns ni N : nat) : Prop :=
  o_steps o = N /\ vars_of sp (o_X o) ns (N + 1) /\ vars_of sp (o_U o) ni (N + 1) /\ vars_of sp (o_DT o) 1 (N + 1).
(** Every point shows some trajectory, with timesteps of the chosen kind. *)
Definition total (sp : spec) (o : ocp) (tm : timestep) (dt : R) (N : nat) : Prop :=
  forall rho, exists xs us hs, shows_inputs (sp_se sp) rho o us hs /\ shows_states (sp_se sp) rho o xs /\ steps_ok tm dt N hs.
(** The decision variables [ds] can be set to show any trajectory. *)
Definition free (sp : spec) (o : ocp) (ns ni : nat) (tm : timestep) (dt : R) (N : nat) (ds : list nat) : Prop :=
  forall xs us hs, (forall k, (k <= N)%nat -> length (xs k) = ns) -> (forall k, (k <= N)%nat -> length (us k) = ni) -> steps_ok tm dt N hs ->
    exists rho, moves_only sp ds rho /\ shows_inputs (sp_se sp) rho o us hs /\ shows_states (sp_se sp) rho o xs.
(** The decision variables [ds] can be set to show any inputs and timesteps. *)
Definition free_inputs (sp : spec) (o : ocp) (ni : nat) (tm : timestep) (dt : R) (N : nat) (ds : list nat) : Prop :=
  forall us hs, (forall k, (k <= N)%nat -> length (us k) = ni) -> steps_ok tm dt N hs ->
    exists rho, moves_only sp ds rho /\ shows_inputs (sp_se sp) rho o us hs.
Definition total_inputs (sp : spec) (o : ocp) (tm : timestep) (dt : R) (N : nat) : Prop :=
  forall rho, exists us hs, shows_inputs (sp_se sp) rho o us hs /\ steps_ok tm dt N hs.

(** Column j of a matrix as Variables. *)
Definition is_col (m : vmat) (j : nat) (x : vmat) : Prop :=
  shape x (v_rows m) 1 /\ length (v_at x) = v_rows m /\
  forall i, (i < v_rows m)%nat -> nth_error (v_at x) i = nth_error (v_at m) (i * v_cols m + j).
(** Call the callback on each pair, in order. *)
Fixpoint calls (cb : vmat -> vmat -> G unit) (l : list (vmat * vmat)) : G unit :=
  match l with
  | [] => gret tt
  | (x, u) :: l => gbind (cb x u) (fun _ => calls cb l)
  end.

(** The program [sp'] is [sp] with more Variables, none of them a decision variable, and the constraints [es] and [is]. *)
Definition adds (sp sp' : spec) (es is : list urel) : Prop := extends sp sp' [] es is /\ se_val (sp_se sp') = se_val (sp_se sp) /\ se_n (sp_se sp') = se_n (sp_se sp).
(** All these constraints hold. *)
Definition both (rho : nat -> R) (es is : list urel) : Prop := List.Forall (rel_holds rho) es /\ List.Forall (rel_holds rho) is.
(** A callback that states constraints, which mean P. *)
Definition states_cb (ns ni : nat) (cb : vmat -> vmat -> G unit) (P : list R -> list R -> Prop) : Prop :=
  forall sp g x u, sync g sp -> vars_of sp x ns 1 -> vars_of sp u ni 1 ->
    exists g' sp' es is, did (cb x u) g sp tt g' sp' /\ adds sp sp' es is /\
      forall rho xv uv, shows (sp_se sp) rho (v_at x) xv -> shows (sp_se sp) rho (v_at u) uv -> (both rho es is <-> P xv uv).
Definition states_cb_t (ns ni : nat) (cb : nat -> vmat -> vmat -> nat -> G unit) (P : R -> list R -> list R -> R -> Prop) : Prop :=
  forall sp g t x u h, sync g sp -> (t < length (se_exp (sp_se sp)))%nat -> vars_of sp x ns 1 -> vars_of sp u ni 1 -> (h < length (se_exp (sp_se sp)))%nat ->
    exists g' sp' es is, did (cb t x u h) g sp tt g' sp' /\ adds sp sp' es is /\
      forall rho tv xv uv hv, has (sp_se sp) rho t tv -> shows (sp_se sp) rho (v_at x) xv -> shows (sp_se sp) rho (v_at u) uv -> has (sp_se sp) rho h hv ->
        (both rho es is <-> P tv xv uv hv).

(** A linear map on vectors of length n. *)
Definition linear (n : nat) (L : list R -> list R) : Prop :=
  (forall x, length x = n -> length (L x) = n) /\
  (forall x y, length x = n -> length y = n -> L (vadd x y) = vadd (L x) (L y)) /\
  (forall c x, length x = n -> L (vmul c x) = vmul c (L x)).
