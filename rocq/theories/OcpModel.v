(** Model of include/sleipnir/optimization/ocp.hpp.

    The code of class OCP only creates Variables and calls Problem's public functions, so it is modelled as the sequence
    of statements (ProblemModel.v) it executes; what these statements do is ProblemModel.v and VarModel.v.  Numbers
    are real here; [pinj] (ProblemProofs3.v) turns the statements into those of any scalar type.

    Simplifications: sizes are natural numbers; the int products rows * cols do not overflow; a copy of a Variable made
    to pass it on (X().col(i) to VariableMatrix, function arguments) is the same handle, since a copy shows the same
    expression. *)
From Coq Require Import Reals List Bool Arith.
From Verif Require Import Base ExprModel VarModel ExprReal ProblemModel.
Import ListNotations.
Local Open Scope nat_scope.

(** Code being executed: how many Variables and constraint objects the program has made, and the statements since. *)
Record gen := mkGen { g_vars : nat; g_cons : nat; g_code : list (pop R_ops) }.
Definition G (A : Type) := gen -> outcome (A * gen).
Definition gret {A} (a : A) : G A := fun g => Ok (a, g).
Definition gbind {A B} (m : G A) (f : A -> G B) : G B := fun g => let* (a, g) := m g in f a g.
Notation "'gdo' x <- m ; k" := (gbind m (fun x => k)) (at level 61, x pattern, m at next level, right associativity).
(** slp_assert in code being executed. *)
Definition gassert {A} (b : bool) (m : G A) : G A := fun g => oassert b (m g).

(** A statement that makes a Variable. *)
Definition gvar (o : hop R_ops) : G nat := fun g => Ok (g_vars g, mkGen (S (g_vars g)) (g_cons g) (g_code g ++ [PH o])).
(** A statement that makes none: x.set_value(v), x = y, x = number. *)
Definition gdo_ (o : hop R_ops) : G unit := fun g => Ok (tt, mkGen (g_vars g) (g_cons g) (g_code g ++ [PH o])).

Fixpoint gmap {A B} (f : A -> G B) (l : list A) : G (list B) :=
  match l with
  | [] => gret []
  | x :: rest => gdo y <- f x; gdo ys <- gmap f rest; gret (y :: ys)
  end.

(** for (int i = 0; i < n; ++i), with the loop's state. *)
Fixpoint gfor {A} (n i : nat) (f : nat -> A -> G A) (a : A) : G A :=
  match n with
  | O => gret a
  | S n => gdo a <- f i a; gfor n (S i) f a
  end.

(** VariableMatrix: the handles of its entries, row by row. *)
Record vmat := mkM { v_rows : nat; v_cols : nat; v_at : list nat }.
Definition as_operand (m : vmat) : operand R_ops := OVars (v_rows m) (v_cols m) (v_at m).

Fixpoint look {A} (l : list A) (ks : list nat) : option (list A) :=
  match ks with
  | [] => Some []
  | k :: ks => match nth_error l k, look l ks with Some x, Some xs => Some (x :: xs) | _, _ => None end
  end.

(** variable_matrix.hpp 486-489: m.col(j). *)
Definition vcol (m : vmat) (j : nat) : G vmat :=
  gassert (Nat.ltb j (v_cols m)) (fun g =>
    match look (v_at m) (map (fun i => i * v_cols m + j) (seq 0 (v_rows m))) with
    | Some l => Ok (mkM (v_rows m) 1 l, g)
    | None => UB
    end).

(** m[i, j], variable_matrix.hpp 310-325. *)
Definition vget (m : vmat) (i j : nat) : G nat :=
  gassert (Nat.ltb i (v_rows m) && Nat.ltb j (v_cols m)) (fun g =>
    match nth_error (v_at m) (i * v_cols m + j) with Some k => Ok (k, g) | None => UB end).

(** Scalar operators with a number: the number becomes a constant, variable.hpp 165-178, 184-253. *)
Definition gbin (b : bop) (i j : nat) : G nat := gvar (HBin b i j).
Definition gbin_num (b : bop) (i : nat) (c : R) : G nat := gdo k <- gvar (HConst (S := R_ops) c); gbin b i k.
Definition gnum_bin (b : bop) (c : R) (i : nat) : G nat := gdo k <- gvar (HConst (S := R_ops) c); gbin b k i.

(** variable_matrix.hpp 751-803 (+) and 843-895 (-): entry by entry, row by row. *)
Definition vop (b : bop) (x y : vmat) : G vmat :=
  gassert (Nat.eqb (v_rows x) (v_rows y) && Nat.eqb (v_cols x) (v_cols y)) (
    gdo l <- gmap (fun p => gbin b (fst p) (snd p)) (combine (v_at x) (v_at y)); gret (mkM (v_rows x) (v_cols x) l)).
(** 592-602 and 627-637: matrix times Variable or Variable times matrix. *)
Definition vscale (x : vmat) (k : nat) : G vmat :=
  gdo l <- gmap (fun i => gbin BMul i k) (v_at x); gret (mkM (v_rows x) (v_cols x) l).
(** The same with a number, converted for every entry. *)
Definition vscale_num (x : vmat) (c : R) : G vmat :=
  gdo l <- gmap (fun i => gbin_num BMul i c) (v_at x); gret (mkM (v_rows x) (v_cols x) l).

(** subject_to(lhs ? rhs), problem.hpp 193-232 with variable.hpp 899-1001. *)
Definition gsubject (c : cmp) (lhs rhs : operand R_ops) : G unit := fun g =>
  Ok (tt, mkGen (g_vars g) (S (g_cons g)) (g_code g ++ [PCompare c lhs rhs; PSubject (g_cons g)])).
(** decision_variable(rows, cols), problem.hpp 91-104; decision_variable(), 77-81, is the 1x1 case. *)
Definition gdecision (rows cols : nat) : G vmat := fun g =>
  Ok (mkM rows cols (seq (g_vars g) (rows * cols)), mkGen (g_vars g + rows * cols) (g_cons g) (g_code g ++ [PDecision rows cols])).
(** VariableMatrix{rows, cols}, variable_matrix.hpp 55-60: a default-constructed Variable for every entry. *)
Definition gmatrix (rows cols : nat) : G vmat :=
  gdo l <- gmap (fun _ => gvar HNew) (seq 0 (rows * cols)); gret (mkM rows cols l).
(** block = matrix, variable_block.hpp 39-61, 193-217.  The matrix was returned by value, so its entries are Variable
    objects of their own. *)
Definition vassign (dst src : vmat) : G unit :=
  gdo tmp <- gmap (fun i => gvar (HCopy i)) (v_at src);
  gassert (Nat.eqb (v_rows dst) (v_rows src) && Nat.eqb (v_cols dst) (v_cols src)) (
    gdo _ <- gmap (fun p => gdo_ (HAssign (fst p) (snd p))) (combine (v_at dst) tmp); gret tt).

(** The user's dynamics function (t, x, u, dt), 112-116: any code that makes Variables. *)
Definition dyn := nat -> vmat -> vmat -> nat -> G vmat.
(** 78-86: a function of (x, u) only. *)
Definition dyn2 (f : vmat -> vmat -> G vmat) : dyn := fun _ x u _ => f x u.

Inductive dyntype := EXPLICIT_ODE | DISCRETE.
Inductive timestep := FIXED | VARIABLE_SINGLE | VARIABLE.
(** ocp/transcription_method.hpp 10-20. *)
Inductive transcription := DIRECT_TRANSCRIPTION | DIRECT_COLLOCATION | SINGLE_SHOOTING.

(** rk4, 311-319. *)
Definition rk4 (f : dyn) (x u : vmat) (t0 dt : nat) : G vmat :=
  gdo halfdt <- gbin_num BMul dt (1 / 2)%R;
  gdo k1 <- f t0 x u dt;
  gdo t1 <- gbin BAdd t0 halfdt; gdo d1 <- vscale k1 halfdt; gdo x1 <- vop BAdd x d1;
  gdo k2 <- f t1 x1 u dt;
  gdo t2 <- gbin BAdd t0 halfdt; gdo d2 <- vscale k2 halfdt; gdo x2 <- vop BAdd x d2;
  gdo k3 <- f t2 x2 u dt;
  gdo t3 <- gbin BAdd t0 dt; gdo d3 <- vscale k3 dt; gdo x3 <- vop BAdd x d3;
  gdo k4 <- f t3 x3 u dt;
  gdo a <- vscale_num k2 2%R; gdo s <- vop BAdd k1 a;
  gdo b <- vscale_num k3 2%R; gdo s <- vop BAdd s b;
  gdo s <- vop BAdd s k4;
  gdo w <- gbin_num BDiv dt 6%R;
  gdo d <- vscale s w;
  vop BAdd x d.

(** The next state of one step: 367-377, 390-398. *)
Definition advance (ty : dyntype) (f : dyn) (time : nat) (x u : vmat) (dt : nat) : G vmat :=
  match ty with EXPLICIT_ODE => rk4 f x u time dt | DISCRETE => f time x u dt end.

Record ocp := mkOcp { o_steps : nat; o_X : vmat; o_U : vmat; o_DT : vmat }.

(** 359-380.  The loop's state is the Variable [time]. *)
Definition constrain_transcription (ty : dyntype) (f : dyn) (N : nat) (X U DT : vmat) : G unit :=
  gdo time <- gvar (HConst (S := R_ops) 0%R);
  gdo _ <- gfor N 0 (fun i time =>
    gdo x_begin <- vcol X i; gdo x_end <- vcol X (i + 1); gdo u <- vcol U i; gdo dt <- vget DT 0 i;
    gdo next <- advance ty f time x_begin u dt;
    gdo _ <- gsubject CEq (as_operand x_end) (as_operand next);
    gbin BAdd time dt) time;
  gret tt.

(** 322-356. *)
Definition constrain_collocation (ty : dyntype) (f : dyn) (N : nat) (X U DT : vmat) : G unit :=
  gassert (match ty with EXPLICIT_ODE => true | DISCRETE => false end) (
  gdo time <- gvar (HConst (S := R_ops) 0%R);
  gdo _ <- gfor N 0 (fun i time =>
    gdo h <- vget DT 0 i;
    gdo t_end <- gbin BAdd time h;
    gdo x_begin <- vcol X i; gdo x_end <- vcol X (i + 1);
    gdo u_begin <- vcol U i; gdo u_end <- vcol U (i + 1);
    gdo xdot_begin <- f time x_begin u_begin h;
    gdo xdot_end <- f t_end x_end u_end h;
    (* xdot_c, 341-342 *)
    gdo h2 <- gnum_bin BMul 2%R h; gdo q <- gnum_bin BDiv (-3)%R h2;
    gdo dx <- vop BSub x_begin x_end; gdo a <- vscale dx q;
    gdo fs <- vop BAdd xdot_begin xdot_end; gdo b <- vscale_num fs (1 / 4)%R;
    gdo xdot_c <- vop BSub a b;
    (* t_c, x_c, u_c, 344-347 *)
    gdo hh <- gnum_bin BMul (1 / 2)%R h; gdo t_c <- gbin BAdd time hh;
    gdo sx <- vop BAdd x_begin x_end; gdo mx <- vscale_num sx (1 / 2)%R;
    gdo h8 <- gbin_num BDiv h 8%R;
    gdo fd <- vop BSub xdot_begin xdot_end; gdo c <- vscale fd h8; gdo x_c <- vop BAdd mx c;
    gdo su <- vop BAdd u_begin u_end; gdo u_c <- vscale_num su (1 / 2)%R;
    gdo r <- f t_c x_c u_c h;
    gdo _ <- gsubject CEq (as_operand xdot_c) (as_operand r);
    gbin BAdd time h) time;
  gret tt).

(** 382-402. *)
Definition constrain_shooting (ty : dyntype) (f : dyn) (N : nat) (X U DT : vmat) : G unit :=
  gdo time <- gvar (HConst (S := R_ops) 0%R);
  gdo _ <- gfor N 0 (fun i time =>
    gdo x_begin <- vcol X i; gdo x_end <- vcol X (i + 1); gdo u <- vcol U i; gdo dt <- vget DT 0 i;
    gdo next <- advance ty f time x_begin u dt;
    gdo _ <- vassign x_end next;
    gbin BAdd time dt) time;
  gret tt.

(** The timesteps, 123-142; [dt] is dt.count(). *)
Definition make_dt (tm : timestep) (dt : R) (N : nat) : G vmat :=
  match tm with
  | FIXED =>
      gdo m <- gmatrix 1 (N + 1);
      gdo _ <- gmap (fun k => gdo_ (HAssignScalar (S := R_ops) k dt)) (v_at m); gret m
  | VARIABLE_SINGLE =>
      gdo d <- gdecision 1 1; gdo k <- vget d 0 0;
      gdo _ <- gdo_ (HSet (S := R_ops) k dt);
      gdo m <- gmatrix 1 (N + 1);
      gdo _ <- gmap (fun i => gdo_ (HAssign i k)) (v_at m); gret m
  | VARIABLE =>
      gdo m <- gdecision 1 (N + 1);
      gdo _ <- gmap (fun k => gdo_ (HSet (S := R_ops) k dt)) (v_at m); gret m
  end.

(** The constructor, 107-157. *)
Definition ocp_make (ns ni : nat) (dt : R) (N : nat) (f : dyn) (ty : dyntype) (tm : timestep) (tr : transcription) : G ocp :=
  gdo U <- gdecision ni (N + 1);
  gdo DT <- make_dt tm dt N;
  match tr with
  | DIRECT_TRANSCRIPTION =>
      gdo X <- gdecision ns (N + 1); gdo _ <- constrain_transcription ty f N X U DT; gret (mkOcp N X U DT)
  | DIRECT_COLLOCATION =>
      gdo X <- gdecision ns (N + 1); gdo _ <- constrain_collocation ty f N X U DT; gret (mkOcp N X U DT)
  | SINGLE_SHOOTING =>
      gdo X <- gmatrix ns (N + 1); gdo _ <- constrain_shooting ty f N X U DT; gret (mkOcp N X U DT)
  end.

(** 162-175 with 283-288. *)
Definition constrain_initial_state (o : ocp) (v : operand R_ops) : G unit :=
  gdo x <- vcol (o_X o) 0; gsubject CEq (as_operand x) v.
Definition constrain_final_state (o : ocp) (v : operand R_ops) : G unit :=
  gdo x <- vcol (o_X o) (o_steps o); gsubject CEq (as_operand x) v.

(** 183-190: the callback may do anything to the program. *)
Definition for_each_step (o : ocp) (callback : vmat -> vmat -> G unit) : G unit :=
  gfor (o_steps o + 1) 0 (fun i _ => gdo x <- vcol (o_X o) i; gdo u <- vcol (o_U o) i; callback x u) tt.
(** 199-214. *)
Definition for_each_step_t (o : ocp) (callback : nat -> vmat -> vmat -> nat -> G unit) : G unit :=
  gdo time <- gvar (HConst (S := R_ops) 0%R);
  gdo _ <- gfor (o_steps o + 1) 0 (fun i time =>
    gdo x <- vcol (o_X o) i; gdo u <- vcol (o_U o) i; gdo dt <- vget (o_DT o) 0 i;
    gdo _ <- callback time x u dt;
    gbin BAdd time dt) time;
  gret tt.

(** 220-238. *)
Definition set_lower_input_bound (o : ocp) (v : operand R_ops) : G unit :=
  gfor (o_steps o + 1) 0 (fun i _ => gdo u <- vcol (o_U o) i; gsubject CGe (as_operand u) v) tt.
Definition set_upper_input_bound (o : ocp) (v : operand R_ops) : G unit :=
  gfor (o_steps o + 1) 0 (fun i _ => gdo u <- vcol (o_U o) i; gsubject CLe (as_operand u) v) tt.

(** 243-252. *)
Definition set_min_timestep (o : ocp) (h : R) : G unit := gsubject CGe (as_operand (o_DT o)) (ONum (S := R_ops) h).
Definition set_max_timestep (o : ocp) (h : R) : G unit := gsubject CLe (as_operand (o_DT o)) (ONum (S := R_ops) h).
