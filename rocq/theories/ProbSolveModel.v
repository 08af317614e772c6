(** Model of Problem::solve(), include/sleipnir/optimization/problem.hpp 235-679: what it hands to the solvers, which
    solver it picks, and what it writes back.

    Not modelled: printing, profiling and the spy files (a callback that returns false, appended after the others,
    376-386, 452-469, 580-601).  The temporary Variables, gradients, Jacobians and Hessians that solve() creates are
    gone when it returns; of the memory only the new values of the decision variables remain in the model.  The values
    cached inside the user's expressions are left as they were before the call; they are recomputed by every value(). *)
From Coq Require Import ZArith List Bool Arith.
From Verif Require Import Base ExprModel VarModel JacModel ExprXR NumModel UtilModel BoundsModel ExitModel SolverModel NewtonModel SqpModel IpmModel
  RestoreModel ProblemModel.
Import ListNotations.

Section Setup.
Context {S : nops}.
Notation "0" := (s_ofZ S 0).

(** Code that builds Variables, Jacobians and Hessians. *)
Definition J (A : Type) := jstate S -> outcome (A * jstate S).
Definition jret {A} (a : A) : J A := fun q => Ok (a, q).
Definition jbind {A B} (m : J A) (f : A -> J B) : J B := fun q => let* (a, q) := m q in f a q.
Local Notation "'jdo' x <- m ; k" := (jbind m (fun x => k)) (at level 61, m at next level, right associativity).

(** A statement that creates a Variable, or a Jacobian or Hessian; the result is the number of the new object. *)
Definition jvar (o : hop S) : J nat := fun q => let* (q', _) := jstep (JH o) q in Ok (length (fst (fst q)), q').
Definition jmat (o : jop S) : J nat := fun q => let* (q', _) := jstep o q in Ok (length (snd (fst q)), q').

Fixpoint jmap {A B} (f : A -> J B) (l : list A) : J (list B) :=
  match l with
  | [] => jret []
  | x :: rest => jdo y <- f x; jdo ys <- jmap f rest; jret (y :: ys)
  end.

(** VariableMatrix{variables}: copies. *)
Definition jcopies (l : list nat) : J (list nat) := jmap (fun i => jvar (HCopy i)) l.
(** VariableMatrix y_ad(n): new decision variables. *)
Definition jnews (n : nat) : J (list nat) := jmap (fun _ => jvar HNew) (repeat tt n).

(** The inner loop of operator*, variable_matrix.hpp 510-514, for a row times a column. *)
Fixpoint jdot (sum : nat) (a b : list nat) : J nat :=
  match a, b with
  | x :: a, y :: b => jdo t <- jvar (HBin BMul x y); jdo sum <- jvar (HBin BAdd sum t); jdot sum a b
  | _, _ => jret sum
  end.
(** variable_matrix.hpp 511-515: one entry of a product. *)
Definition jprod (a b : list nat) : J nat := jdo sum <- jvar (HConst 0); jdot sum a b.
(** Unary minus, 932-944. *)
Definition jneg (l : list nat) : J (list nat) := jmap (fun i => jvar (HUn UNeg i)) l.

(** What the callbacks close over: x_ad, f, c_e_ad, c_i_ad, y_ad, z_ad and the autodiff objects. *)
Record setup := mkSetup {
  t_x : list nat; t_f : nat; t_ce : list nat; t_ci : list nat; t_y : list nat; t_z : list nat;
  t_g : nat; t_Hf : nat; t_Hc : nat; t_Ae : nat; t_Ai : nat }.

(** Variable f = m_f.value_or(Scalar(0)), 318. *)
Definition cost (p : prog S) : J nat := match p_f p with Some i => jvar (HCopy i) | None => jvar (HConst 0) end.

(** 315-318, 349-357; the fields without a counterpart are not used. *)
Definition newton_setup (p : prog S) : J setup :=
  jdo x <- jcopies (p_dec p);
  jdo f <- cost p;
  jdo g <- jmat (JMake [f] x);
  jdo H <- jmat (JHess f x true);
  jret (mkSetup x f [] [] [] [] g H H H H).

(** 315-318, 409-444. *)
Definition sqp_setup (p : prog S) : J setup :=
  jdo x <- jcopies (p_dec p);
  jdo f <- cost p;
  jdo ce <- jcopies (p_eq p);
  jdo y <- jnews (length (p_eq p));
  jdo g <- jmat (JMake [f] x);
  jdo Hf <- jmat (JHess f x true);
  jdo ny <- jneg y;
  jdo L <- jprod ny ce;
  jdo Hc <- jmat (JHess L x true);
  jdo Ae <- jmat (JMake ce x);
  jret (mkSetup x f ce [] y [] g Hf Hc Ae Ae).

(** 315-318, 517-562. *)
Definition ipm_setup (p : prog S) : J setup :=
  jdo x <- jcopies (p_dec p);
  jdo f <- cost p;
  jdo ce <- jcopies (p_eq p);
  jdo ci <- jcopies (p_ineq p);
  jdo y <- jnews (length (p_eq p));
  jdo z <- jnews (length (p_ineq p));
  jdo g <- jmat (JMake [f] x);
  jdo Hf <- jmat (JHess f x true);
  jdo ny <- jneg y;
  jdo Le <- jprod ny ce;
  jdo Li <- jprod z ci;
  jdo L <- jvar (HBin BSub Le Li);
  jdo Hc <- jmat (JHess L x true);
  jdo Ae <- jmat (JMake ce x);
  jdo Ai <- jmat (JMake ci x);
  jret (mkSetup x f ce ci y z g Hf Hc Ae Ai).

(** VariableMatrix::set_value, variable_matrix.hpp 293-303, for a column vector. *)
Fixpoint jsets (l : list nat) (v : list S) (q : jstate S) : outcome (jstate S) :=
  match l, v with
  | [], [] => Ok q
  | i :: l, x :: v => let* (q, _) := jstep (JH (HSet i x)) q in jsets l v q
  | _, _ => AssertFail
  end.

(** Variable::value(), variable.hpp 143-151. *)
Definition jget_value (i : nat) (q : jstate S) : outcome (S * jstate S) :=
  let* (q, out) := jstep (JH (HValue i)) q in match out with [OVal x] => Ok (x, q) | _ => UB end.
(** VariableMatrix::value(), variable_matrix.hpp 993-1004. *)
Fixpoint jget_values (l : list nat) (q : jstate S) : outcome (list S * jstate S) :=
  match l with
  | [] => Ok ([], q)
  | i :: l => let* (x, q) := jget_value i q in let* (xs, q) := jget_values l q in Ok (x :: xs, q)
  end.
(** Jacobian::value() or Hessian::value(). *)
Definition jget_mat (k : nat) (q : jstate S) : outcome (list (@triplet S)) :=
  let* (q, out) := jstep (JValue k) q in match out with [OMat m] => Ok m | _ => UB end.

(** Is entry (i, j) stored in a matrix set from triplets? *)
Definition stored (m : list (@triplet S)) (i j : nat) : bool := existsb (fun '(a, b, _) => Nat.eqb a i && Nat.eqb b j) m.
(** Entry of c * M: entries that are not stored stay zero. *)
Definition scaled (c : S) (m : list (@triplet S)) (i j : nat) : S := if stored m i j then s_mul S c (entry m i j) else 0.
Definition dense (rows cols : nat) (f : nat -> nat -> S) : mat (S := S) := map (fun i => map (f i) (seq 0 cols)) (seq 0 rows).

(** Stored entries in storage order (column by column). *)
Definition to_sparse (rows cols : nat) (m : list (@triplet S)) : sparse S :=
  flat_map (fun j => flat_map (fun i => if stored m i j then [(i, j, entry m i j)] else []) (seq 0 rows)) (seq 0 cols).

(** The matrix callbacks: [q] is the state after the setup.  Each sets x (and the multipliers) and evaluates; every
    callback starts from [q], since what the previous one left behind does not matter (C16, C23). *)
Variables (n : nat) (t : setup) (q : jstate S).

Definition at_x (x : list S) : outcome (jstate S) := jsets (t_x t) x q.
Definition at_xyz (sc : scaling S) (x y z : list S) : outcome (jstate S) :=
  let* q := at_x x in
  let* q := jsets (t_y t) (vmap2 (s_mul S) (sc_e sc) y) q in
  jsets (t_z t) (vmap2 (s_mul S) (sc_i sc) z) q.

(** A callback that cannot run gives no number; [cb_fail] is excluded by theorem. *)
Definition cb_fail : S := s_div S 0 0.
Definition total {A} (d : A) (m : outcome A) : A := match m with Ok a => a | _ => d end.

(** 390-393, 475-478, 620-623. *)
Definition cb_f (sc : scaling S) (x : list S) : S :=
  total cb_fail (let* q := at_x x in let* (v, _) := jget_value (t_f t) q in Ok (s_mul S (sc_f sc) v)).
(** 394-397, 479-482, 624-627. *)
Definition cb_g (sc : scaling S) (x : list S) : list S :=
  total [cb_fail] (let* q := at_x x in let* m := jget_mat (t_g t) q in Ok (map (scaled (sc_f sc) m 0%nat) (seq 0%nat n))).
(** 398-401. *)
Definition cb_H_newton (sc : scaling S) (x : list S) : mat (S := S) :=
  total [[cb_fail]] (let* q := at_x x in let* m := jget_mat (t_Hf t) q in Ok (dense n n (scaled (sc_f sc) m))).
(** 483-487, 628-634: the sum of two sparse matrices. *)
Definition cb_H (sc : scaling S) (x y z : list S) : mat (S := S) :=
  total [[cb_fail]] (let* q := at_xyz sc x y z in
    let* a := jget_mat (t_Hf t) q in let* b := jget_mat (t_Hc t) q in
    Ok (dense n n (fun i j => if stored a i j || stored b i j then s_add S (scaled (sc_f sc) a i j) (entry b i j) else 0))).
(** 488-492, 635-641. *)
Definition cb_Hc (sc : scaling S) (x y z : list S) : mat (S := S) :=
  total [[cb_fail]] (let* q := at_xyz sc x y z in let* b := jget_mat (t_Hc t) q in Ok (dense n n (entry b))).
(** 493-496, 642-645 and 650-653. *)
Definition cb_c (c : list nat) (sc : list S) (x : list S) : list S :=
  total [cb_fail] (let* q := at_x x in let* (v, _) := jget_values c q in Ok (vmap2 (s_mul S) sc v)).
(** 497-500, 646-649 and 654-657. *)
Definition cb_A (k m : nat) (sc : list S) (x : list S) : mat (S := S) :=
  total [[cb_fail]] (let* q := at_x x in let* a := jget_mat k q in
    Ok (dense m n (fun i j => scaled (nth i sc 0) a i j))).

(** Unscaled gradient and Jacobians at the initial point, for ProblemScaling (388-389, 471-473, 616-618). *)
Definition g_at (x : list S) : outcome (list S) :=
  let* q := at_x x in let* m := jget_mat (t_g t) q in
  Ok (flat_map (fun j => if stored m 0%nat j then [entry m 0%nat j] else []) (seq 0%nat n)).
Definition A_at (k m : nat) (x : list S) : outcome (sparse S) :=
  let* q := at_x x in let* a := jget_mat k q in Ok (to_sparse m n a).

(** What the solvers get, given the scaling: 390-401, 474-500, 619-657. *)
Definition newton_prob (sc : scaling S) : nprob S := mkNP n (cb_f sc) (cb_g sc) (cb_H_newton sc) sc.
Definition sqp_prob (sc : scaling S) : sprob S :=
  mkSP n (length (t_ce t)) (cb_f sc) (cb_g sc) (fun x y => cb_H sc x y []) (fun x y => cb_Hc sc x y [])
    (cb_c (t_ce t) (sc_e sc)) (cb_A (t_Ae t) (length (t_ce t)) (sc_e sc)) sc.
(** problem.hpp 619-657. *)
Definition ipm_prob (sc : scaling S) : iprob S :=
  mkIP n (length (t_ce t)) (length (t_ci t)) (cb_f sc) (cb_g sc) (cb_H sc) (cb_Hc sc)
    (cb_c (t_ce t) (sc_e sc)) (cb_A (t_Ae t) (length (t_ce t)) (sc_e sc))
    (cb_c (t_ci t) (sc_i sc)) (cb_A (t_Ai t) (length (t_ci t)) (sc_i sc)) sc.

(** 387-402. *)
Definition newton_problem (x : list S) : outcome (nprob S) :=
  let* g := g_at x in Ok (newton_prob (scaling_newton g)).

(** 470-501. *)
Definition sqp_problem (x : list S) : outcome (sprob S) :=
  let me := length (t_ce t) in
  let* g := g_at x in
  let* Ae := A_at (t_Ae t) me x in
  Ok (sqp_prob (scaling_sqp g me Ae)).

(** 613-658. *)
Definition ipm_problem (x : list S) : outcome (iprob S) :=
  let me := length (t_ce t) in
  let mi := length (t_ci t) in
  let* g := g_at x in
  let* Ae := A_at (t_Ae t) me x in
  let* Ai := A_at (t_Ai t) mi x in
  Ok (ipm_prob (scaling_ipm g me Ae mi Ai)).

End Setup.
Arguments J : clear implicits.

Section Solve.
Context {U : Type}.
Variables (E : env Xn) (o : options Xn).

(** Variable::type(), variable.hpp 153-155; 239-271: the largest type of a list, NONE if there is none. *)
Definition slot_type (p : prog X_ops) (i : nat) : outcome etype :=
  let* v := hvar (p_env p) i in let* (t, _) := ptype (v_expr v) (p_st p) in Ok t.
Fixpoint max_type (p : prog X_ops) (l : list nat) : outcome etype :=
  match l with
  | [] => Ok NONE
  | i :: l => let* t := slot_type p i in let* t' := max_type p l in
              Ok (if Nat.ltb (etype_rank t) (etype_rank t') then t' else t)
  end.

(** What get_bounds reads of an inequality constraint (bounds.hpp 98-137); its value with the decision variables at [x]. *)
Definition constr_of (p : prog X_ops) (q : jstate X_ops) (Ai : list (@triplet X_ops)) (r i : nat) : outcome constr :=
  let* t := slot_type p i in
  Ok (mkC (etype_eqb t LINEAR) (stored_row Ai r (length (p_dec p)))
        (fun x => total NaN (let* q := jsets (S := Xn) (p_dec p) x q in let* (v, _) := jget_value (S := Xn) i q in Ok v))).
(** bounds.hpp 98-137: what is read of each inequality constraint. *)
Fixpoint constrs_of (p : prog X_ops) (q : jstate X_ops) (Ai : list (@triplet X_ops)) (r : nat) (l : list nat) : outcome (list constr) :=
  match l with
  | [] => Ok []
  | i :: l => let* c := constr_of p q Ai r i in let* cs := constrs_of p q Ai (Datatypes.S r) l in Ok (c :: cs)
  end.

(** The state of a program after solve(): the decision variables have values [x] (676). *)
Definition write_back (p : prog X_ops) (x : list XR) : outcome (prog X_ops) :=
  let* (q, _) := (let* q := jsets (S := Xn) (p_dec p) x (p_env p, [], p_st p) in Ok (q, tt)) in
  let '(e, _, s) := q in Ok (set_mem p e s).

(** Which solver ran (335, 403, 512; 303-313: none). *)
Inductive ran := RanNone | RanNewton (P : nprob Xn) | RanSqp (P : sprob Xn) | RanIpm (P : iprob Xn) | RanBounds.

(** The problem solve() hands to which solver, and the initial point; 286-318, 335-669 up to the solver calls.
    The second component is the program after the initial values have been read. *)
Definition prepare (p : prog X_ops) : outcome (ran * list XR * prog X_ops) :=
  let* (r, s) := pmap pvalue (p_dec p) (p_env p) (p_st p) in
  let '(x, e) := r in
  let p := set_mem p e s in
  let n := length (p_dec p) in
  let* tf := match p_f p with Some i => slot_type p i | None => Ok NONE end in
  let* te := max_type p (p_eq p) in
  let* ti := max_type p (p_ineq p) in
  let constant t := Nat.leb (etype_rank t) (etype_rank CONSTANT) in
  if constant tf && constant te && constant ti then Ok (RanNone, x, p)
  else match p_eq p, p_ineq p with
  | [], [] =>
      let* (t, q) := newton_setup (S := Xn) p (e, [], s) in
      let* P := newton_problem (S := Xn) n t q x in Ok (RanNewton P, x, p)
  | _, [] =>
      let* (t, q) := sqp_setup (S := Xn) p (e, [], s) in
      let* P := sqp_problem (S := Xn) n t q x in Ok (RanSqp P, x, p)
  | _, _ =>
      let* (t, q) := ipm_setup (S := Xn) p (e, [], s) in
      let* Ai := jget_mat (S := Xn) (t_Ai t) q in                      (* 603-605 *)
      let* cs := constrs_of p q Ai 0 (p_ineq p) in
      let* b := get_bounds x cs in
      match b_conflicts b with
      | _ :: _ => Ok (RanBounds, x, p)                                 (* 606-612 *)
      | [] => let* P := ipm_problem (S := Xn) n t q x in Ok (RanIpm P, x, p)
      end
  end.

(** 281-679; [cbs] are the callbacks of add_callback, [pcbs] the persistent ones (324-332). *)
Definition solve (fuel : nat) (cbs pcbs : list (callback Xn U)) (p : prog X_ops) (u : U) (clk : nat) : outcome (status * prog X_ops) :=
  let* r := prepare p in
  let '(rn, x, p) := r in
  let all := cbs ++ pcbs in
  match rn with
  | RanNone => Ok (SUCCESS, p)
  | RanBounds => Ok (GLOBALLY_INFEASIBLE, p)
  | RanNewton P => let* (st, fin) := newton E P all o fuel x u clk in let* p := write_back p (n_x E fin) in Ok (st, p)
  | RanSqp P => let* (st, fin) := sqp_solve E o fuel P all x u clk in let* p := write_back p (s_x E fin) in Ok (st, p)
  | RanIpm P => let* (st, fin) := ipm_solve E o fuel P all x u clk in let* p := write_back p (is_x E fin) in Ok (st, p)
  end.

End Solve.
