(** The histories C33-C35 range over: programs that build a problem, call solve(), read and set values, add to the
    problem, call solve() again, ...; a solve() may also be left by an exception of one of its callbacks (CbModel.v). *)
From Coq Require Import Reals List Bool Arith.
From Verif Require Import Base ExprModel MathSpec VarModel VarSpec ExprReal ExprXR Faith FaithX NumModel SolverModel ExitModel NewtonModel SqpModel IpmModel RestoreModel ProblemModel ProblemSpec ProbSolveModel CbModel ProbSolveSpec.
Import ListNotations.
Local Open Scope R_scope.

(** [p] is the program after a history that means [sp] to its user.  Numbers in statements are finite; after a solve()
    the decision variables hold [y] (a history ends when one of them is not finite). *)
Inductive lived : spec -> prog X_ops -> Prop :=
| lived_start : lived spec_empty (prog_empty X_ops)
| lived_step o sp sp' qs p p' out : lived sp p -> spec_step o sp = Some (sp', qs) -> pstep (pinj o) p = Ok (p', out) -> lived sp' p'
| lived_solve (U : Type) E o fuel (cbs pcbs : list (callback Xn U)) u clk sp p st p' y e s :
    lived sp p -> solve E o fuel cbs pcbs p u clk = Ok (st, p') ->
    pmap pvalue (p_dec p') (p_env p') (p_st p') = Ok (map Fin y, e, s) -> lived (at_point sp y) p'
| lived_threw (U : Type) E o l fuel (cbs pcbs : list (tcallback Xn U)) u clk sp p v p' y e s :
    lived sp p -> solve_t E o l fuel cbs pcbs p u clk = Ok (Raised v p') ->
    pmap pvalue (p_dec p') (p_env p') (p_st p') = Ok (map Fin y, e, s) -> lived (at_point sp y) p'.

(** What a statement shows is right: value() where the expression is defined, bool(constraint) where all sides are. *)
Definition xanswers (q : pquery) (o : pout X_ops) : Prop :=
  match q, o with
  | QVal (x, rho), PVal v => no_pow00 rho x -> forall w, XEv rho x w -> v = Fin w
  | QRel l rho, PTest b => List.Forall (rel_defined rho) l -> (b = true <-> List.Forall (rel_holds rho) l)
  | _, _ => False
  end.

(** Within [t] of holding. *)
Definition nearly (t : R) (rho : nat -> R) (r : urel) : Prop :=
  exists a b, XEv rho (r_l r) a /\ XEv rho (r_r r) b /\
    match r_cmp r with CEq => Rabs (a - b) <= t | CLt | CLe => a <= b + t | CGt | CGe => a >= b - t end.

(** What the part of solve() that ran returned: its status and its final point. *)
Definition final {U} (E : env Xn) (o : options Xn) fuel (all : list (callback Xn U)) (u : U) clk (rn : ran) (x0 : list XR) (st : status) (x : list XR) : Prop :=
  match rn with
  | RanNone => st = SUCCESS /\ x = x0
  | RanBounds => st = GLOBALLY_INFEASIBLE /\ x = x0
  | RanNewton P => exists fin, newton E P all o fuel x0 u clk = Ok (st, fin) /\ x = n_x E fin
  | RanSqp P => exists fin, sqp_solve E o fuel P all x0 u clk = Ok (st, fin) /\ x = s_x E fin
  | RanIpm P => exists fin, ipm_solve E o fuel P all x0 u clk = Ok (st, fin) /\ x = is_x E fin
  end.
