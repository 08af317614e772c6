(** Properties C22 and C29 at the level of what the user wrote. *)
From Coq Require Import ZArith Reals List Bool.
From Verif Require Import Base ExprModel ExprReal ExprXR FaithX MathSpec VarModel VarSpec Faith JacModel JacReach SmoothSpec SmoothGraph JacUserSpec JacUserEx.
Import ListNotations.
Local Open Scope nat_scope.

(** C22, C29: every program of statements on variables, Jacobians (gradients are the one-row case) and Hessians that means
    something runs to its end, and everything it shows is right: values are the values of the expressions written, Jacobians hold
    the first partial derivatives, Hessians the second ones (in either order; the whole matrix is symmetric; the lower triangle is
    zero above the diagonal), at the values the variables have at that moment. *)
Theorem C29_programs :
  forall (l : list (jop R_ops)) u qs, urun l uempty = Some (u, qs) ->
    exists q out, jruns (S := R_ops) jempty l q out /\ Forall2 (right_out (K := R_ops) (fun x => x)) qs out.
Proof. exact c29_programs. Qed.
Print Assumptions C29_programs.

(** The same with infinities and NaN: at smooth points every entry is a finite number. *)
Theorem C29_programs_extended :
  forall (l : list (jop R_ops)) u qs, urun l uempty = Some (u, qs) ->
    exists q out, jruns (S := X_ops) jempty (map jinj l) q out /\ Forall2 (right_out (K := X_ops) Fin) qs out.
Proof. exact c29_programs_X. Qed.
Print Assumptions C29_programs_extended.

(** sin(x y) and x y at (2, 3): a full and a lower Hessian, a Jacobian and a value, all at a smooth point. *)
Example C29_programs_example : exists u qs,
  urun [JH HNew; JH HNew; JH (HBin BMul 0 1); JH (HUn USin 2); JHess 3 [0; 1] false; JHess 3 [1; 0] true;
        JH (HSet (S := R_ops) 0 2%R); JH (HSet (S := R_ops) 1 3%R); JValue 0; JValue 1; JMake [3; 2] [1]; JValue 2; JH (HValue 3)] uempty = Some (u, qs) /\
  (exists rho, qs = [QObj (UHess (XUn USin (XBin BMul (XVar 0) (XVar 1))) [0; 1] false) rho;
                     QObj (UHess (XUn USin (XBin BMul (XVar 0) (XVar 1))) [1; 0] true) rho;
                     QObj (UJac [XUn USin (XBin BMul (XVar 0) (XVar 1)); XBin BMul (XVar 0) (XVar 1)] [1]) rho;
                     QExp (XUn USin (XBin BMul (XVar 0) (XVar 1))) rho] /\
     rho 0 = 2%R /\ rho 1 = 3%R /\
     XSm rho (XUn USin (XBin BMul (XVar 0) (XVar 1))) (sin (2 * 3)) /\
     pd 1 (pd 0 (fn (XUn USin (XBin BMul (XVar 0) (XVar 1))))) rho (cos (2 * 3) - 2 * 3 * sin (2 * 3))%R).
Proof. exact c29_programs_ex. Qed.
