(** For C87: problems whose functions are numbers at numbers, and what is asked of the linear solver and the multiplier estimate. *)
From Coq Require Import Reals List Bool.
From Verif Require Import Base ExprModel ExprXR NumModel KktModel SolverModel NewtonModel SqpModel IpmModel PosX XArith.
Import ListNotations.

(** Numbers in, numbers out. *)
Definition vfin (v : list XR) : Prop := List.Forall fin v.
Definition mfin (A : list (list XR)) : Prop := List.Forall vfin A.
Definition fin_sqp (P : sprob Xn) : Prop := forall x, length x = sp_n P -> vfin x ->
  fin (sp_f P x) /\ vfin (sp_g P x) /\ vfin (sp_ce P x) /\ mfin (sp_Ae P x) /\
  forall y, length y = sp_me P -> vfin y -> mfin (sp_H P x y).
Definition fin_ipm (P : iprob Xn) : Prop := forall x, length x = ip_n P -> vfin x ->
  fin (ip_f P x) /\ vfin (ip_g P x) /\ vfin (ip_ce P x) /\ mfin (ip_Ae P x) /\ vfin (ip_ci P x) /\ mfin (ip_Ai P x) /\
  forall y z, length y = ip_me P -> length z = ip_mi P -> vfin y -> vfin z -> mfin (ip_H P x y z).

(** Once a system of numbers has been factored successfully, solving it for a right-hand side of numbers gives numbers. *)
Definition lin_fin (E : env Xn) : Prop := forall ls (K : kkt Xn) ls', mfin (k_tl K) -> mfin (k_bl K) -> ls_compute (e_lin E) ls K = (ls', true) ->
  forall b, vfin b -> vfin (ls_solve (e_lin E) ls' b).
Definition est_fin (E : env Xn) : Prop := forall (A : list (list XR)) (r : list XR), mfin A -> vfin r -> vfin (e_est E A r).

(** The same whether or not the factorization succeeded: Newton's method does not look. *)
Definition lin_fin_any (E : env Xn) : Prop := forall ls (K : kkt Xn), mfin (k_tl K) -> mfin (k_bl K) ->
  forall b, vfin b -> vfin (ls_solve (e_lin E) (fst (ls_compute (e_lin E) ls K)) b).
Definition fin_newton (P : nprob Xn) : Prop := forall x, length x = np_n P -> vfin x -> vfin (np_g P x) /\ mfin (np_H P x).

(** A point of numbers with positive slacks and positive multipliers of the inequalities. *)
Definition good (x s y z : list XR) : Prop := vfin x /\ List.Forall pos s /\ vfin y /\ List.Forall pos z.
(** What a callback is shown is such a point. *)
Definition shownf (i : info Xn) : Prop := good (i_x i) (i_s i) (i_y i) (i_z i).
