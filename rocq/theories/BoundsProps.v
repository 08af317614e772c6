(** Properties C37-C39: bounds detected among the inequality constraints, projection onto them. *)
From Coq Require Import ZArith Reals List Bool Lra.
From Verif Require Import Base ExprModel ExprXR VarModel VarReach JacModel JacReach BoundsModel BoundsSpec BoundsProofs BoundsWitness.
Import ListNotations.
Local Open Scope R_scope.

(** C37: the bounds of variable i admit exactly the values at which every bound constraint on i holds (so they are
    the tightest implied); the mask marks exactly the bound constraints; every reported pair cannot hold together,
    some pair is reported iff two bound constraints on one variable cannot hold together, iff some interval is
    empty.  Any initial values, NaN included; any number of constraints and variables. *)
Theorem C37_bounds_exact :
  forall x cs, List.Forall (proper (length x)) cs ->
  exists s, get_bounds x cs = Ok s /\ length (b_bounds s) = length x /\
    (forall k c, nth_error cs k = Some c -> exists m, nth_error (b_mask s) k = Some m /\ (m = true <-> exists i, bound_on c i)) /\
    (forall i bd v, nth_error (b_bounds s) i = Some bd ->
       (inside bd v <-> forall c y, In c cs -> bound_on c i -> length y = length x -> nth_error y i = Some v -> satisfied c y)) /\
    (forall l u, In (l, u) (b_conflicts s) -> exists k k' c c' i, l = Z.of_nat k /\ u = Z.of_nat k' /\
       nth_error cs k = Some c /\ nth_error cs k' = Some c' /\ bound_on c i /\ bound_on c' i /\
       forall y, length y = length x -> ~ (satisfied c y /\ satisfied c' y)) /\
    (b_conflicts s <> [] <-> exists c c' i, In c cs /\ In c' cs /\ bound_on c i /\ bound_on c' i /\
       forall y, length y = length x -> ~ (satisfied c y /\ satisfied c' y)) /\
    (b_conflicts s = [] <-> forall i bd, nth_error (b_bounds s) i = Some bd -> exists v, inside bd v).
Proof. exact c37. Qed.
Print Assumptions C37_bounds_exact.
(** GLOBALLY_INFEASIBLE (problem.hpp 600-606) is reported only when no point satisfies the constraints. *)
Theorem C37_infeasible :
  forall x cs s, List.Forall (proper (length x)) cs -> get_bounds x cs = Ok s -> b_conflicts s <> [] ->
  forall y, length y = length x -> ~ (forall c, In c cs -> satisfied c y).
Proof. exact c37_inf. Qed.
Print Assumptions C37_infeasible.
Example C37_example : List.Forall (proper 2) ex_cs /\ List.Forall (proper 2) ex_bad /\
  exists s, get_bounds [NaN; Fin 3] ex_bad = Ok s /\ b_conflicts s <> [].
Proof. exact (conj ex_proper (conj ex_bad_proper ex_conflict)). Qed.

(** C38: constraints whose stored coefficient is not zero and finite pass; missing for the full statement: the rest,
    for which it is false. *)
Theorem C38_bound_detection_partial :
  forall x cs, List.Forall (proper (length x)) cs -> exists s, get_bounds x cs = Ok s.
Proof. intros x cs H. destruct (c37 x cs H) as (s & E & _). exact (ex_intro _ s E). Qed.
Print Assumptions C38_bound_detection_partial.
(** False in general: x - x >= 0 is LINEAR and its row stores a zero ... *)
Theorem C38_cancelling_refuted : exists e js s m n nd,
  jruns (S := X_ops) jempty [JH HNew; JH (HBin BSub 0 0); JMake [1%nat] [0%nat]; JValue 0] (e, js, s) [OMat m] /\
  holds e 1 n /\ nth_error (st_nodes s) n = Some nd /\ n_type nd = LINEAR /\
  forall v x0, get_bounds [x0] [mkC true (stored_row m 0 1) v] = AssertFail.
Proof. exact c38_cancel. Qed.
Print Assumptions C38_cancelling_refuted.
(** ... and w >= 0, for a Variable w that is no decision variable, is LINEAR with an empty row. *)
Theorem C38_foreign_variable_refuted : exists e js s m n nd,
  jruns (S := X_ops) jempty [JH HNew; JH HNew; JMake [1%nat] [0%nat]; JValue 0] (e, js, s) [OMat m] /\
  holds e 1 n /\ nth_error (st_nodes s) n = Some nd /\ n_type nd = LINEAR /\
  forall v x0, get_bounds [x0] [mkC true (stored_row m 0 1) v] = AssertFail.
Proof. exact c38_foreign. Qed.
Print Assumptions C38_foreign_variable_refuted.

(** C39: real guesses are moved inside the bounds, strictly when there is room; coordinates far enough inside stay. *)
Theorem C39_projection :
  forall k1 k2 bs xs, 0 < k1 -> 0 < k2 -> k2 < 1 / 2 -> List.Forall interval bs -> length xs = length bs ->
  exists ys, project_onto_bounds (Fin k1) (Fin k2) bs (map Fin xs) = Ok (map Fin ys) /\ length ys = length xs /\
    forall i b v w, nth_error bs i = Some b -> nth_error xs i = Some v -> nth_error ys i = Some w ->
      inside b w /\ (roomy b -> strictly_above (fst b) w /\ strictly_below w (snd b)) /\ (clear k1 b v -> w = v).
Proof. exact c39. Qed.
Print Assumptions C39_projection.
Example C39_example : List.Forall interval [(Fin 0, Fin 1); (MInf, Fin 3); (Fin 2, PInf); (MInf, PInf); (Fin 1, Fin 1)].
Proof. repeat constructor; cbn; try exact I; lra. Qed.
