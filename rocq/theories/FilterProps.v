(** Properties C44, C45: the line search filter. *)
From Coq Require Import ZArith Reals List Bool Lra.
From Verif Require Import ExprModel ExprReal ExprXR NumModel FilterModel FilterSpec FilterProofs.
Import ListNotations.

(** C44: an accepted point has finite cost, a violation not above the maximum, is not dominated by any entry recorded
    earlier, and passed the Armijo or the sufficient decrease test (scalars with NaN and infinities). *)
Theorem C44_accepted_partial :
  forall (f : filter Xn) (cur trial : fentry Xn) (d a : XR) f', try_add f cur trial d a = (f', true) ->
    s_finite Xn (fe_cost trial) = true /\ s_ltb Xn (f_max f) (fe_viol trial) = false /\
    (forall e, In e (f_entries f) -> ~ no_better trial e) /\
    (sufficient cur trial a = true \/ (switching cur d a = true /\ armijo cur trial d a = true)).
Proof. exact (try_add_accepts (S := Xn)). Qed.
Print Assumptions C44_accepted_partial.

(** A region excluded once is excluded by every later filter up to the next reset. *)
Theorem C44_remembers :
  forall (f : filter Xn) ops cur trial (d a : XR) f' e, In e (f_entries f) -> ~ In FReset ops -> no_better trial e ->
    try_add (frun f ops) cur trial d a <> (f', true).
Proof. exact (c44_remembers (S := Xn) Xn_trans). Qed.
Print Assumptions C44_remembers.

(** Accepting a step that is not an Armijo step records the margin around the point left. *)
Theorem C44_records :
  forall (f : filter Xn) cur trial (d a : XR) f', try_add f cur trial d a = (f', true) ->
    switching cur d a && armijo cur trial d a = false -> In (margin cur a) (f_entries f').
Proof. exact (try_add_records (S := Xn)). Qed.
Print Assumptions C44_records.

(** From a point with positive violation an accepted step strictly decreases cost or violation. *)
Theorem C44_progress_partial :
  forall (f : filter Rn) (cur trial : fentry Rn) (d a : R) f', (0 < a <= 1)%R -> (0 < fe_viol cur)%R ->
    try_add f cur trial d a = (f', true) -> (fe_cost trial < fe_cost cur \/ fe_viol trial < fe_viol cur)%R.
Proof. exact c44_progress. Qed.
Print Assumptions C44_progress_partial.

(** In runs of a line search whose current points have positive violation, entries never dominate each other. *)
Theorem C44_entries_partial :
  forall (cur : fentry Rn) f, lspos cur f -> antichain (f_entries f).
Proof. exact c44_entries. Qed.
Print Assumptions C44_entries_partial.

(** Without positive violation: an increase in cost is accepted and comparable entries get recorded. *)
Theorem C44_feasible_point_refuted :
  exists (f : filter Rn) (cur trial : fentry Rn) (d a : R) f' f'' e1 e2, linesearch cur f /\
    try_add f cur trial d a = (f', true) /\ (fe_cost cur < fe_cost trial)%R /\ fe_viol cur = fe_viol trial /\
    try_add f' trial (mkFE (S := Rn) (-1)%R 0%R) d a = (f'', true) /\ f_entries f'' = [e1; e2] /\ no_better e2 e1.
Proof. exact c44_ref. Qed.
Print Assumptions C44_feasible_point_refuted.
Example C44_example : exists (f' : filter Rn), lspos (mkFE (S := Rn) 1%R 1%R) (filter_new (S := Rn) 1%R) /\
  try_add (filter_new (S := Rn) 1%R) (mkFE (S := Rn) 1%R 1%R) (mkFE (S := Rn) 0%R (1/2)%R) (1%R : Rn) (1%R : Rn) = (f', true).
Proof. exact c44_ex. Qed.

(** C45: a point of non-finite cost, or of infinite violation, is never accepted. *)
Theorem C45_rejects_nonfinite_partial :
  forall (f : filter Xn) (cur trial : fentry Xn) (d a : XR) f', try_add f cur trial d a = (f', true) ->
    (exists r, fe_cost trial = Fin r) /\ ((exists m, f_max f = Fin m) -> fe_viol trial <> PInf).
Proof. exact c45. Qed.
Print Assumptions C45_rejects_nonfinite_partial.
(** ... but a point whose violation is NaN is accepted. *)
Theorem C45_nan_violation_refuted :
  exists (f : filter Xn) (cur trial : fentry Xn) (d a : XR) f', f = filter_new (S := Xn) (Fin 0) /\
    fe_viol trial = NaN /\ try_add f cur trial d a = (f', true).
Proof. exact c45_ref. Qed.
Print Assumptions C45_nan_violation_refuted.
