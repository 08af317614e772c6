(** Properties C21-C30: expression types, gradients, Jacobians and Hessians. *)
From Coq Require Import ZArith Reals List Bool.
From Coquelicot Require Import Coquelicot.
From Verif Require Import Base ExprModel GraphSpec ExprReal MathSpec VarModel VarReach DiffSpec DegreeSpec JacModel JacReach
  GradProofs JacSame JacReal OpMath JacPropsAux.
Import ListNotations.
Local Open Scope nat_scope.

(** C21: in every history, an expression whose type() promises degree d is, wherever its operations are defined,
    a polynomial of degree at most d in the decision variables. *)
Theorem C21_type_degree :
  forall (q : jstate R_ops) e js s i n nd d, jreach q -> q = (e, js, s) -> holds e i n ->
    nth_error (st_nodes s) n = Some nd -> promised (n_type nd) = Some d ->
    exists p, degree_le (st_nodes s) d p /\
      forall (lv : nat -> R) v, agrees (S := R_ops) s lv -> GEv (st_nodes s) lv n v -> v = peval lv p.
Proof. exact c21. Qed.
Print Assumptions C21_type_degree.
Example C21_example : exists e s n nd, jreach (S := R_ops) (e, [], s) /\ holds e 2 n /\
  nth_error (st_nodes s) n = Some nd /\ promised (n_type nd) = Some 2.
Proof. exact c21_ex. Qed.

(** C22: entries of a Jacobian (a Gradient is the one-row case) are the partial derivatives at the current point,
    after any further statements; entries of absent variables are zero. *)
Theorem C22_jacobian_partials :
  forall (e : henv) js (s : st R_ops) rows wrt q1 out e2 js2 s2,
    jreach (S := R_ops) (e, js, s) -> jscope (e, js, s) (JMake rows wrt) ->
    jstep (JMake rows wrt) (e, js, s) = Ok (q1, out) -> jcareful q1 (e2, js2, s2) -> distinct e s wrt ->
    exists m q3, jstep (JValue (length js)) (e2, js2, s2) = Ok (q3, [OMat m]) /\
      (forall i c x, In (i, c, x) m -> i < length rows /\ c < length wrt) /\
      forall i c ri ci n w, nth_error rows i = Some ri -> holds e ri n -> nth_error wrt c = Some ci -> decides e s ci w ->
        (smooth (st_nodes s2) (st_val s2) n ->
           partial (st_nodes s2) (st_val s2) n w (entry (S := R_ops) m i c) /\
           gpartial (st_nodes s2) (st_val s2) n w (entry (S := R_ops) m i c)) /\
        (~ reach (st_nodes s2) n w -> entry (S := R_ops) m i c = 0%R).
Proof. exact c22. Qed.
Print Assumptions C22_jacobian_partials.
Example C22_example : exists e s q1, jreach (S := R_ops) (e, [], s) /\ jscope (e, [], s) (JMake [3] [0; 1]) /\
  jstep (JMake [3] [0; 1]) (e, [], s) = Ok (q1, []) /\ jcareful q1 q1 /\ distinct e s [0; 1] /\
  holds e 3 3 /\ decides e s 0 0 /\ decides e s 1 1 /\ forall lv, smooth (st_nodes s) lv 3.
Proof. exact c22_ex. Qed.

(** C23: each operator propagates the derivative of its mathematical meaning, scaled by the incoming adjoint. *)
Theorem C23_unary_rule :
  forall u x, regular_un u x -> ~ kink_un u x ->
    derivative_at (math_un u) x (un_grad (S := R_ops) u (1%R : R_ops) x) /\
    forall a : R, un_grad (S := R_ops) u a x = (a * un_grad (S := R_ops) u (1%R : R_ops) x)%R.
Proof. exact c23_un. Qed.
Print Assumptions C23_unary_rule.
Theorem C23_binary_rule :
  forall b x y, regular_bin b x y -> ~ kink_bin b x y ->
    derivative_at (fun t => math_bin b t y) x (bin_grad_l (S := R_ops) b (1%R : R_ops) x y) /\
    derivative_at (fun t => math_bin b x t) y (bin_grad_r (S := R_ops) b (1%R : R_ops) x y) /\
    forall a : R, bin_grad_l (S := R_ops) b a x y = (a * bin_grad_l (S := R_ops) b (1%R : R_ops) x y)%R /\
              bin_grad_r (S := R_ops) b a x y = (a * bin_grad_r (S := R_ops) b (1%R : R_ops) x y)%R.
Proof. exact c23_bin. Qed.
Print Assumptions C23_binary_rule.
Theorem C23_integer_power_rule :
  forall z (x : R), x <> 0%R \/ (1 <= z)%Z ->
    derivative_at (fun t => math_bin BPow t (IZR z)) x (bin_grad_l (S := R_ops) BPow (1%R : R_ops) x (IZR z : R_ops)).
Proof. exact c23_pow. Qed.
Print Assumptions C23_integer_power_rule.
Example C23_example : regular_un USqrt 4 /\ ~ kink_un USqrt 4 /\
  un_grad (S := R_ops) USqrt (1%R : R_ops) (4%R : R_ops) = (/ 4)%R /\ regular_bin BAtan2 1 (-1) /\ ~ kink_bin BAtan2 1 (-1).
Proof. exact c23_ex. Qed.

(** C24: the derivatives used for abs and max are subgradients, the one for min a supergradient, at every point.
    (That get() uses the same numbers there is C25, whose hypothesis [regular] includes the kinks.) *)
Theorem C24_abs : forall x t : R,
  (Rabs t >= Rabs x + un_grad (S := R_ops) UAbs (1%R : R_ops) x * (t - x))%R.
Proof. exact c24_abs. Qed.
Print Assumptions C24_abs.
Theorem C24_max : forall x y u v : R,
  (Rmax u v >= Rmax x y + (bin_grad_l (S := R_ops) BMax (1%R : R_ops) x y * (u - x)
                           + bin_grad_r (S := R_ops) BMax (1%R : R_ops) x y * (v - y)))%R.
Proof. exact c24_max. Qed.
Print Assumptions C24_max.
Theorem C24_min : forall x y u v : R,
  (Rmin u v <= Rmin x y + (bin_grad_l (S := R_ops) BMin (1%R : R_ops) x y * (u - x)
                           + bin_grad_r (S := R_ops) BMin (1%R : R_ops) x y * (v - y)))%R.
Proof. exact c24_min. Qed.
Print Assumptions C24_min.
Example C24_example : kink_un UAbs 0 /\ regular_un UAbs 0 /\ kink_bin BMax 3 3 /\ regular_bin BMax 3 3.
Proof. repeat split. Qed.

(** C25: get() returns expressions evaluating to the entries of value(), at every later assignment, kinks included. *)
Theorem C25_get_is_value :
  forall (e : henv) js (s : st R_ops) k j b q1 out e2 js2 s2,
    jreach (S := R_ops) (e, js, s) -> nth_error js k = Some (j, b) -> NoDup (j_wrt j) ->
    jstep (JGet k) (e, js, s) = Ok (q1, out) -> jcareful q1 (e2, js2, s2) ->
    exists m q3, jstep (JValue k) (e2, js2, s2) = Ok (q3, [OMat m]) /\
    forall i c p w, nth_error (j_vars j) i = Some p -> nth_error (j_wrt j) c = Some w -> (b = true -> c <= i) ->
      (forall n, p = Some n -> regular (st_nodes s2) (st_val s2) n) ->
      exists g, holds (fst (fst q1)) (length e + (i * length (j_wrt j) + c)) g /\
        Ev (S := R_ops) (st_nodes s2) (st_val s2) g (entry (S := R_ops) m i c).
Proof. exact c25. Qed.
Print Assumptions C25_get_is_value.
Example C25_example : exists e s j q1 out, jreach (S := R_ops) (e, [(j, false)], s) /\ NoDup (j_wrt j) /\ j_wrt j = [0; 1] /\
  j_vars j = [Some 3] /\ jstep (JGet 0) (e, [(j, false)], s) = Ok (q1, out) /\ jcareful q1 q1 /\
  forall lv, regular (st_nodes s) lv 3.
Proof. exact c25_ex. Qed.

(** C26: building, evaluating or differentiating symbolically a Jacobian or Hessian changes no existing expression,
    leaves no temporary data behind and changes no other Jacobian's value. *)
Theorem C26_derivatives_leave_graph :
  forall (S : sops) o (e : henv) js (s : st S) e' js' s' out,
    jreach (e, js, s) -> jscope (e, js, s) o -> derives o -> jstep o (e, js, s) = Ok ((e', js', s'), out) ->
    (forall n nd, nth_error (st_nodes s) n = Some nd -> nth_error (st_nodes s') n = Some nd) /\
    leaves_kept s s' /\
    (exists more, e' = e ++ more) /\
    (forall n x, n < length (st_nodes s) -> (Ev (st_nodes s) (st_val s) n x <-> Ev (st_nodes s') (st_val s') n x)) /\
    (forall n, st_adje s' n = None /\ st_scr s' n = (-1)%Z) /\
    (forall k, k < length js -> exists q1 q2 m, jstep (JValue k) (e, js, s) = Ok (q1, [OMat m]) /\
       jstep (JValue k) (e', js', s') = Ok (q2, [OMat m])).
Proof. intros S. exact c26. Qed.
Print Assumptions C26_derivatives_leave_graph.
Example C26_example : derives (S := R_ops) (JMake [3] [0; 1]) /\ exists e s q1, jreach (S := R_ops) (e, [], s) /\
  jscope (e, [], s) (JMake [3] [0; 1]) /\ jstep (JMake [3] [0; 1]) (e, [], s) = Ok (q1, []).
Proof. split; [exact I|]. destruct c22_ex as (e & s & q1 & H1 & H2 & H3 & _). exists e, s, q1. auto. Qed.

(** C27: after any statements that do not reassign constants, value() of an old Jacobian equals value() of a
    Jacobian of the same expressions built afresh. *)
Theorem C27_value_fresh :
  forall (S : sops) (e : henv) js (s : st S) rows wrt q1 out e2 js2 s2 rows2 wrt2,
    jreach (e, js, s) -> jscope (e, js, s) (JMake rows wrt) ->
    jstep (JMake rows wrt) (e, js, s) = Ok (q1, out) -> jcareful q1 (e2, js2, s2) ->
    Forall2 (fun i i2 => exists n, holds e i n /\ holds e2 i2 n) rows rows2 ->
    Forall2 (fun i i2 => exists n, holds e i n /\ holds e2 i2 n) wrt wrt2 ->
    exists q3 q4 q5 m, jstep (JValue (length js)) (e2, js2, s2) = Ok (q3, [OMat m]) /\
      jstep (JMake rows2 wrt2) (e2, js2, s2) = Ok (q4, []) /\ jstep (JValue (length js2)) q4 = Ok (q5, [OMat m]).
Proof. intros S. exact c27. Qed.
Print Assumptions C27_value_fresh.
Example C27_example : exists e s q1, jreach (S := R_ops) (e, [], s) /\ jscope (e, [], s) (JMake [3] [0; 1]) /\
  jstep (JMake [3] [0; 1]) (e, [], s) = Ok (q1, []) /\ jcareful q1 q1 /\ holds e 3 3.
Proof. destruct c22_ex as (e & s & q1 & H1 & H2 & H3 & H4 & _ & H5 & _). exists e, s, q1. auto. Qed.

(** C28 is false: x, c = 2, J = Jacobian(x * c, x), then c.set_value(3): J.value() still shows 2, a new Jacobian 3. *)
Theorem C28_constant_update_refuted :
  exists q m m', jruns (S := R_ops) jempty
    [JH HNew; JH (HConst (2%R : R_ops)); JH (HBin BMul 0 1); JMake [2] [0]; JH (HSet 1 (3%R : R_ops)); JValue 0;
     JMake [2] [0]; JValue 1] q [OMat m; OMat m'] /\
    entry (S := R_ops) m 0 0 = 2%R /\ entry (S := R_ops) m' 0 0 = 3%R.
Proof. exact c28_ref. Qed.
Print Assumptions C28_constant_update_refuted.

(** C29: entries of the Hessian are second partial derivatives, after any further statements, in the requested triangle. *)
Theorem C29_hessian_partial :
  forall (e : henv) js (s : st R_ops) f wrt lower q1 out e2 js2 s2,
    jreach (S := R_ops) (e, js, s) -> jscope (e, js, s) (JHess f wrt lower) ->
    jstep (JHess f wrt lower) (e, js, s) = Ok (q1, out) -> jcareful q1 (e2, js2, s2) -> distinct e s wrt ->
    exists m q3 j, jstep (JValue (length js)) (e2, js2, s2) = Ok (q3, [OMat m]) /\ nth_error js2 (length js) = Some (j, lower) /\
      (forall i c x, In (i, c, x) m -> i < length wrt /\ c < length wrt /\ (lower = true -> c <= i)) /\
      forall i c wi wc n vi vc, nth_error wrt i = Some wi -> nth_error wrt c = Some wc -> holds e f n ->
        decides e s wi vi -> decides e s wc vc -> (lower = true -> c <= i) ->
        locally (st_val s2 vc) (fun t => smooth (st_nodes s2) (upd (st_val s2) vc t) n) ->
        (forall g, nth_error (j_vars j) i = Some (Some g) -> smooth (st_nodes s2) (st_val s2) g) ->
        partial2 (st_nodes s2) (st_val s2) n vi vc (entry (S := R_ops) m i c).
Proof. exact c29. Qed.
Print Assumptions C29_hessian_partial.
Example C29_example : exists e s q1 j s1, jreach (S := R_ops) (e, [], s) /\ jscope (e, [], s) (JHess 3 [0; 1] true) /\
  jstep (JHess 3 [0; 1] true) (e, [], s) = Ok (q1, []) /\ q1 = (e, [(j, true)], s1) /\ jcareful q1 q1 /\ distinct e s [0; 1] /\
  (forall lv n, smooth (st_nodes s1) lv n).
Proof. exact c29_ex. Qed.

(** C30 is false: for Jacobian(x, (x, x)), get() shows (1, 0) and value() shows (0, 1). *)
Theorem C30_repeated_wrt_refuted :
  exists q v0 v1 m, jruns (S := R_ops) jempty
    [JH HNew; JMake [0] [0; 0]; JGet 0; JH (HValue 1); JH (HValue 2); JValue 0] q [OVal v0; OVal v1; OMat m] /\
    v0 = 1%R /\ v1 = 0%R /\ entry (S := R_ops) m 0 0 = 0%R /\ entry (S := R_ops) m 0 1 = 1%R.
Proof. exact c30_ref. Qed.
Print Assumptions C30_repeated_wrt_refuted.
