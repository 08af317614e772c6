(** Smoothness of what the user wrote, and how derivatives of the graph become partial derivatives of the user's functions. *)
From Coq Require Import ZArith Reals List Bool Arith Lia Lra FunctionalExtensionality.
From Coquelicot Require Import Coquelicot.
From Verif Require Import Base ExprModel GraphSpec GraphProofs ExprInv VarModel VarReach VarProofs AdjProofs JacModel JacProofs SymProofs ExprReal MathSpec MathProofs
  DiffSpec OpDeriv OpMath GradProofs VarSpec HistProofs Faith SmoothSpec SmoothGraph SmoothGrad SmoothTree SmoothOpen SmoothJac SmoothHess.
Import ListNotations.
Open Scope R_scope.

Lemma XSm_XEv rho x v : XSm rho x v -> XEv rho x v.
Proof. induction 1; econstructor; eauto. Qed.

Lemma un_val u x v : regular_un u x -> math_un u x v -> v = un_value (S := R_ops) u x.
Proof. intros _ M. symmetry. apply un_value_math, M. Qed.
Lemma bin_val (c : Prop) b x y v : good_bin c b x y -> math_bin b x y v -> v = bin_value (S := R_ops) b x y.
Proof. intros _ M. symmetry. apply bin_value_math, M. Qed.

Lemma XSm_open rho k x v : XSm rho x v -> exists f, f (rho k) = v /\ ex_derive f (rho k) /\ (forall c, x = XConst c -> forall t, f t = c) /\
  locally (rho k) (fun t => XSm (upd rho k t) x (f t)).
Proof.
  induction 1 as [j|c|u e x v _ (f & Fv & Df & _ & Lf) M R N|b e e' x y v _ (f & Fv & Df & _ & Lf) _ (g & Gv & Dg & Cg & Lg) M R N].
  - exists (fun t => upd rho k t j). split; [unfold upd; destruct (Nat.eqb j k) eqn:E; [apply Nat.eqb_eq in E; subst|]; reflexivity|]. split; [|split; [discriminate|]].
    + unfold upd. destruct (Nat.eqb j k); [apply ex_derive_id|apply (ex_derive_const (V := R_NormedModule))].
    + apply (filter_forall (F := locally (rho k))). intros t. constructor.
  - exists (fun _ => c). split; [reflexivity|]. split; [apply (ex_derive_const (V := R_NormedModule))|]. split; [congruence|].
    apply (filter_forall (F := locally (rho k))). intros t. constructor.
  - exists (fun t => un_value (S := R_ops) u (f t)). rewrite Fv. split; [symmetry; apply un_val; assumption|]. split; [|split; [discriminate|]].
    + destruct Df as [df Df]. eexists. apply un_chain; [rewrite Fv; exact R|rewrite Fv; exact N|exact Df].
    + assert (C : continuous f (rho k)) by (destruct Df as [df Df]; eapply ex_cont, Df).
      assert (Go : locally (rho k) (fun s => good_un u (f s))) by (apply un_open; [exact C|rewrite Fv; split; assumption]).
      eapply loc_mono; [|exact (filter_and (F := locally (rho k)) _ _ Lf Go)]. intros t [A [B D]]. econstructor; [exact A|apply reg_math_un, B|exact B|exact D].
  - set (c := exists c0, e' = XConst c0) in *.
    assert (G0 : good_bin c b x y) by (split; assumption).
    assert (Gc : c -> forall s, g s = g (rho k)) by (intros (c0 & E) s; rewrite !(Cg _ E); reflexivity).
    exists (fun t => bin_value (S := R_ops) b (f t) (g t)). rewrite Fv, Gv. split; [symmetry; eapply bin_val; eauto|]. split; [|split; [discriminate|]].
    + destruct Df as [df Df], Dg as [dg Dg]. destruct R as [R|(-> & Hc & R)].
      * eexists. apply bin_chain; [rewrite Fv, Gv; exact R|rewrite Fv, Gv; exact N|exact Df|exact Dg].
      * apply (ex_derive_ext (fun t => bin_value (S := R_ops) BPow (f t) (g (rho k)))); [intros t; rewrite (Gc Hc t); reflexivity|].
        eexists. apply pow_chain; [rewrite Fv, Gv; exact R|exact Df].
    + assert (Cf : continuous f (rho k)) by (destruct Df as [df Df]; eapply ex_cont, Df).
      assert (Cg' : continuous g (rho k)) by (destruct Dg as [dg Dg]; eapply ex_cont, Dg).
      assert (Go : locally (rho k) (fun s => good_bin c b (f s) (g s))) by (apply bin_open; [exact Cf|exact Cg'|exact Gc|rewrite Fv, Gv; exact G0]).
      eapply loc_mono; [|exact (filter_and (F := locally (rho k)) _ _ (filter_and (F := locally (rho k)) _ _ Lf Lg) Go)]. intros t [[A A'] B].
      econstructor; [exact A|exact A'|eapply good_math, B|apply B|apply B].
Qed.

Lemma XSm_locally rho k x v : XSm rho x v -> locally (rho k) (fun t => exists w, XSm (upd rho k t) x w).
Proof. intros H. destruct (XSm_open rho k x v H) as (f & _ & _ & _ & L). eapply loc_mono; [|exact L]. intros t Ht. exists (f t). exact Ht. Qed.

Lemma XSm_pow00 rho x v : XSm rho x v -> no_pow00 rho x.
Proof.
  induction 1 as [| |u e x v _ IH _ _ _|b e f x y v He IHe Hf IHf M R N]; cbn; auto.
  assert (G0 : good_bin (exists c, f = XConst c) b x y) by (split; assumption).
  split; [exact IHe|]. split; [exact IHf|]. intros -> vx vy Ex Ey.
  rewrite (XEv_det _ _ _ _ Ex (XSm_XEv _ _ _ He)), (XEv_det _ _ _ _ Ey (XSm_XEv _ _ _ Hf)). eapply good_00; [exact G0|reflexivity].
Qed.
Lemma XSm_ext rho rho' x v : (forall k, rho k = rho' k) -> XSm rho x v -> XSm rho' x v.
Proof. intros E. induction 1; try (econstructor; eauto; fail). rewrite E. constructor. Qed.

(** Derivatives of relations. *)
Lemma deriv_mono (P Q : R -> R -> Prop) x d : (forall t v, P t v -> Q t v) -> derivative_at P x d -> derivative_at Q x d.
Proof. intros H (f & L & D). exists f. split; [|exact D]. eapply loc_mono; [|exact L]. intros t. apply H. Qed.
Lemma deriv_lin (P Q : R -> R -> Prop) a x d e : derivative_at P x d -> derivative_at Q x e ->
  derivative_at (fun t v => exists p q, P t p /\ Q t q /\ v = a * p + q) x (a * d + e).
Proof.
  intros (f & Lf & Df) (g & Lg & Dg). exists (fun t => a * f t + g t). split.
  - eapply loc_mono; [|exact (filter_and (F := locally x) _ _ Lf Lg)]. intros t [A B]. exists (f t), (g t). auto.
  - apply (is_derive_plus (V := R_NormedModule) (fun t => a * f t) g); [|exact Dg]. apply (is_derive_scal f x a d Df).
Qed.

(** [a F + G] *)
Definition lin (a : R) (F G : ufun) : ufun := fun rho v => exists p q, F rho p /\ G rho q /\ v = a * p + q.
Lemma pd_lin k a (F G : ufun) rho d e : pd k F rho d -> pd k G rho e -> pd k (lin a F G) rho (a * d + e).
Proof. intros A B. exact (deriv_lin _ _ a _ d e A B). Qed.
Lemma pd_mono k (F G : ufun) rho d : (forall rho v, F rho v -> G rho v) -> pd k F rho d -> pd k G rho d.
Proof. intros H. apply deriv_mono. intros t v. apply H. Qed.
Lemma pd2_lin k j a (F G : ufun) rho d e : pd k (pd j F) rho d -> pd k (pd j G) rho e -> pd k (pd j (lin a F G)) rho (a * d + e).
Proof.
  intros A B. eapply pd_mono; [|exact (pd_lin k a _ _ rho d e A B)]. intros rho' v (p & q & Hp & Hq & ->). apply pd_lin; assumption.
Qed.

(** A function with at most one value at each point has at most one derivative. *)
Lemma pd_fun k (F : ufun) rho d e : (forall rho v w, F rho v -> F rho w -> v = w) -> pd k F rho d -> pd k F rho e -> d = e.
Proof.
  intros U (f & Lf & Df) (g & Lg & Dg). rewrite <- (is_derive_unique _ _ _ Df), <- (is_derive_unique _ _ _ Dg). apply Derive_ext_loc.
  eapply loc_mono; [|exact (filter_and (F := locally (rho k)) _ _ Lf Lg)]. intros t [A B]. exact (U _ _ _ A B).
Qed.

Section Comp.
Context {K : sops} {FK : faith K} {FK2 : faith2 K}.
Notation J := (inj (K := K)).
Context (ns : list node) (fits : (nat -> R) -> (nat -> K) -> Prop) (nd : nat -> nat) (D : nat -> Prop) (F : ufun) (n : nat) (Sm : (nat -> R) -> Prop).
Hypothesis W : wfn ns.
Hypothesis fits_upd : forall k rho lv t, D k -> fits rho lv -> fits (upd rho k t) (upd lv (nd k) (J t)).
Hypothesis fits_at : forall k rho lv, D k -> fits rho lv -> lv (nd k) = J (rho k).
Hypothesis Sm_open : forall k rho, D k -> Sm rho -> locally (rho k) (fun t => Sm (upd rho k t)).
Hypothesis comp : forall rho lv, fits rho lv -> Sm rho -> exists v, F rho v /\ GSm ns lv n v.

Lemma path_value lv w t v : GSm ns (upd lv w (J t)) n v -> path ns lv w n t = v.
Proof.
  intros G. rewrite (GSm_rval _ _ _ _ W G). unfold path, along, rval. apply f_equal2; [|reflexivity]. apply functional_extensionality. intros m.
  unfold prv, upd. destruct (Nat.eqb m w); [symmetry; apply f_pr|reflexivity].
Qed.

Lemma pd_path k rho lv d : D k -> fits rho lv -> Sm rho -> is_derive (path ns lv (nd k) n) (rho k) d -> pd k F rho d.
Proof.
  intros Hk Hf Hs Dd. exists (path ns lv (nd k) n). split; [|exact Dd]. eapply loc_mono; [|exact (Sm_open k rho Hk Hs)]. intros t Ht.
  destruct (comp _ _ (fits_upd k rho lv t Hk Hf) Ht) as (v & Fv & Gv). rewrite (path_value _ _ _ _ Gv). exact Fv.
Qed.

Lemma pd_path2 k j rho lv h d : D k -> D j -> fits rho lv -> Sm rho -> is_derive h (rho k) d ->
  locally (rho k) (fun t => is_derive (path ns (upd lv (nd k) (J t)) (nd j) n) (pr (upd lv (nd k) (J t) (nd j))) (h t)) ->
  pd k (pd j F) rho d.
Proof.
  intros Hk Hj Hf Hs Dh L. exists h. split; [|exact Dh]. eapply loc_mono; [|exact (filter_and (F := locally (rho k)) _ _ L (Sm_open k rho Hk Hs))].
  intros t [A B]. pose proof (fits_upd k rho lv t Hk Hf) as Hf'. rewrite (fits_at j _ _ Hj Hf'), f_pr in A.
  eapply pd_path; eauto.
Qed.
End Comp.
