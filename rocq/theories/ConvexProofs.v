(** Proofs for C88. *)
From Coq Require Import ZArith Reals List Bool Arith Lia Lra.
From Coquelicot Require Import Coquelicot.
From Verif Require Import Base ExprModel MathSpec VarModel VarSpec HistProofs SmoothSpec SmoothGraph SmoothUser LinR KktSpec ProblemModel ProblemSpec ProbSolveSpec LagrSpec ProbSolveBounds ProbSolveKkt ProbEarly ConvexSpec.
Import ListNotations.
Local Open Scope R_scope.

Definition shift (rho : nat -> R) (D : list nat) (e : R) (v : nat -> R) : nat -> R := fun k => if in_dec Nat.eq_dec k D then rho k + e * v k else rho k.
Fixpoint lsum (D : list nat) (ds : list R) (v : nat -> R) : R := match D, ds with k :: D, d :: ds => d * v k + lsum D ds v | _, _ => 0 end.

Section Sub.
Context (base : nat -> R) (All : list nat) (F : ufun).
Let can (rho : nat -> R) := forall k, ~ In k All -> rho k = base k.
Hypothesis Tot : forall rho, can rho -> exists v, F rho v.
Hypothesis Det : forall rho v w, F rho v -> F rho w -> v = w.
Hypothesis Ext : forall rho rho' v, (forall k, rho k = rho' k) -> F rho v -> F rho' v.
Hypothesis Cvx : forall a b th va vb v, can a -> can b -> 0 <= th <= 1 -> F a va -> F b vb -> F (between th a b) v -> v <= (1 - th) * va + th * vb.
Context (rho : nat -> R) (v0 : R) (Hc : can rho) (H0 : F rho v0).

Lemma shift_can D e v : incl D All -> can (shift rho D e v).
Proof. intros I k H. unfold shift. destruct (in_dec Nat.eq_dec k D) as [K|K]; [exfalso; apply H, I, K|apply Hc, H]. Qed.

Lemma one_step k d : pd k F rho d -> forall c eta, 0 < eta -> exists del, 0 < del /\ forall e w, 0 < e < del -> F (upd rho k (rho k + e * c)) w -> w <= v0 + e * (d * c + eta).
Proof.
  intros (f & Lf & Df) c eta He. apply is_derive_Reals in Df.
  assert (Pc : 0 < Rabs c + 1) by (pose proof (Rabs_pos c); lra).
  destruct (Df (eta / (Rabs c + 1)) ltac:(apply Rdiv_lt_0_compat; lra)) as (d1 & K1). destruct Lf as (d2 & K2).
  pose proof (cond_pos d1) as P1. pose proof (cond_pos d2) as P2.
  exists (Rmin d1 d2 / (Rabs c + 1)). assert (Pm : 0 < Rmin d1 d2) by (apply Rmin_pos; assumption). split; [apply Rdiv_lt_0_compat; assumption|].
  intros e w [E1 E2] Hw.
  assert (Hs : Rabs (e * c) < Rmin d1 d2).
  { rewrite Rabs_mult, (Rabs_pos_eq e) by lra. apply Rle_lt_trans with (e * (Rabs c + 1)); [pose proof (Rabs_pos c); nra|]. apply Rmult_lt_compat_r with (r := Rabs c + 1) in E2; [|exact Pc]. unfold Rdiv in E2. rewrite Rmult_assoc, Rinv_l, Rmult_1_r in E2 by lra. exact E2. }
  pose proof (Rmin_l d1 d2). pose proof (Rmin_r d1 d2).
  assert (Fw : f (rho k + e * c) = w).
  { apply (Det (upd rho k (rho k + e * c))); [|exact Hw]. apply K2. unfold ball; cbn. unfold AbsRing_ball, minus, plus, opp, abs; cbn. replace (rho k + e * c + - rho k) with (e * c) by lra. lra. }
  assert (F0 : f (rho k) = v0).
  { apply (Det rho); [|exact H0]. eapply Ext; [|apply K2; apply ball_center]. intros j. unfold upd. destruct (Nat.eqb_spec j k) as [->|]; reflexivity. }
  destruct (Req_dec c 0) as [->|Nc].
  - replace (rho k + e * 0) with (rho k) in Fw by lra. nra.
  - assert (Nh : e * c <> 0) by (apply Rmult_integral_contrapositive_currified; lra).
    specialize (K1 (e * c) Nh ltac:(lra)). rewrite Fw, F0 in K1.
    assert (Q : Rabs (w - v0 - d * (e * c)) <= eta / (Rabs c + 1) * Rabs (e * c)).
    { replace (w - v0 - d * (e * c)) with (((w - v0) / (e * c) - d) * (e * c)) by (field; lra). rewrite Rabs_mult. apply Rmult_le_compat_r; [apply Rabs_pos|lra]. }
    assert (Q2 : eta / (Rabs c + 1) * Rabs (e * c) <= e * eta).
    { rewrite Rabs_mult, (Rabs_pos_eq e) by lra. unfold Rdiv. replace (eta * / (Rabs c + 1) * (e * Rabs c)) with (e * eta * (Rabs c * / (Rabs c + 1))) by ring.
      assert (Rabs c * / (Rabs c + 1) <= 1). { apply Rmult_le_reg_r with (Rabs c + 1); [exact Pc|]. rewrite Rmult_assoc, Rinv_l by lra. lra. }
      assert (0 <= e * eta) by nra. nra. }
    apply Rabs_le_between in Q. nra.
Qed.
Lemma slope D : incl D All -> NoDup D -> forall ds, Forall2 (fun k d => pd k F rho d) D ds -> forall v eta, 0 < eta ->
  exists del, 0 < del /\ forall e w, 0 < e < del -> F (shift rho D e v) w -> w <= v0 + e * (lsum D ds v + eta).
Proof.
  induction D as [|k D IH]; intros I N ds H v eta He; inversion H as [|? d ? ds' Hk Hd]; subst.
  - exists 1. split; [lra|]. intros e w E Hw. cbn. assert (w = v0) as -> by (apply (Det rho); [|exact H0]; eapply Ext; [|exact Hw]; intros j; unfold shift; destruct (in_dec _ _ _) as [[]|]; reflexivity). nra.
  - inversion N as [|? ? Nk ND]; subst. destruct (IH (fun j Q => I j (or_intror Q)) ND ds' Hd v (eta / 2) ltac:(lra)) as (d1 & P1 & K1).
    destruct (one_step k d Hk (v k) (eta / 2) ltac:(lra)) as (d2 & P2 & K2). exists (Rmin d1 d2 / 2). assert (0 < Rmin d1 d2) by (apply Rmin_pos; assumption). split; [lra|].
    intros e w [E1 E2] Hw. pose proof (Rmin_l d1 d2). pose proof (Rmin_r d1 d2).
    assert (C1 : can (shift rho D (2 * e) v)) by (apply shift_can; intros j Q; apply I; right; exact Q).
    assert (C2 : can (upd rho k (rho k + 2 * e * v k))). { intros j Hj. unfold upd. destruct (Nat.eqb_spec j k) as [->|]; [exfalso; apply Hj, I; left; reflexivity|apply Hc, Hj]. }
    destruct (Tot _ C1) as (w1 & W1). destruct (Tot _ C2) as (w2 & W2).
    pose proof (K1 (2 * e) w1 ltac:(lra) W1) as L1. pose proof (K2 (2 * e) w2 ltac:(lra) W2) as L2.
    assert (Hm : F (between (/ 2) (shift rho D (2 * e) v) (upd rho k (rho k + 2 * e * v k))) w).
    { eapply Ext; [|exact Hw]. intros j. unfold between, shift, upd. destruct (Nat.eqb_spec j k) as [->|Ne].
      - destruct (in_dec Nat.eq_dec k (k :: D)) as [|Q]; [|exfalso; apply Q; left; reflexivity]. destruct (in_dec Nat.eq_dec k D) as [Q|]; [contradiction|]. lra.
      - destruct (in_dec Nat.eq_dec j (k :: D)) as [[Q|Q]|Q]; [congruence| |]; (destruct (in_dec Nat.eq_dec j D) as [Q'|Q']; [|]); try lra; [contradiction|exfalso; apply Q; right; exact Q']. }
    pose proof (Cvx _ _ (/ 2) _ _ _ C1 C2 ltac:(lra) W1 W2 Hm) as L3. cbn [lsum]. nra.
Qed.

Lemma lsum_opp D : forall ds v, lsum D ds (fun k => - v k) = - lsum D ds v.
Proof. induction D as [|k D IH]; intros [|d ds] v; cbn; try lra. rewrite IH. lra. Qed.
Lemma subgradient ds : NoDup All -> Forall2 (fun k d => pd k F rho d) All ds -> forall rho' v', can rho' -> F rho' v' -> v0 + lsum All ds (fun k => rho' k - rho k) <= v'.
Proof.
  intros N H rho' v' C' H'. apply le_epsilon. intros eta He. set (v := fun k => rho' k - rho k) in *.
  destruct (slope All (incl_refl _) N ds H (fun k => - v k) eta He) as (del & Pd & K). set (e := Rmin del 1 / 2). pose proof (Rmin_l del 1). pose proof (Rmin_r del 1). assert (0 < Rmin del 1) by (apply Rmin_pos; lra).
  assert (Pe : 0 < e) by (unfold e; lra). assert (C1 : can (shift rho All e (fun k => - v k))) by (apply shift_can, incl_refl). destruct (Tot _ C1) as (w & W).
  pose proof (K e w ltac:(unfold e; lra) W) as L. rewrite lsum_opp in L.
  assert (Hm : F (between (e / (1 + e)) (shift rho All e (fun k => - v k)) rho') v0).
  { eapply Ext; [|exact H0]. intros j. unfold between, shift, v. destruct (in_dec Nat.eq_dec j All) as [Q|Q]; [field; lra|]. rewrite (C' j Q), (Hc j Q). field. lra. }
  assert (T : 0 <= e / (1 + e) <= 1). { split; [apply Rlt_le, Rdiv_lt_0_compat; lra|]. apply Rmult_le_reg_r with (1 + e); [lra|]. unfold Rdiv. rewrite Rmult_assoc, Rinv_l by lra. lra. }
  pose proof (Cvx _ _ _ _ _ _ C1 C' T W H' Hm) as L3. apply Rmult_le_compat_r with (r := 1 + e) in L3; [|lra].
  replace (((1 - e / (1 + e)) * w + e / (1 + e) * v') * (1 + e)) with (w + e * v') in L3 by (field; lra).
  assert (e * (v0 + lsum All ds v) <= e * (v' + eta)) by nra. apply Rmult_le_reg_l with e; [exact Pe|assumption].
Qed.
End Sub.
