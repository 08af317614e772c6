(** Derivatives of what the user wrote along paths: the chain rule to second order. *)
From Coq Require Import ZArith Reals List Bool Arith Lia Lra FunctionalExtensionality.
From Coquelicot Require Import Coquelicot.
From Verif Require Import Base ExprModel ExprReal MathSpec MathProofs DiffSpec OpDeriv OpDeriv2 OpMath VarSpec Faith SmoothSpec SmoothGraph SmoothOpen SmoothUser SmoothSym.
Import ListNotations.
Open Scope R_scope.

Fixpoint dnum (rho u : nat -> R) (x : uexp) : R :=
  match x with
  | XVar k => u k
  | XConst _ => 0
  | XUn o e => un_grad (S := R_ops) o 1 (num rho e) * dnum rho u e
  | XBin b e f => bin_grad_l (S := R_ops) b 1 (num rho e) (num rho f) * dnum rho u e + bin_grad_r (S := R_ops) b 1 (num rho e) (num rho f) * dnum rho u f
  end.
(** A path through [rho] with velocity [w] at [t0]. *)
Definition through (g : R -> nat -> R) (t0 : R) (rho w : nat -> R) : Prop := (forall k, g t0 k = rho k) /\ forall k, is_derive (fun t => g t k) t0 (w k).

Lemma num_at g t0 rho w x : through g t0 rho w -> num (g t0) x = num rho x.
Proof. intros [E _]. f_equal. extensionality k. apply E. Qed.
Lemma const_derive (c x : R) : is_derive (fun _ : R => c) x 0.
Proof. apply (is_derive_const (K := R_AbsRing) (V := R_NormedModule)). Qed.
Lemma num_derive rho x v : XSm rho x v -> forall g t0 w, through g t0 rho w -> is_derive (fun t => num (g t) x) t0 (dnum rho w x).
Proof.
  induction 1 as [j|c|u e x v He IH M R N|bo e e' x y v He IHe He' IHf M R N]; intros g t0 w T; cbn [num dnum].
  - apply T.
  - apply const_derive.
  - pose proof (num_at g t0 rho w e T) as A. pose proof (XSm_num _ _ _ He) as Ex. rewrite <- A. apply (un_chain u (fun t => num (g t) e)); [rewrite A, <- Ex; exact R|rewrite A, <- Ex; exact N|apply IH, T].
  - pose proof (num_at g t0 rho w e T) as A. pose proof (XSm_num _ _ _ He) as Ex. pose proof (num_at g t0 rho w e' T) as B. pose proof (XSm_num _ _ _ He') as Ey. destruct R as [R|(-> & (c & ->) & R)].
    + rewrite <- A, <- B. apply (bin_chain bo (fun t => num (g t) e) (fun t => num (g t) e')); [rewrite A, <- Ex, B, <- Ey; exact R|rewrite A, <- Ex, B, <- Ey; exact N|apply IHe, T|apply IHf, T].
    + cbn [num dnum] in *. subst y. rewrite Rmult_0_r, Rplus_0_r, <- A. apply (pow_chain (fun t => num (g t) e)); [rewrite A, <- Ex; exact R|apply IHe, T].
Qed.
Lemma dnum_lin rho x a u w : dnum rho (fun k => a * u k + w k) x = a * dnum rho u x + dnum rho w x.
Proof. induction x as [k|c|o e IH|b e IHe f IHf]; cbn [dnum]; [reflexivity|ring|rewrite IH; ring|rewrite IHe, IHf; ring]. Qed.

(** The second-order form. *)
Record bilinear (M : (nat -> R) -> (nat -> R) -> R) : Prop := mkBi {
  bi_l : forall a u u' w, M (fun k => a * u k + u' k) w = a * M u w + M u' w;
  bi_r : forall a u w w', M u (fun k => a * w k + w' k) = a * M u w + M u w';
  bi_s : forall u w, M u w = M w u }.
Lemma dnum_derive rho x v : XSm rho x v -> exists M, bilinear M /\ forall g t0 u w, through g t0 rho w -> is_derive (fun t => dnum (g t) u x) t0 (M u w).
Proof.
  induction 1 as [j|c|o e x v He (M & Bi & IH) Mt R N|bo e e' x y v He (M & Bi & IHe) He' (M' & Bi' & IHf) Mt R N].
  - exists (fun _ _ => 0). split; [split; intros; ring|]. intros; cbn [dnum]; apply const_derive.
  - exists (fun _ _ => 0). split; [split; intros; ring|]. intros; cbn [dnum]; apply const_derive.
  - pose proof (XSm_num _ _ _ He) as Ex. destruct (un_second o x R N) as [q Q].
    exists (fun u w => q * dnum rho w e * dnum rho u e + un_grad (S := R_ops) o 1 x * M u w). split.
    + destruct Bi as [B1 B2 Bs]. split; [intros; rewrite ?dnum_lin, ?B1; ring|intros; rewrite ?dnum_lin, ?B2; ring|intros u w; rewrite (Bs u w); ring].
    + intros g t0 u w T. pose proof (num_at g t0 rho w e T) as A. cbn [dnum].
      assert (Eg : g t0 = rho) by (extensionality k; apply T).
      eapply eq_derive; [apply (mul_derive (fun t => un_grad (S := R_ops) o 1 (num (g t) e)) (fun t => dnum (g t) u e)); [|apply IH, T]|].
      * refine (is_derive_comp (fun z => un_grad (S := R_ops) o 1 z) (fun t => num (g t) e) t0 q (dnum rho w e) _ (num_derive rho e x He g t0 w T)). cbv beta. rewrite A, <- Ex. exact Q.
      * rewrite Eg, <- Ex. unfold scal; cbn. unfold mult; cbn. ring.
  - pose proof (XSm_num _ _ _ He) as Ex. pose proof (XSm_num _ _ _ He') as Ey. destruct R as [R|(-> & (c & ->) & R)].
    + destruct (bin_second bo x y R N) as (lx & c & ry & Q).
      exists (fun u w => (lx * dnum rho w e + c * dnum rho w e') * dnum rho u e + bin_grad_l (S := R_ops) bo 1 x y * M u w + ((c * dnum rho w e + ry * dnum rho w e') * dnum rho u e' + bin_grad_r (S := R_ops) bo 1 x y * M' u w)).
      split; [destruct Bi as [B1 B2 Bs], Bi' as [B3 B4 Bt]; split; [intros; rewrite ?dnum_lin, ?B1, ?B3; ring|intros; rewrite ?dnum_lin, ?B2, ?B4; ring|intros u w; rewrite (Bs u w), (Bt u w); ring]|].
      intros g t0 u w T. pose proof (num_at g t0 rho w e T) as A. pose proof (num_at g t0 rho w e' T) as B. cbn [dnum]. assert (Eg : g t0 = rho) by (extensionality k; apply T).
      destruct (Q (fun t => num (g t) e) (fun t => num (g t) e') t0 (dnum rho w e) (dnum rho w e') (eq_trans A (eq_sym Ex)) (eq_trans B (eq_sym Ey)) (num_derive rho e x He g t0 w T) (num_derive rho e' y He' g t0 w T)) as [Ql Qr].
      eapply eq_derive; [apply (add_derive (fun t => bin_grad_l (S := R_ops) bo 1 (num (g t) e) (num (g t) e') * dnum (g t) u e) (fun t => bin_grad_r (S := R_ops) bo 1 (num (g t) e) (num (g t) e') * dnum (g t) u e'))|].
      * apply (mul_derive (fun t => bin_grad_l (S := R_ops) bo 1 (num (g t) e) (num (g t) e')) (fun t => dnum (g t) u e)); [exact Ql|apply IHe, T].
      * apply (mul_derive (fun t => bin_grad_r (S := R_ops) bo 1 (num (g t) e) (num (g t) e')) (fun t => dnum (g t) u e')); [exact Qr|apply IHf, T].
      * rewrite Eg, <- Ex, <- Ey. ring.
    + cbn [num] in Ey. subst y. destruct (pow_second x c R) as (lx & Q).
      exists (fun u w => lx * dnum rho w e * dnum rho u e + bin_grad_l (S := R_ops) BPow 1 x c * M u w). split; [destruct Bi as [B1 B2 Bs]; split; [intros; rewrite ?dnum_lin, ?B1; ring|intros; rewrite ?dnum_lin, ?B2; ring|intros u w; rewrite (Bs u w); ring]|].
      intros g t0 u w T. pose proof (num_at g t0 rho w e T) as A. assert (Eg : g t0 = rho) by (extensionality k; apply T). cbn [dnum num].
      apply (is_derive_ext (fun t => bin_grad_l (S := R_ops) BPow 1 (num (g t) e) c * dnum (g t) u e)); [intros t; rewrite Rmult_0_r, Rplus_0_r; reflexivity|].
      pose proof (Q (fun t => num (g t) e) t0 (dnum rho w e) (eq_trans A (eq_sym Ex)) (num_derive rho e x He g t0 w T)) as Ql.
      eapply eq_derive; [apply (mul_derive (fun t => bin_grad_l (S := R_ops) BPow 1 (num (g t) e) c) (fun t => dnum (g t) u e)); [exact Ql|apply IHe, T]|]. rewrite Eg, <- Ex. ring.
Qed.

(** In terms of partial derivatives. *)
Definition unit (k : nat) : nat -> R := fun j => if Nat.eqb j k then 1 else 0.
Lemma upd_through (rho : nat -> R) k : through (fun t => upd rho k t) (rho k) rho (unit k).
Proof.
  split; intros j; unfold upd, unit; destruct (Nat.eqb_spec j k) as [->|]; try reflexivity; [apply (is_derive_id (K := R_AbsRing))|apply const_derive].
Qed.
Lemma upd_self (rho : nat -> R) k : upd rho k (rho k) = rho.
Proof. extensionality j. unfold upd. destruct (Nat.eqb_spec j k) as [->|]; reflexivity. Qed.
Lemma pd_num rho k x v : XSm rho x v -> pd k (fun r v => XEv r x v) rho (dnum rho (unit k) x).
Proof.
  intros Sx. exists (fun t => num (upd rho k t) x). split.
  - eapply loc_mono; [|exact (XSm_locally rho k x v Sx)]. intros t (w & W). cbn in W. rewrite <- (XSm_num _ _ _ W). apply XSm_XEv, W.
  - exact (num_derive rho x v Sx _ _ _ (upd_through rho k)).
Qed.
Lemma pd_num2 rho a b x v M : XSm rho x v -> (forall g t0 u w, through g t0 rho w -> is_derive (fun t => dnum (g t) u x) t0 (M u w)) ->
  pd b (pd a (fun r v => XEv r x v)) rho (M (unit a) (unit b)).
Proof.
  intros Sx H. exists (fun t => dnum (upd rho b t) (unit a) x). split; [|apply H, upd_through].
  eapply loc_mono; [|exact (XSm_locally rho b x v Sx)]. intros t (w & W). cbn in W. exact (pd_num _ a x w W).
Qed.

(** A function with second derivative between [m] and [L]. *)
Lemma taylor2 (p p1 p2 : R -> R) c : (forall t, is_derive p t (p1 t)) -> (forall t, is_derive p1 t (p2 t)) -> (forall t, c <= p2 t) -> p 0 + p1 0 + c / 2 <= p 1.
Proof.
  intros D1 D2 H.
  assert (S1 : forall t, 0 <= t -> p1 0 + c * t <= p1 t).
  { intros t Pt. destruct (Req_dec t 0) as [->|N]; [lra|]. destruct (MVT_gen p1 0 t p2) as (s & _ & E); [intros; apply D2|intros z _; apply derivable_continuous_pt, ex_derive_Reals_0; exists (p2 z); apply D2|]. 
    rewrite Rminus_0_r in E. specialize (H s). assert (c * t <= p2 s * t) by (apply Rmult_le_compat_r; lra). lra. }
  set (q := fun t : R => p t - p1 0 * t - c / 2 * t * t).
  assert (D : forall t, is_derive q t (p1 t - p1 0 - c * t)).
  { intros t. unfold q. eapply eq_derive; [apply (is_derive_minus (K := R_AbsRing) (V := R_NormedModule) (fun t : R => p t - p1 0 * t) (fun t : R => c / 2 * t * t) t (p1 t - p1 0) (c * t));
      [apply (is_derive_minus (K := R_AbsRing) (V := R_NormedModule) p (fun t : R => p1 0 * t) t (p1 t) (p1 0)); [apply D1|auto_derive; [exact I|ring]]|auto_derive; [exact I|lra]]|]. unfold minus, plus, opp; cbn. ring. }
  destruct (MVT_gen q 0 1 (fun t => p1 t - p1 0 - c * t)) as (s & Is & E); [intros; apply D|intros z _; apply derivable_continuous_pt, ex_derive_Reals_0; exists (p1 z - p1 0 - c * z); apply D|].
  rewrite Rmin_left in Is by lra. specialize (S1 s (proj1 Is)). unfold q in E. lra.
Qed.
