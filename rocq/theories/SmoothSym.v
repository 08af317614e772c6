(** Mixed second partial derivatives of what the user wrote exist and do not depend on the order. *)
From Coq Require Import ZArith Reals List Bool Arith Lia Lra FunctionalExtensionality.
From Coquelicot Require Import Coquelicot.
From Verif Require Import Base ExprModel ExprReal MathSpec MathProofs DiffSpec OpDeriv OpDeriv2 OpMath VarSpec Faith SmoothSpec SmoothGraph SmoothOpen SmoothUser.
Import ListNotations.
Open Scope R_scope.

Definition cj (F : R -> R -> R) (s0 t0 : R) (f1 f2 : R -> R) (m : R) : Prop :=
  locally t0 (fun t => is_derive (fun s => F s t) s0 (f1 t)) /\ locally s0 (fun s => is_derive (fun t => F s t) t0 (f2 s)) /\
  is_derive f1 t0 m /\ is_derive f2 s0 m.

Lemma cj_const c s0 t0 : cj (fun _ _ => c) s0 t0 (fun _ => 0) (fun _ => 0) 0.
Proof.
  assert (D : forall c x : R, is_derive (fun _ : R => c) x 0) by (intros; apply (is_derive_const (K := R_AbsRing) (V := R_NormedModule))).
  split; [|split; [|split; apply D]]; (apply filter_forall; intros; apply D).
Qed.
Lemma cj_s s0 t0 : cj (fun s _ => s) s0 t0 (fun _ => 1) (fun _ => 0) 0.
Proof.
  assert (D : forall c x : R, is_derive (fun _ : R => c) x 0) by (intros; apply (is_derive_const (K := R_AbsRing) (V := R_NormedModule))).
  split; [|split; [|split; apply D]]; (apply filter_forall; intros; first [apply D|apply (is_derive_id (K := R_AbsRing))]).
Qed.
Lemma cj_swap F s0 t0 f1 f2 m : cj F s0 t0 f1 f2 m -> cj (fun s t => F t s) t0 s0 f2 f1 m.
Proof. intros (A & B & C & D). split; [exact B|]. split; [exact A|]. split; assumption. Qed.

Lemma mul_derive (f g : R -> R) t df dg : is_derive f t df -> is_derive g t dg -> is_derive (fun s => f s * g s) t (df * g t + f t * dg).
Proof. intros Df Dg. exact (is_derive_mult (K := R_AbsRing) f g t df dg Df Dg Rmult_comm). Qed.
Lemma add_derive (f g : R -> R) t df dg : is_derive f t df -> is_derive g t dg -> is_derive (fun s => f s + g s) t (df + dg).
Proof. intros Df Dg. exact (is_derive_plus (K := R_AbsRing) (V := R_NormedModule) f g t df dg Df Dg). Qed.

Lemma cj_at F s0 t0 f1 f2 m : cj F s0 t0 f1 f2 m -> is_derive (fun s => F s t0) s0 (f1 t0) /\ is_derive (fun t => F s0 t) t0 (f2 s0).
Proof. intros (A & B & _). split; [exact (locally_singleton _ _ A)|exact (locally_singleton _ _ B)]. Qed.

Lemma cj_un u F s0 t0 f1 f2 m : cj F s0 t0 f1 f2 m -> good_un u (F s0 t0) ->
  exists h1 h2 k, cj (fun s t => un_value (S := R_ops) u (F s t)) s0 t0 h1 h2 k.
Proof.
  intros H G. destruct (cj_at _ _ _ _ _ _ H) as [D1 D2]. destruct H as (A & B & C & D).
  destruct (un_second u _ (proj1 G) (proj2 G)) as [q Q].
  assert (L1 : locally t0 (fun t => good_un u (F s0 t))) by (apply un_open; [eapply ex_cont, D2|exact G]).
  assert (L2 : locally s0 (fun s => good_un u (F s t0))) by (apply (un_open u (fun s => F s t0)); [eapply ex_cont, D1|exact G]).
  exists (fun t => un_grad (S := R_ops) u 1 (F s0 t) * f1 t), (fun s => un_grad (S := R_ops) u 1 (F s t0) * f2 s),
    (q * f2 s0 * f1 t0 + un_grad (S := R_ops) u 1 (F s0 t0) * m).
  split; [|split; [|split]].
  - eapply loc_mono; [|exact (loc_and _ _ _ A L1)]. intros t [P [R N]]. cbn in P. exact (un_chain u (fun s => F s t) s0 (f1 t) R N P).
  - eapply loc_mono; [|exact (loc_and _ _ _ B L2)]. intros t [P [R N]]. cbn in P. exact (un_chain u (fun s => F t s) t0 (f2 t) R N P).
  - eapply eq_derive; [apply (mul_derive (fun t => un_grad (S := R_ops) u 1 (F s0 t)) f1); [exact (is_derive_comp (fun z => un_grad (S := R_ops) u 1 z) (fun t => F s0 t) t0 _ _ Q D2)|exact C]|].
    unfold scal; cbn. unfold mult; cbn. ring.
  - eapply eq_derive; [apply (mul_derive (fun s => un_grad (S := R_ops) u 1 (F s t0)) f2); [exact (is_derive_comp (fun z => un_grad (S := R_ops) u 1 z) (fun s => F s t0) s0 _ _ Q D1)|exact D]|].
    unfold scal; cbn. unfold mult; cbn. ring.
Qed.

Lemma cj_bin b F G s0 t0 f1 f2 m g1 g2 k : cj F s0 t0 f1 f2 m -> cj G s0 t0 g1 g2 k -> regular_bin b (F s0 t0) (G s0 t0) -> ~ kink_bin b (F s0 t0) (G s0 t0) ->
  exists h1 h2 l, cj (fun s t => bin_value (S := R_ops) b (F s t) (G s t)) s0 t0 h1 h2 l.
Proof.
  intros H H' R N. destruct (cj_at _ _ _ _ _ _ H) as [D1 D2]. destruct (cj_at _ _ _ _ _ _ H') as [E1 E2].
  destruct H as (A & B & C & D), H' as (A' & B' & C' & D').
  destruct (bin_second b _ _ R N) as (lx & c & ry & Q).
  assert (L1 : locally t0 (fun t => good_bin False b (F s0 t) (G s0 t))).
  { apply (bin_open False b (fun t => F s0 t) (fun t => G s0 t)); [eapply ex_cont, D2|eapply ex_cont, E2|intros []|split; [left; exact R|exact N]]. }
  assert (L2 : locally s0 (fun s => good_bin False b (F s t0) (G s t0))).
  { apply (bin_open False b (fun t => F t t0) (fun t => G t t0)); [eapply ex_cont, D1|eapply ex_cont, E1|intros []|split; [left; exact R|exact N]]. }
  destruct (Q (fun t => F s0 t) (fun t => G s0 t) t0 _ _ eq_refl eq_refl D2 E2) as [Ql Qr].
  destruct (Q (fun s => F s t0) (fun s => G s t0) s0 _ _ eq_refl eq_refl D1 E1) as [Pl Pr].
  set (L := bin_grad_l (S := R_ops) b 1) in *. set (R' := bin_grad_r (S := R_ops) b 1) in *.
  exists (fun t => L (F s0 t) (G s0 t) * f1 t + R' (F s0 t) (G s0 t) * g1 t), (fun s => L (F s t0) (G s t0) * f2 s + R' (F s t0) (G s t0) * g2 s),
   ((lx * f2 s0 + c * g2 s0) * f1 t0 + L (F s0 t0) (G s0 t0) * m + ((c * f2 s0 + ry * g2 s0) * g1 t0 + R' (F s0 t0) (G s0 t0) * k)).
  split; [|split; [|split]].
  - eapply loc_mono; [|exact (loc_and _ _ _ (loc_and _ _ _ A A') L1)]. intros t [[P P'] [[R1|(_ & [] & _)] N1]]. cbn in P, P'.
    exact (bin_chain b (fun s => F s t) (fun s => G s t) s0 (f1 t) (g1 t) R1 N1 P P').
  - eapply loc_mono; [|exact (loc_and _ _ _ (loc_and _ _ _ B B') L2)]. intros t [[P P'] [[R1|(_ & [] & _)] N1]]. cbn in P, P'.
    exact (bin_chain b (fun s => F t s) (fun s => G t s) t0 (f2 t) (g2 t) R1 N1 P P').
  - eapply eq_derive; [apply (add_derive (fun t => L (F s0 t) (G s0 t) * f1 t) (fun t => R' (F s0 t) (G s0 t) * g1 t));
      [apply (mul_derive (fun t => L (F s0 t) (G s0 t)) f1); [exact Ql|exact C]|apply (mul_derive (fun t => R' (F s0 t) (G s0 t)) g1); [exact Qr|exact C']]|]. ring.
  - eapply eq_derive; [apply (add_derive (fun s => L (F s t0) (G s t0) * f2 s) (fun s => R' (F s t0) (G s t0) * g2 s));
      [apply (mul_derive (fun s => L (F s t0) (G s t0)) f2); [exact Pl|exact D]|apply (mul_derive (fun s => R' (F s t0) (G s t0)) g2); [exact Pr|exact D']]|]. ring.
Qed.

Lemma cj_pow p F s0 t0 f1 f2 m : cj F s0 t0 f1 f2 m -> int_power (F s0 t0) p ->
  exists h1 h2 l, cj (fun s t => bin_value (S := R_ops) BPow (F s t) p) s0 t0 h1 h2 l.
Proof.
  intros H I. destruct (cj_at _ _ _ _ _ _ H) as [D1 D2]. destruct H as (A & B & C & D).
  destruct (pow_second _ _ I) as (lx & Q).
  assert (OP : forall (f : R -> R) t, continuous f t -> int_power (f t) p -> locally t (fun s => int_power (f s) p)).
  { intros f t Cf (z & E & [N|N]).
    - assert (locally t (fun s => f s <> 0)).
      { destruct (Rlt_dec 0 (f t)) as [P|P].
        - eapply loc_mono; [|apply (loc_lt f t 0 Cf P)]. cbn. intros; lra.
        - eapply loc_mono; [|apply (loc_gt f t 0 Cf); lra]. cbn. intros; lra. }
      eapply loc_mono; [|exact H]. intros s Hs. exists z. split; [exact E|left; exact Hs].
    - apply filter_forall. intros s. exists z. split; [exact E|right; exact N]. }
  assert (L1 : locally t0 (fun t => int_power (F s0 t) p)) by (apply OP; [eapply ex_cont, D2|exact I]).
  assert (L2 : locally s0 (fun s => int_power (F s t0) p)) by (apply (OP (fun s => F s t0)); [eapply ex_cont, D1|exact I]).
  pose proof (Q (fun t => F s0 t) t0 _ eq_refl D2) as Ql. pose proof (Q (fun s => F s t0) s0 _ eq_refl D1) as Pl.
  set (L := fun x : Rdefinitions.R => bin_grad_l (S := R_ops) BPow 1 x p) in *.
  exists (fun t => L (F s0 t) * f1 t), (fun s => L (F s t0) * f2 s), (lx * f2 s0 * f1 t0 + L (F s0 t0) * m).
  split; [|split; [|split]].
  - eapply loc_mono; [|exact (loc_and _ _ _ A L1)]. intros t [P P']. cbn in P, P'. exact (pow_chain (fun s => F s t) s0 (f1 t) p P' P).
  - eapply loc_mono; [|exact (loc_and _ _ _ B L2)]. intros t [P P']. cbn in P, P'. exact (pow_chain (fun s => F t s) t0 (f2 t) p P' P).
  - eapply eq_derive; [apply (mul_derive (fun t => L (F s0 t)) f1); [exact Ql|exact C]|]. ring.
  - eapply eq_derive; [apply (mul_derive (fun s => L (F s t0)) f2); [exact Pl|exact D]|]. ring.
Qed.

Fixpoint num (rho : nat -> R) (x : uexp) : R :=
  match x with
  | XVar k => rho k
  | XConst c => c
  | XUn u e => un_value (S := R_ops) u (num rho e)
  | XBin b e f => bin_value (S := R_ops) b (num rho e) (num rho f)
  end.
Lemma XSm_num rho x v : XSm rho x v -> v = num rho x.
Proof.
  induction 1 as [| |u e x v _ IH M R N|b e f x y v _ IHe _ IHf M R N]; cbn; auto.
  - rewrite <- IH. apply un_val; assumption.
  - rewrite <- IHe, <- IHf. eapply (bin_val (exists c, f = XConst c)); [split; eassumption|exact M].
Qed.

Lemma XSm_cj rho a b x v : a <> b -> XSm rho x v -> exists f1 f2 m, cj (fun s t => num (upd (upd rho a s) b t) x) (rho a) (rho b) f1 f2 m.
Proof.
  intros NE.
  assert (SAME : upd (upd rho a (rho a)) b (rho b) = rho).
  { extensionality j. unfold upd. destruct (Nat.eqb j b) eqn:E; [apply Nat.eqb_eq in E; subst; reflexivity|]. destruct (Nat.eqb j a) eqn:E'; [apply Nat.eqb_eq in E'; subst; reflexivity|reflexivity]. }
  induction 1 as [j|c|u e x v He (f1 & f2 & m & H) M R N|bo e e' x y v He (f1 & f2 & m & H) He' (g1 & g2 & k & H') M R N].
  - cbn [num]. destruct (Nat.eq_dec j b) as [->|Nb]; [|destruct (Nat.eq_dec j a) as [->|Na]].
    + exists (fun _ => 0), (fun _ => 1), 0. replace (fun s t => upd (upd rho a s) b t b) with (fun s t : R => t); [apply (cj_swap (fun s _ => s)), cj_s|].
      extensionality s. extensionality t. unfold upd. rewrite Nat.eqb_refl. reflexivity.
    + exists (fun _ => 1), (fun _ => 0), 0. replace (fun s t => upd (upd rho a s) b t a) with (fun s t : R => s); [apply cj_s|].
      extensionality s. extensionality t. unfold upd. apply Nat.eqb_neq in Nb. rewrite Nb, Nat.eqb_refl. reflexivity.
    + exists (fun _ => 0), (fun _ => 0), 0. replace (fun s t => upd (upd rho a s) b t j) with (fun s t : R => rho j); [apply cj_const|].
      extensionality s. extensionality t. unfold upd. apply Nat.eqb_neq in Nb, Na. rewrite Nb, Na. reflexivity.
  - exists (fun _ => 0), (fun _ => 0), 0. exact (cj_const c (rho a) (rho b)).
  - cbn [num]. apply (cj_un u _ _ _ f1 f2 m H). rewrite SAME, <- (XSm_num _ _ _ He). split; assumption.
  - cbn [num]. destruct R as [R|(-> & (c & ->) & R)].
    + apply (cj_bin bo _ _ _ _ f1 f2 m g1 g2 k H H'); rewrite SAME, <- (XSm_num _ _ _ He), <- (XSm_num _ _ _ He'); assumption.
    + cbn [num]. apply (cj_pow c _ _ _ f1 f2 m H). rewrite SAME, <- (XSm_num _ _ _ He). inversion He'; subst. exact R.
Qed.

Lemma upd_comm (rho : nat -> R) a b s t : a <> b -> upd (upd rho a s) b t = upd (upd rho b t) a s.
Proof.
  intros NE. extensionality j. unfold upd. destruct (Nat.eqb j b) eqn:E; [|reflexivity]. apply Nat.eqb_eq in E. subst j.
  assert (E' : Nat.eqb b a = false) by (apply Nat.eqb_neq; congruence). rewrite E'. reflexivity.
Qed.

Lemma pd_half rho a b x v f1 m (F : R -> R -> R) : a <> b -> XSm rho x v -> (forall s t, F s t = num (upd (upd rho b t) a s) x) ->
  locally (rho b) (fun t => is_derive (fun s => F s t) (rho a) (f1 t)) -> is_derive f1 (rho b) m -> pd b (pd a (fun r v => XEv r x v)) rho m.
Proof.
  intros NE Sx HF L D. exists f1. split; [|exact D].
  eapply loc_mono; [|exact (loc_and _ _ _ L (XSm_locally rho b x v Sx))]. intros t [P (w & Q)]. cbn in P, Q.
  assert (EA : upd rho b t a = rho a) by (unfold upd; destruct (Nat.eqb a b) eqn:E; [apply Nat.eqb_eq in E; contradiction|reflexivity]).
  exists (fun s => F s t). rewrite EA. split; [|exact P].
  pose proof (XSm_locally (upd rho b t) a x w Q) as L2. rewrite EA in L2. eapply loc_mono; [|exact L2]. intros s (z & Z). cbn in Z.
  rewrite HF, <- (XSm_num _ _ _ Z). apply XSm_XEv, Z.
Qed.

Lemma pd_mixed rho a b x v : a <> b -> XSm rho x v -> exists m, pd b (pd a (fun r v => XEv r x v)) rho m /\ pd a (pd b (fun r v => XEv r x v)) rho m.
Proof.
  intros NE Sx. destruct (XSm_cj rho a b x v NE Sx) as (f1 & f2 & m & A & B & C & D). exists m. split.
  - refine (pd_half rho a b x v f1 m (fun s t => num (upd (upd rho a s) b t) x) NE Sx _ A C). intros s t. rewrite (upd_comm rho a b) by exact NE. reflexivity.
  - refine (pd_half rho b a x v f2 m (fun t s => num (upd (upd rho a s) b t) x) (fun E => NE (eq_sym E)) Sx _ B D). reflexivity.
Qed.

Lemma pd_sym rho a b x v d : XSm rho x v -> pd b (pd a (fun r v => XEv r x v)) rho d -> pd a (pd b (fun r v => XEv r x v)) rho d.
Proof.
  intros Sx H. destruct (Nat.eq_dec a b) as [->|NE]; [exact H|].
  destruct (pd_mixed rho a b x v NE Sx) as (m & A & B).
  replace d with m; [exact B|]. eapply (pd_fun b (pd a (fun r v => XEv r x v))); [|exact A|exact H].
  intros r p q. apply pd_fun. intros r' p' q'. apply HistProofs.XEv_det.
Qed.
