(** Proofs for C46 in doubles. *)
From Coq Require Import ZArith Reals List Bool Lra Lia Psatz.
From Flocq Require Import Core IEEE754.BinarySingleNaN.
From Verif Require Import Base ExprModel ExprReal ExprXR NumModel UtilModel FilterProofs LdltProofs FloatModel FloatSpec FloatArith FloatStep FloatProofs.
Import ListNotations.
Local Open Scope R_scope.

Lemma ten_X : dX (d_ofZ 10) = Fin 10.
Proof. change (d_ofZ 10) with (d_lit 10 0). rewrite d_lit_X by (try lia; reflexivity). f_equal. cbn [bpow]. lra. Qed.
Lemma big_X : dX d_1e20 = Fin (IZR (10 ^ 20)).
Proof.
  replace d_1e20 with (d_lit (5 ^ 20) 20) by (apply B2SF_inj; vm_compute; reflexivity).
  rewrite d_lit_X by (try lia; reflexivity). f_equal. change (b2 20) with (IZR (2 ^ 20)). rewrite <- mult_IZR. f_equal.
Qed.
Lemma big_bound : IZR (10 ^ 20) < b2 67.
Proof. change (b2 67) with (IZR (2 ^ 67)). apply IZR_lt. reflexivity. Qed.

(** Multiplication by ten. *)
Lemma times10 (d : dbl) e : is_finite d = true -> b2 e <= B2R d -> (-1077 <= e <= 67)%Z ->
  let d' := d_mul d (d_ofZ 10) in
  d_leb d d' = true /\ (d_ltb d_1e20 d' = true \/ (is_finite d' = true /\ b2 (e + 3) <= B2R d')).
Proof.
  intros Fd Hd He. cbv zeta. assert (P : 0 < B2R d) by (pose proof (bpow_gt_0 radix2 e); lra).
  assert (D : dX (d_mul d (d_ofZ 10)) = rX (Fin (B2R d * 10))) by (rewrite mul_X, ten_X, (dX_fin _ Fd); reflexivity).
  rewrite le_X, lt_X, big_X, finite_dX. rewrite D, (dX_fin _ Fd). unfold rX.
  assert (L1 : B2R d <= rnd (B2R d * 10)) by (rewrite <- (rnd_B2R d) at 1; apply rnd_le; lra).
  assert (L2 : b2 (e + 3) <= rnd (B2R d * 10)).
  { rewrite <- (rnd_bpow (e + 3)) by lia. apply rnd_le. rewrite bpow_plus. change (b2 3) with 8. lra. }
  destruct (Rlt_bool_spec (Rabs (rnd (B2R d * 10))) big) as [B|B].
  - split; [apply X_leb_fin; exact L1|]. right. split; [reflexivity|].
    assert (D' : dX (d_mul d (d_ofZ 10)) = Fin (rnd (B2R d * 10))) by (rewrite D; unfold rX; rewrite Rlt_bool_true by exact B; reflexivity).
    apply fin_dX in D'. destruct D' as [_ ->]. exact L2.
  - rewrite Rlt_bool_false by lra. split; [reflexivity|left; reflexivity].
Qed.
Lemma over (d : dbl) : is_finite d = true -> b2 67 <= B2R d -> d_ltb d_1e20 d = true.
Proof.
  intros F H. rewrite lt_X, big_X, (dX_fin _ F). cbn [X_ltb]. pose proof big_bound. apply R_ltb_true. lra.
Qed.
Lemma d_leb_refl (d : dbl) : is_finite d = true -> d_leb d d = true.
Proof. intros F. rewrite le_X, (dX_fin _ F). apply X_leb_fin. lra. Qed.
Lemma d_leb_trans (a b c : dbl) : d_leb a b = true -> d_leb b c = true -> d_leb a c = true.
Proof. rewrite !le_X. apply (FilterProofs.Xn_trans (dX a) (dX b) (dX c)). Qed.

Section Inertia.
Context {M : libm}.
Notation eps_d := (eps (S := Dn M)).
Lemma eps_lit : eps_d = (d_lit 1 (-52) : dbl). Proof. apply B2SF_inj. vm_compute. reflexivity. Qed.
Lemma neps_lit : d_opp (d_lit 1 (-52)) = d_lit (-1) (-52). Proof. apply B2SF_inj. vm_compute. reflexivity. Qed.
Lemma not_both (e : dbl) : d_ltb (d_lit 1 (-52)) e = true -> d_ltb e (d_lit (-1) (-52)) = false.
Proof.
  rewrite !lt_X, !d_lit_X by (try lia; reflexivity). pose proof (bpow_gt_0 radix2 (-52)) as P. revert P. generalize (b2 (-52)). intros q P.
  destruct (dX e) as [r| | |]; cbn; try discriminate; try reflexivity. rewrite R_ltb_true, R_ltb_false. lra.
Qed.
Lemma inertia_from (D : list dbl) (i : inertia) :
  let i' := fold_left (fun i (e : dbl) => if d_ltb (d_lit 1 (-52)) e then mkIn (S (in_pos i)) (in_neg i) (in_zero i)
                        else if d_ltb e (d_lit (-1) (-52)) then mkIn (in_pos i) (S (in_neg i)) (in_zero i)
                        else mkIn (in_pos i) (in_neg i) (S (in_zero i))) D i in
  in_pos i' = (in_pos i + count_d (d_ltb (d_lit 1 (-52))) D)%nat /\ in_neg i' = (in_neg i + count_d (fun x => d_ltb x (d_lit (-1) (-52))) D)%nat /\
  (in_pos i' + in_neg i' + in_zero i' = in_pos i + in_neg i + in_zero i + length D)%nat.
Proof.
  revert i. induction D as [|e D IH]; intros i; cbn [fold_left]; cbv zeta; [unfold count_d; cbn; lia|].
  unfold count_d in *. cbn [List.filter length]. destruct (d_ltb (d_lit 1 (-52)) e) eqn:E1.
  - rewrite (not_both e E1). specialize (IH (mkIn (S (in_pos i)) (in_neg i) (in_zero i))). cbv zeta in IH. cbn [in_pos in_neg in_zero] in IH. cbn [length]. destruct IH as (A & B & C). lia.
  - destruct (d_ltb e (d_lit (-1) (-52))).
    + specialize (IH (mkIn (in_pos i) (S (in_neg i)) (in_zero i))). cbv zeta in IH. cbn [in_pos in_neg in_zero] in IH. cbn [length]. destruct IH as (A & B & C). lia.
    + specialize (IH (mkIn (in_pos i) (in_neg i) (S (in_zero i)))). cbv zeta in IH. cbn [in_pos in_neg in_zero] in IH. destruct IH as (A & B & C). lia.
Qed.
Lemma inertia_of_D (D : list dbl) : let i := inertia_of (S := Dn M) D in
  in_pos i = count_d (d_ltb (d_lit 1 (-52))) D /\ in_neg i = count_d (fun x => d_ltb x (d_lit (-1) (-52))) D /\ (in_pos i + in_neg i + in_zero i = length D)%nat.
Proof.
  cbv zeta. unfold inertia_of. rewrite eps_lit. change (s_opp (Dn M) (d_lit 1 (-52))) with (d_opp (d_lit 1 (-52))). rewrite neps_lit.
  destruct (inertia_from D (mkIn 0 0 0)) as (A & B & C). cbn [in_pos in_neg in_zero] in *. repeat split; assumption.
Qed.
Lemma ideal_pivots n m (D : list dbl) : inertia_eqb (inertia_of (S := Dn M) D) (mkIn n m 0) = true <-> pivots n m D.
Proof.
  rewrite inertia_eqb_true. destruct (inertia_of_D D) as (A & B & C). unfold pivots. destruct (inertia_of (S := Dn M) D) as [p q z]. cbn [in_pos in_neg in_zero] in *.
  rewrite <- A, <- B, <- C. split; [intros H; injection H; intros; subst; lia|intros (-> & -> & H); f_equal; lia].
Qed.
End Inertia.

Section Loop.
Context {M : libm}.
Variable factor : dbl -> dbl -> option (list dbl).
Variables n m : nat.
Hypothesis dim : forall d g D, factor d g = Some D -> length D = (n + m)%nat.
Notation loop := (ldlt_loop (S := Dn M)).
Definition g0d : dbl := lit (S := Dn M) 1 10.
Lemma g0d_ok : is_finite g0d = true /\ b2 (-34) <= B2R g0d.
Proof.
  assert (F : is_finite g0d = true) by (vm_compute; reflexivity). split; [exact F|].
  assert (L : d_leb (d_lit 1 (-34)) g0d = true) by (vm_compute; reflexivity). rewrite le_X, (dX_fin _ F), d_pow_X in L by lia. apply X_leb_fin. exact L.
Qed.
(** [roomd g j]: at most j more enlargements keep g below the limit. *)
Definition atleast (d : dbl) (k : nat) : Prop := is_finite d = true /\ (k <= 381)%nat /\ b2 (67 - 3 * Z.of_nat k) <= B2R d.
Definition roomd (g : dbl) (j : nat) : Prop := (is_finite g = true /\ B2R g = 0 /\ (35 <= j <= 382)%nat) \/ atleast g j.
Definition upd (g : dbl) : dbl := if d_eqb g (d_ofZ 0) then g0d else d_mul g (d_ofZ 10).
Lemma atleast_pos d k : atleast d k -> 0 < B2R d.
Proof. intros (_ & _ & H). pose proof (bpow_gt_0 radix2 (67 - 3 * Z.of_nat k)). lra. Qed.
Lemma room_fin g j : roomd g j -> is_finite g = true.
Proof. intros [[H _]|[H _]]; exact H. Qed.
Lemma zero_eqb g : is_finite g = true -> d_eqb g (d_ofZ 0) = R_eqb (B2R g) 0.
Proof. intros F. rewrite eq_X, (dX_fin _ F). reflexivity. Qed.
Lemma times10_k (d : dbl) k : atleast d k -> let d' := d_mul d (d_ofZ 10) in
  d_leb d d' = true /\ (d_ltb d_1e20 d' = true \/ exists k', k = S k' /\ atleast d' k').
Proof.
  intros (F & K & H). cbv zeta. destruct (times10 d (67 - 3 * Z.of_nat k) F H ltac:(lia)) as [A B]. split; [exact A|].
  destruct B as [B|[B1 B2]]; [auto|]. destruct k as [|k].
  - left. apply over; [exact B1|]. eapply Rle_trans; [|exact B2]. apply bpow_le. lia.
  - right. exists k. split; [reflexivity|]. split; [exact B1|]. split; [lia|]. eapply Rle_trans; [|exact B2]. apply bpow_le. lia.
Qed.
Lemma roomd_up g j : roomd g j -> d_leb g (upd g) = true /\ (d_ltb d_1e20 (upd g) = true \/ exists j', j = S j' /\ roomd (upd g) j').
Proof.
  intros H. pose proof (room_fin _ _ H) as F. unfold upd. rewrite (zero_eqb g F). destruct g0d_ok as [G1 G2]. pose proof (bpow_gt_0 radix2 (-34)) as P. unfold R_eqb. destruct (Req_EM_T (B2R g) 0) as [E|E].
  - split; [rewrite le_X, (dX_fin _ F), (dX_fin _ G1), E; apply X_leb_fin; lra|].
    destruct H as [(_ & _ & H)|H]; [|apply atleast_pos in H; lra]. right. exists (j - 1)%nat. split; [lia|]. right. split; [exact G1|]. split; [lia|].
    eapply Rle_trans; [|exact G2]. apply bpow_le. lia.
  - destruct H as [(_ & H & _)|H]; [contradiction|]. destruct (times10_k g j H) as [A B]. split; [exact A|]. destruct B as [B|(j' & -> & B)]; [auto|]. right. exists j'. split; [reflexivity|right; exact B].
Qed.

Definition goodd (r : outcome (ldlt (Dn M))) (d g : dbl) : Prop :=
  exists l, r = Ok l /\ d_leb d (ld_d l) = true /\ d_leb g (ld_g l) = true /\
    (ld_ok l = true -> exists D, factor (ld_d l) (ld_g l) = Some D /\ pivots n m D) /\
    (ld_ok l = false -> d_ltb d_1e20 (ld_d l) = true \/ d_ltb d_1e20 (ld_g l) = true).
Lemma loop_good : forall fuel k j d g, atleast d k -> roomd g j -> (k + j < fuel)%nat -> goodd (loop fuel factor (mkIn n m 0) d g) d g.
Proof.
  induction fuel as [|fuel IH]; intros k j d g Hd Hg HF; [lia|]. pose proof (room_fin _ _ Hg) as Fg. assert (Fd : is_finite d = true) by apply Hd.
  set (next := fun d g : dbl => if d_ltb d_1e20 d || d_ltb d_1e20 g then Ok (mkLd (S := Dn M) false d g) else loop fuel factor (mkIn n m 0) d g).
  assert (N : forall d' g', d_leb d d' = true -> d_leb g g' = true ->
     (d_ltb d_1e20 d' = true \/ d_ltb d_1e20 g' = true \/ exists k' j', atleast d' k' /\ roomd g' j' /\ (k' + j' < fuel)%nat) -> goodd (next d' g') d g).
  { intros d' g' L1 L2 H. unfold next. destruct (d_ltb d_1e20 d' || d_ltb d_1e20 g') eqn:E.
    - eexists. split; [reflexivity|]. cbn [ld_d ld_g ld_ok]. split; [exact L1|]. split; [exact L2|]. split; [discriminate|]. intros _. apply orb_true_iff in E. exact E.
    - apply orb_false_iff in E. destruct E as [E1 E2]. destruct H as [H|[H|(k' & j' & A & B & C)]]; try congruence.
      destruct (IH k' j' d' g' A B C) as (l & El & P1 & P2 & P3). exists l. rewrite El. split; [reflexivity|]. split; [eapply d_leb_trans; eassumption|]. split; [eapply d_leb_trans; eassumption|exact P3]. }
  destruct (times10_k d k Hd) as [Ud Kd]. destruct (roomd_up g j Hg) as [Ug Kg].
  assert (Nd : forall g', d_leb g g' = true -> (d_ltb d_1e20 g' = true \/ exists j', (j' <= j)%nat /\ roomd g' j') -> goodd (next (d_mul d (d_ofZ 10)) g') d g).
  { intros g' L H. apply N; auto. destruct H as [H|(j' & Hj & H)]; auto. destruct Kd as [Kd|(k' & -> & Kd)]; auto. right. right. exists k', j'. split; [exact Kd|]. split; [exact H|lia]. }
  assert (Ng : goodd (next d (upd g)) d g).
  { apply N; auto; [apply d_leb_refl; exact Fd|]. destruct Kg as [Kg|(j' & -> & Kg)]; auto. right. right. exists k, j'. split; [exact Hd|]. split; [exact Kg|lia]. }
  assert (Nb : goodd (next (d_mul d (d_ofZ 10)) (upd g)) d g).
  { apply Nd; [exact Ug|]. destruct Kg as [Kg|(j' & -> & Kg)]; [left; exact Kg|right; exists j'; split; [lia|exact Kg]]. }
  change (loop (S fuel) factor (mkIn n m 0) d g) with
    (match factor d g with
     | Some D => let i := inertia_of (S := Dn M) D in
         if inertia_eqb i (mkIn n m 0) then Ok (mkLd (S := Dn M) true d g)
         else if Nat.ltb 0 (in_zero i) then if d_eqb g (d_ofZ 0) then next d g0d else next (d_mul d (d_ofZ 10)) (d_mul g (d_ofZ 10))
         else if Nat.ltb m (in_neg i) then next (d_mul d (d_ofZ 10)) g
         else if Nat.ltb n (in_pos i) then next d (upd g) else next d g
     | None => next (d_mul d (d_ofZ 10)) (upd g) end).
  destruct (factor d g) as [D|] eqn:EF; [|exact Nb]. cbv zeta. destruct (inertia_eqb (inertia_of (S := Dn M) D) (mkIn n m 0)) eqn:EI.
  { eexists. split; [reflexivity|]. cbn [ld_d ld_g ld_ok]. split; [apply d_leb_refl; exact Fd|]. split; [apply d_leb_refl; exact Fg|]. split; [|discriminate]. intros _. exists D. split; [exact EF|]. apply (ideal_pivots (M := M)). exact EI. }
  destruct (inertia_of_D (M := M) D) as (_ & _ & Sz). rewrite (dim _ _ _ EF) in Sz. destruct (inertia_of (S := Dn M) D) as [p q z]. cbn [in_pos in_neg in_zero] in Sz |- *.
  destruct (Nat.ltb 0 z) eqn:Ez.
  { unfold upd in Ng, Nb. destruct (d_eqb g (d_ofZ 0)); assumption. }
  apply Nat.ltb_ge in Ez. destruct (Nat.ltb m q) eqn:Eq; [apply Nd; [apply d_leb_refl; exact Fg|right; exists j; auto]|].
  destruct (Nat.ltb n p) eqn:Ep; [exact Ng|]. exfalso. apply Nat.ltb_ge in Eq, Ep. assert (p = n /\ q = m /\ z = 0)%nat as (-> & -> & ->) by lia.
  unfold inertia_eqb in EI. cbn in EI. rewrite !Nat.eqb_refl in EI. discriminate.
Qed.
End Loop.

Lemma half_ge (prev : dbl) : is_finite prev = true -> 0 <= B2R prev -> is_finite (d_div prev (d_ofZ 2)) = true.
Proof.
  intros F H. assert (Two : dX (d_ofZ 2) = Fin 2). { change (d_ofZ 2) with (d_lit 2 0). rewrite d_lit_X by (try lia; reflexivity). f_equal. cbn [bpow]. lra. }
  rewrite finite_dX, div_X by (rewrite Two; intros E; injection E; lra). rewrite Two, (dX_fin _ F). cbn [X_div]. destruct (Req_EM_T 2 0); [lra|].
  pose proof (lt_big prev) as L. rewrite Rabs_pos_eq in L by exact H. rewrite (rX_bounded _ (B2R prev)); [reflexivity|lra|exact L|apply rnd_B2R|rewrite Rabs_pos_eq; lra].
Qed.
Definition startd (M : libm) (prev : dbl) : dbl := if d_eqb prev (d_ofZ 0) then lit (S := Dn M) 1 4 else smax (S := Dn M) (d_div prev (d_ofZ 2)) (eps (S := Dn M)).
Lemma startd_ok (M : libm) prev : is_finite prev = true -> 0 <= B2R prev -> is_finite (startd M prev) = true /\ b2 (-52) <= B2R (startd M prev).
Proof.
  intros F H. unfold startd. destruct (d_eqb prev (d_ofZ 0)).
  - assert (F' : is_finite (lit (S := Dn M) 1 4 : dbl) = true) by (vm_compute; reflexivity). split; [exact F'|].
    assert (L : d_leb (d_lit 1 (-52)) (lit (S := Dn M) 1 4) = true) by (vm_compute; reflexivity). rewrite le_X, (dX_fin _ F'), d_pow_X in L by lia. apply X_leb_fin. exact L.
  - pose proof (half_ge prev F H) as F2. unfold smax. rewrite eps_lit. change (s_ltb (Dn M)) with d_ltb. destruct (fin_dX _ _ (d_pow_X (-52) ltac:(lia))) as [E1 E2].
    rewrite lt_X, (dX_fin _ F2), d_pow_X by lia. cbn [X_ltb]. destruct (R_ltb _ (b2 (-52))) eqn:C; [rewrite E2; split; [exact E1|lra]|]. apply R_ltb_false in C. split; [exact F2|lra].
Qed.
Lemma subnormal_ge (g : dbl) : is_finite g = true -> 0 < B2R g -> b2 (-1074) <= B2R g.
Proof.
  intros F H. destruct g as [| | |s mm e B]; try discriminate; [cbn in H; lra|]. destruct s; [cbn in H; unfold F2R in H; cbn in H; pose proof (bpow_gt_0 radix2 e); pose proof (IZR_lt (Zneg mm) 0 ltac:(lia)); nra|].
  cbn [B2R cond_Zopp]. assert (E : (-1074 <= e)%Z). { pose proof (canonical_canonical_mantissa prec emax false mm e) as C. destruct (andb_prop _ _ B) as [B1 _]. specialize (C B1). unfold canonical in C. cbn [Fexp] in C. rewrite C. unfold cexp. change (SpecFloat.fexp prec emax) with fx. rewrite fx_FLT. unfold FLT_exp. lia. }
  unfold F2R. cbn [Fnum Fexp]. apply Rle_trans with (1 * b2 e); [rewrite Rmult_1_l; apply bpow_le; exact E|]. apply Rmult_le_compat_r; [apply bpow_ge_0|]. apply IZR_le. lia.
Qed.

Lemma c46_d (M : libm) (gmin prev : dbl) (factor : dbl -> dbl -> option (list dbl)) n m :
  is_finite gmin = true -> 0 <= B2R gmin -> is_finite prev = true -> 0 <= B2R prev ->
  (forall d g D, factor d g = Some D -> length D = (n + m)%nat) -> forall fuel, (425 <= fuel)%nat ->
  exists l, ldlt_compute (S := Dn M) fuel factor n m gmin prev = Ok l /\
    (ld_ok l = true -> exists D, factor (ld_d l) (ld_g l) = Some D /\ pivots n m D) /\
    (ld_ok l = false -> d_ltb d_1e20 (ld_d l) = true \/ d_ltb d_1e20 (ld_g l) = true) /\
    ((ld_ok l = true /\ ld_d l = d_ofZ 0 /\ ld_g l = d_ofZ 0) \/ (d_leb (d_lit 1 (-52)) (ld_d l) = true /\ d_leb gmin (ld_g l) = true)).
Proof.
  intros Fg Hg Fp Hp dim fuel HF. destruct (startd_ok M prev Fp Hp) as [S1 S2].
  assert (Ad : atleast (startd M prev) 40). { split; [exact S1|]. split; [lia|]. eapply Rle_trans; [|exact S2]. apply bpow_le. lia. }
  assert (Rg : exists j, (j <= 381)%nat /\ roomd gmin j).
  { destruct (Req_dec (B2R gmin) 0) as [E|E]; [exists 35%nat; split; [lia|left; repeat split; auto; lia]|].
    exists 381%nat. split; [lia|]. right. split; [exact Fg|]. split; [lia|]. eapply Rle_trans; [|apply subnormal_ge; [exact Fg|lra]]. apply bpow_le. lia. }
  destruct Rg as (j & Hj & Rg). destruct (loop_good (M := M) factor n m dim fuel 40 j (startd M prev) gmin Ad Rg ltac:(lia)) as (l & El & P1 & P2 & P3 & P4).
  assert (G : exists l, ldlt_loop (S := Dn M) fuel factor (mkIn n m 0) (startd M prev) gmin = Ok l /\
    (ld_ok l = true -> exists D, factor (ld_d l) (ld_g l) = Some D /\ pivots n m D) /\
    (ld_ok l = false -> d_ltb d_1e20 (ld_d l) = true \/ d_ltb d_1e20 (ld_g l) = true) /\
    ((ld_ok l = true /\ ld_d l = d_ofZ 0 /\ ld_g l = d_ofZ 0) \/ (d_leb (d_lit 1 (-52)) (ld_d l) = true /\ d_leb gmin (ld_g l) = true))).
  { exists l. split; [exact El|]. split; [exact P3|]. split; [exact P4|]. right. split; [|exact P2]. eapply d_leb_trans; [|exact P1].
    rewrite le_X, (dX_fin _ S1), d_pow_X by lia. apply X_leb_fin. exact S2. }
  change (ldlt_compute (S := Dn M) fuel factor n m gmin prev) with
    (match factor (d_ofZ 0) (d_ofZ 0) with
     | Some D => if inertia_eqb (inertia_of (S := Dn M) D) (mkIn n m 0) && forallb (fun e : dbl => d_leb (lit (S := Dn M) 1 4) (d_abs e)) D
                 then Ok (mkLd (S := Dn M) true (d_ofZ 0) (d_ofZ 0)) else ldlt_loop (S := Dn M) fuel factor (mkIn n m 0) (startd M prev) gmin
     | None => ldlt_loop (S := Dn M) fuel factor (mkIn n m 0) (startd M prev) gmin end).
  destruct (factor (d_ofZ 0) (d_ofZ 0)) as [D|] eqn:E0; [|exact G]. destruct (inertia_eqb _ _) eqn:EI; [|exact G]. destruct (forallb _ D); [|exact G]. cbn [andb].
  eexists. split; [reflexivity|]. cbn [ld_ok ld_d ld_g]. split; [|split; [discriminate|left; auto]]. intros _. exists D. split; [exact E0|]. apply (ideal_pivots (M := M)). exact EI.
Qed.
Lemma c46_ex_d : let factor := fun d g : dbl => Some [d_add (d_ofZ 1) d; d_sub (d_add (d_ofZ (-1)) d) g] in
  (forall d g D, factor d g = Some D -> length D = (2 + 0)%nat) /\ ~ (exists D, factor (d_ofZ 0) (d_ofZ 0) = Some D /\ pivots 2 0 D) /\
  exists D, factor (d_ofZ 10) (d_ofZ 0) = Some D /\ pivots 2 0 D.
Proof.
  cbv zeta. split; [intros d g D H; injection H as <-; reflexivity|]. split.
  - intros (D & H & (A & _)). injection H as <-. revert A. vm_compute. discriminate.
  - eexists. split; [reflexivity|]. split; [vm_compute; reflexivity|]. split; [vm_compute; reflexivity|reflexivity].
Qed.
