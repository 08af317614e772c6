(** Proofs for C90: the regularized factorization of a matrix of moderate size succeeds, and the direction goes downhill. *)
From Coq Require Import ZArith Reals List Bool Arith Lia Lra.
From Verif Require Import Base ExprModel ExprReal ExprXR NumModel UtilModel UtilSpec FilterProofs LdltProofs SolverModel LinR XArith QuadSpec LdlModel LdlProofs DownSpec.
Import ListNotations.
Local Open Scope R_scope.

Lemma signs_all n D : length D = n -> signs n 0 D -> forall x, In x D -> 0 < x.
Proof.
  intros L (A & _ & C) x I. pose proof tiny_pos as T. specialize (C x I).
  assert (Q : forall D', (count (fun x => R_ltb tiny x) D' <= length D')%nat /\ (count (fun x => R_ltb tiny x) D' = length D' -> forall x, In x D' -> tiny < x)).
  { unfold count. induction D' as [|a D' [IH1 IH2]]; [split; [cbn; lia|intros _ ? []]|]. cbn [filter length]. destruct (R_ltb tiny a) eqn:Ea; cbn [length]; split; try lia.
    - intros H y [<-|J]; [apply R_ltb_true; exact Ea|]. apply IH2; [lia|exact J]. }
  rewrite <- L in A. specialize (proj2 (Q D) A x I). lra.
Qed.
(** A matrix with entries up to [b] is at least - n b. *)
Lemma form_bound n M b v : (forall i j, (i < n)%nat -> (j < n)%nat -> Rabs (M i j) <= b) -> - (INR n * b) * norm_sq n v <= form n M v.
Proof.
  intros H. unfold form.
  assert (Q : sumn n (fun i => sumn n (fun j => - b / 2 * (v i * v i + v j * v j))) <= sumn n (fun i => sumn n (fun j => M i j * v i * v j))).
  { apply sumn_le. intros i Li. apply sumn_le. intros j Lj. specialize (H i j Li Lj).
    assert (Rabs (M i j * (v i * v j)) <= b * (1 / 2 * (v i * v i + v j * v j))).
    { rewrite Rabs_mult. apply Rmult_le_compat; [apply Rabs_pos|apply Rabs_pos|exact H|].
      pose proof (Rle_0_sqr (v i - v j)) as A. pose proof (Rle_0_sqr (v i + v j)) as B. unfold Rsqr in A, B. apply Rabs_le. lra. }
    pose proof (Rle_abs (- (M i j * (v i * v j)))) as C. rewrite Rabs_Ropp in C. lra. }
  eapply Rle_trans; [|exact Q]. apply Req_le.
  assert (Cst : forall c, sumn n (fun _ => c) = INR n * c). { intros c. clear. induction n as [|n IH]; [cbn; ring|]. rewrite S_INR. cbn [sumn]. rewrite IH. ring. }
  rewrite (sumn_ext n _ (fun i => - b / 2 * (INR n * (v i * v i)) + - b / 2 * norm_sq n v)).
  - rewrite sumn_plus, Cst, sumn_scal, sumn_scal. unfold norm_sq. lra.
  - intros i _. rewrite sumn_scal, sumn_plus, Cst. unfold norm_sq. ring.
Qed.
Lemma regularized_form n M d g v : form n (regularized n M d g) v = form n M v + d * norm_sq n v.
Proof.
  unfold form, norm_sq. rewrite <- sumn_scal, <- sumn_plus. apply sumn_ext. intros i Li.
  assert (Q : forall k, (i < k)%nat -> sumn k (fun j => regularized n M d g i j * v i * v j) = sumn k (fun j => M i j * v i * v j) + d * (v i * v i)).
  { induction k as [|k IH]; intros L; [lia|]. cbn [sumn]. destruct (Nat.eq_dec i k) as [->|Ne].
    - rewrite (sumn_ext k _ (fun j => M k j * v k * v j)). + unfold regularized. rewrite Nat.eqb_refl. replace (Nat.ltb k n) with true by (symmetry; apply Nat.ltb_lt; exact Li). ring.
      + intros j Lj. unfold regularized. replace (Nat.eqb k j) with false by (symmetry; apply Nat.eqb_neq; lia). reflexivity.
    - rewrite IH by lia. unfold regularized at 1. replace (Nat.eqb i k) with false by (symmetry; apply Nat.eqb_neq; exact Ne). ring. }
  apply Q, Li.
Qed.

Section Tame.
Variables (n : nat) (M : nat -> nat -> R) (B : R).
Hypothesis Sy : forall i j, M i j = M j i.
Hypothesis PB : 0 <= B <= 1000000000000.
Hypothesis HB : forall v, - B * norm_sq n v <= form n M v.
Let factor (d g : R) := pivots (n + 0) (regularized n M d g).
Definition factored (r : outcome (ldlt Rn)) : Prop := exists d g D, r = Ok (mkLd (S := Rn) true d g) /\ pivots n (regularized n M d g) = Some D /\ forall x, In x D -> 0 < x.

Lemma factor_n d g : factor d g = pivots n (regularized n M d g). Proof. unfold factor. rewrite Nat.add_0_r. reflexivity. Qed.
Lemma big_ok d g : B + 1 <= d -> exists D, factor d g = Some D /\ inertia_eqb (inertia_of (S := Rn) D) (mkIn n 0 0) = true.
Proof.
  intros L. rewrite factor_n. destruct (pivots_definite n (regularized n M d g) 1 (regularized_sym n M d g Sy) ltac:(lra)) as (D & HD & P).
  - intros v. rewrite regularized_form. specialize (HB v). pose proof (norm_sq_pos n v) as N. assert (0 <= (d - B - 1) * norm_sq n v) by (apply Rmult_le_pos; lra). lra.
  - exists D. split; [exact HD|]. apply ideal_signs, signs_positive; [exact (pivots_length _ _ _ HD)|]. intros x I. specialize (P x I).
    assert (tiny < 1); [|lra]. unfold tiny. rewrite <- Rinv_1 at 2. unfold Rdiv. rewrite Rmult_1_l. apply Rinv_lt_contravar; [rewrite Rmult_1_l; apply IZR_lt; reflexivity|apply IZR_lt; reflexivity].
Qed.
Lemma ok_factored d g D : factor d g = Some D -> inertia_eqb (inertia_of (S := Rn) D) (mkIn n 0 0) = true -> factored (Ok (mkLd (S := Rn) true d g)).
Proof. intros F I. rewrite factor_n in F. exists d, g, D. split; [reflexivity|]. split; [exact F|]. apply signs_all with (n := n); [exact (pivots_length _ _ _ F)|]. apply ideal_signs, I. Qed.

Lemma loop_tame k : forall fuel d g, (k < fuel)%nat -> 0 < d -> 0 < g <= d * 1000000 -> B + 1 <= d * 10 ^ k -> factored (ldlt_loop (S := Rn) fuel factor (mkIn n 0 0) d g).
Proof.
  induction k as [|k IH]; intros fuel d g Lf Pd Pg Hd; (destruct fuel as [|fuel]; [lia|]).
  - cbn [ldlt_loop]. cbv zeta. destruct (big_ok d g ltac:(cbn in Hd; lra)) as (D & HD & Id). rewrite HD, Id. eapply ok_factored; eassumption.
  - destruct (Rle_lt_dec (B + 1) d) as [Bd|Sd].
    { cbn [ldlt_loop]. cbv zeta. destruct (big_ok d g Bd) as (D & HD & Id). rewrite HD, Id. eapply ok_factored; eassumption. }
    assert (Hd' : B + 1 <= d * 10 * 10 ^ k) by (cbn [pow] in Hd; lra).
    assert (Nx : forall d' g', d' = d * 10 -> g' = g \/ g' = g * 10 ->
      factored (if R_ltb (IZR (10 ^ 20)) d' || R_ltb (IZR (10 ^ 20)) g' then Ok (mkLd (S := Rn) false d' g') else ldlt_loop (S := Rn) fuel factor (mkIn n 0 0) d' g')).
    { intros d' g' -> Hg'. change (IZR (10 ^ 20)) with 100000000000000000000.
      assert (R_ltb 100000000000000000000 (d * 10) = false) as -> by (apply R_ltb_false; lra).
      assert (R_ltb 100000000000000000000 g' = false) as -> by (apply R_ltb_false; destruct Hg' as [->| ->]; lra). cbn [orb].
      apply IH; [lia|lra|destruct Hg' as [->| ->]; lra|exact Hd']. }
    cbn [ldlt_loop]. cbv zeta.
    assert (Gz : s_eqb Rn g (s_ofZ Rn 0) = false) by (cbn; unfold R_eqb; destruct (Req_EM_T g 0); [lra|reflexivity]).
    cbn [in_neg in_pos]. rewrite Gz.
    destruct (factor d g) as [D|] eqn:F; [|apply Nx; auto].
    destruct (inertia_eqb _ _) eqn:Id; [eapply ok_factored; eassumption|].
    destruct (Nat.ltb 0 (in_zero _)) eqn:Z0; [apply Nx; auto|]. destruct (Nat.ltb 0 (in_neg _)) eqn:N0; [apply Nx; auto|].
    exfalso. apply Nat.ltb_ge in Z0, N0. destruct (inertia_spec D) as (_ & _ & S3 & _). rewrite factor_n in F. apply pivots_length in F.
    rewrite <- not_true_iff_false in Id. apply Id. apply inertia_eqb_true. destruct (inertia_of (S := Rn) D) as [a b c]. cbn [in_pos in_neg in_zero] in *. f_equal; lia.
Qed.
Lemma compute_tame fuel prev : (40 <= fuel)%nat -> factored (ldlt_compute (S := Rn) fuel factor n 0 (1 / IZR (10 ^ 10)) prev).
Proof.
  intros Lf. unfold ldlt_compute.
  assert (Lp : forall d, / 4503599627370496 <= d -> factored (ldlt_loop (S := Rn) fuel factor (mkIn n 0 0) d (1 / IZR (10 ^ 10)))).
  { intros d Hd. assert (0 < / 4503599627370496) by (apply Rinv_0_lt_compat; lra). apply (loop_tame 30); [lia|lra| |].
    - change (IZR (10 ^ 10)) with 10000000000. split; lra.
    - assert (10 ^ 30 = 1000000000000000000000000000000) as -> by (rewrite (pow_IZR 10 30); reflexivity). lra. }
  assert (St : factored (ldlt_loop (S := Rn) fuel factor (mkIn n 0 0) (if s_eqb Rn prev (s_ofZ Rn 0) then lit (S := Rn) 1 4 else smax (S := Rn) (s_div Rn prev (s_ofZ Rn 2)) (eps (S := Rn))) (1 / IZR (10 ^ 10)))).
  { apply Lp. destruct (s_eqb Rn prev _); [rewrite lit4; change (IZR (10 ^ 4)) with 10000; lra|]. rewrite smax_R. eapply Rle_trans; [|apply Rmax_r]. unfold eps. cbn. lra. }
  destruct (factor (s_ofZ Rn 0) (s_ofZ Rn 0)) as [D|] eqn:F; [|exact St]. destruct (inertia_eqb (inertia_of (S := Rn) D) (mkIn n 0 0)) eqn:Id; cbn [andb]; [|exact St].
  match goal with |- context [forallb ?h D] => destruct (forallb h D) end; [|exact St]. exact (ok_factored _ _ _ F Id).
Qed.
End Tame.

Lemma ldl_ext n : forall M r r', (forall i, (i < n)%nat -> r i = r' i) -> ldl_solve n M r = ldl_solve n M r'.
Proof.
  induction n as [|n IH]; intros M r r' H; [reflexivity|]. cbn [ldl_solve]. rewrite (H 0%nat) by lia. rewrite (IH (schur M) _ (fun i => r' (S i) - M (S i) 0%nat / M 0%nat 0%nat * r' 0%nat)) by (intros i L; rewrite (H (S i)) by lia; reflexivity). reflexivity.
Qed.
Lemma made_new fuel n : made_for n (ls_new (ldl_lin fuel) n 0 false). Proof. repeat split. Qed.
Lemma made_compute fuel n l k : made_for n l -> made_for n (fst (ls_compute (ldl_lin fuel) l k)).
Proof. intros (A & B & C). cbn. destruct (ldlt_compute _ _ _ _ _ _); cbn; repeat split; assumption. Qed.
(** With a Hessian of moderate size the answer is a descent direction. *)
Lemma direction_down fuel n l A (g : list R) : (40 <= fuel)%nat -> made_for n l -> length A = n -> (forall w, In w A -> length w = n) -> length g = n ->
  (forall i j, (i < n)%nat -> (j < n)%nat -> INR n * Rabs (low A i j) <= 1000000000000) ->
  exists p, ls_solve (ldl_lin fuel) (fst (ls_compute (ldl_lin fuel) l (mkKkt (S := Xn) (map (map Fin) A) []))) (map Fin (map Ropp g)) = map Fin p /\ length p = n /\
    ((exists i, (i < n)%nat /\ g.[i] <> 0) -> sumn n (fun i => g.[i] * p.[i]) < 0).
Proof.
  intros Lf (M1 & M2 & M3) LA WA Lg HA. cbn [ldl_lin ls_compute ls_solve]. rewrite M1, M2, M3. set (M := kkt_at n _).
  assert (Sy : forall i j, M i j = M j i) by apply kkt_at_sym. assert (EM : forall i j, (i < n)%nat -> (j < n)%nat -> M i j = low A i j) by (intros; apply kkt_at_low; assumption).
  assert (HB : forall v, - 1000000000000 * norm_sq n v <= form n M v).
  { intros v. destruct n as [|n']; [unfold norm_sq, form; cbn; lra|]. set (n := S n') in *. assert (Pn : 0 < INR n) by (apply lt_0_INR; unfold n; lia).
    replace (- 1000000000000) with (- (INR n * (1000000000000 / INR n))) by (field; lra). apply form_bound. intros i j Li Lj. rewrite EM by assumption. specialize (HA i j Li Lj).
    apply Rmult_le_reg_l with (INR n); [exact Pn|]. replace (INR n * (1000000000000 / INR n)) with 1000000000000 by (field; lra). exact HA. }
  destruct (compute_tame n M 1000000000000 Sy ltac:(lra) HB fuel (l_prev l) Lf) as (d & ga & D & K & HD & PD).
  match goal with |- context [ldlt_compute ?a1 ?a2 ?a3 ?a4 ?a5 ?a6] => replace (ldlt_compute a1 a2 a3 a4 a5 a6) with (Ok (mkLd (S := Rn) true d ga)) by (symmetry; exact K) end. cbn [fst l_M ld_d ld_g]. rewrite !map_length, Lg.
  eexists. split; [reflexivity|]. split; [apply ldl_length|]. intros Nz.
  assert (Er : ldl_solve n (regularized n M d ga) (fun i => real (@nth XR i (map Fin (map Ropp g)) (Fin 0))) = ldl_solve n (regularized n M d ga) (fun i => - g.[i])).
  { apply ldl_ext. intros i Li. rewrite (nth_map_lt Fin _ i 0 (Fin 0)) by (rewrite map_length; lia). cbn [real]. apply (nth_map_lt Ropp g i 0 0). lia. }
  match goal with |- sumn n (fun i => _ * (?X).[i]) < 0 => replace X with (ldl_solve n (regularized n M d ga) (fun i => - g.[i])) by (symmetry; exact Er) end.
  exact (proj2 (ldl_descends n (regularized n M d ga) D (fun i => g.[i]) (regularized_sym n M d ga Sy) HD PD) Nz).
Qed.
