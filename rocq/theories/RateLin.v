(** Proofs for C97: linear algebra of one Newton step with a definite Hessian. *)
From Coq Require Import ZArith Reals List Bool Arith Lia Lra.
From Verif Require Import Base ExprModel ExprReal ExprXR NumModel UtilModel UtilSpec FilterProofs LdltProofs SolverModel LinR XArith QuadSpec QuadProofs LdlModel LdlProofs DownSpec DownLin.
Import ListNotations.
Local Open Scope R_scope.

(** For 0 <= H <= L: |H p|^2 <= L p' H p. *)
Lemma image_bound n H L p : (forall i j, H i j = H j i) -> 0 < L -> (forall v, 0 <= form n H v) -> (forall v, form n H v <= L * norm_sq n v) ->
  norm_sq n (fun i => sumn n (fun j => H i j * p j)) <= L * form n H p.
Proof.
  intros Sy PL H0 HL. set (w := fun i => sumn n (fun j => H i j * p j)). pose proof (H0 (fun i => p i + - / L * w i)) as K. rewrite (form_add n H Sy p (fun i => - / L * w i)) in K.
  rewrite (sumn_ext n _ (fun i => - / L * (w i * w i))) in K by (intros i _; fold (w i); ring). rewrite sumn_scal in K. fold (norm_sq n w) in K.
  assert (F : form n H (fun i => - / L * w i) = / L * / L * form n H w).
  { unfold form. rewrite <- sumn_scal. apply sumn_ext. intros i _. rewrite <- sumn_scal. apply sumn_ext. intros j _. ring. }
  rewrite F in K. pose proof (HL w) as K2. assert (0 < / L) as PI by (apply Rinv_0_lt_compat, PL). assert (/ L * L = 1) as IL by (field; lra).
  assert (/ L * / L * form n H w <= / L * / L * (L * norm_sq n w)) by (apply Rmult_le_compat_l; [apply Rmult_le_pos; lra|exact K2]).
  replace (/ L * / L * (L * norm_sq n w)) with (/ L * norm_sq n w) in H1 by (rewrite <- (Rmult_1_r (/ L)) at 1; rewrite <- IL; ring).
  apply Rmult_le_reg_l with (/ L); [exact PI|]. replace (/ L * (L * form n H p)) with (form n H p) by (rewrite <- Rmult_assoc, IL; ring). lra.
Qed.
(** The solution p of H p = - g: g' p = - p' H p, is at least |g|^2 / L and at least m |p|^2 downhill. *)
Lemma step_slope n H m L g p : (forall i j, H i j = H j i) -> 0 < m -> 0 < L -> definite n H m -> (forall v, form n H v <= L * norm_sq n v) ->
  (forall i, (i < n)%nat -> sumn n (fun j => H i j * p j) = - g i) ->
  let d := sumn n (fun i => g i * p i) in norm_sq n g <= L * - d /\ m * norm_sq n p <= - d.
Proof.
  intros Sy Pm PL De HL Ex d. assert (F : form n H p = - d).
  { unfold d. transitivity (sumn n (fun i => -1 * (g i * p i))); [|rewrite sumn_scal; ring]. unfold form. apply sumn_ext. intros i Li. rewrite (sumn_ext n _ (fun j => p i * (H i j * p j))) by (intros; ring). rewrite sumn_scal, (Ex i Li). ring. }
  split; [|rewrite <- F; apply De]. rewrite <- F. eapply Rle_trans; [|apply (image_bound n H L p Sy PL); [|exact HL]].
  - apply Req_le. apply sumn_ext. intros i Li. rewrite (Ex i Li). ring.
  - intros v. eapply Rle_trans; [|apply De]. apply Rmult_le_pos; [lra|apply norm_sq_pos].
Qed.
(** Exact LDL' solves definite systems, whatever was factored before. *)
Lemma made_solves fuel n l A (r : list R) : made_for n l -> length A = n -> (forall w, In w A -> length w = n) -> length r = n -> definite n (low A) (1 / 10000) ->
  exists p, ls_solve (ldl_lin fuel) (fst (ls_compute (ldl_lin fuel) l (mkKkt (S := Xn) (map (map Fin) A) []))) (map Fin r) = map Fin p /\ length p = n /\
    forall i, (i < n)%nat -> sumn n (fun j => low A i j * p.[j]) = r.[i].
Proof.
  intros (M1 & M2 & M3) LA W Lr De. cbn [ldl_lin ls_compute ls_solve]. rewrite M1, M2, M3. set (M := kkt_at n _).
  assert (Sy : forall i j, M i j = M j i) by apply kkt_at_sym. assert (EM : forall i j, (i < n)%nat -> (j < n)%nat -> M i j = low A i j) by (intros; apply kkt_at_low; assumption).
  assert (DM : definite n M (1 / 10000)).
  { intros v. eapply Rle_trans; [apply De|]. apply Req_le. apply sumn_ext. intros i Li. apply sumn_ext. intros j Lj. rewrite EM by assumption. reflexivity. }
  rewrite (ldl_unperturbed fuel n M _ _ Sy DM). cbn [fst l_M ld_d ld_g]. rewrite map_length, Lr.
  destruct (pivots_definite n M (1 / 10000) Sy ltac:(lra) DM) as (D & HD & _).
  eexists. split; [reflexivity|]. split; [apply ldl_length|]. intros i Li.
  rewrite (pivots_ext n M (regularized n M 0 0)) in HD by (intros; symmetry; apply regularized_0).
  pose proof (ldl_exact n _ (fun i => real (@nth XR i (map Fin r) (Fin 0))) D HD i Li) as Ex. cbv beta in Ex.
  rewrite (nth_map_lt Fin r i 0 (Fin 0)) in Ex by lia. cbn [real] in Ex. rewrite <- Ex. apply sumn_ext. intros j Lj. rewrite regularized_0, EM by assumption. reflexivity.
Qed.
