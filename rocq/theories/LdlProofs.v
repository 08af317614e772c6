(** Proofs about exact LDL' factorization. *)
From Coq Require Import ZArith Reals List Bool Arith Lia Lra.
From Verif Require Import Base ExprModel ExprReal ExprXR NumModel UtilModel UtilSpec FilterProofs LdltProofs SolverModel LinR XArith QuadSpec LdlModel.
Import ListNotations.
Local Open Scope R_scope.

Lemma schur_sym M : (forall i j, M i j = M j i) -> forall i j, schur M i j = schur M j i.
Proof. intros Sy i j. unfold schur. rewrite (Sy (S i) (S j)), (Sy (S i) 0%nat), (Sy 0%nat (S j)). unfold Rdiv. ring. Qed.
Lemma form_S n M v : (forall i j, M i j = M j i) -> M 0%nat 0%nat <> 0 ->
  form (S n) M v = M 0%nat 0%nat * Rsqr (v 0%nat + sumn n (fun j => M 0%nat (S j) * v (S j)) / M 0%nat 0%nat) + form n (schur M) (fun i => v (S i)).
Proof.
  intros Sy Nz. unfold form. rewrite sumn_shift, sumn_shift. set (s := sumn n (fun j => M 0%nat (S j) * v (S j))).
  rewrite (sumn_ext n (fun j => M 0%nat (S j) * v 0%nat * v (S j)) (fun j => v 0%nat * (M 0%nat (S j) * v (S j)))) by (intros; ring). rewrite sumn_scal. fold s.
  rewrite (sumn_ext n (fun i => sumn (S n) (fun j => M (S i) j * v (S i) * v j)) (fun i => v 0%nat * (M 0%nat (S i) * v (S i)) + sumn n (fun j => M (S i) (S j) * v (S i) * v (S j)))).
  2:{ intros i _. rewrite sumn_shift. rewrite (Sy (S i) 0%nat). ring. }
  rewrite sumn_plus, sumn_scal. fold s.
  rewrite (sumn_ext n (fun i => sumn n (fun j => schur M i j * v (S i) * v (S j))) (fun i => sumn n (fun j => M (S i) (S j) * v (S i) * v (S j)) - s / M 0%nat 0%nat * (M 0%nat (S i) * v (S i)))).
  2:{ intros i _. rewrite (sumn_ext n (fun j => schur M i j * v (S i) * v (S j)) (fun j => M (S i) (S j) * v (S i) * v (S j) - M 0%nat (S i) * v (S i) / M 0%nat 0%nat * (M 0%nat (S j) * v (S j)))).
      - rewrite sumn_minus, sumn_scal. fold s. field. exact Nz.
      - intros j _. unfold schur. rewrite (Sy (S i) 0%nat). field. exact Nz. }
  rewrite sumn_minus, sumn_scal. fold s. unfold Rsqr. field. exact Nz.
Qed.

Lemma norm_sq_pos n v : 0 <= norm_sq n v. Proof. apply sumn_nonneg. intros. apply Rle_0_sqr. Qed.
Lemma pivots_length n : forall M D, pivots n M = Some D -> length D = n.
Proof.
  induction n as [|n IH]; intros M D H; cbn in H; [injection H as <-; reflexivity|]. destruct (Req_EM_T _ 0); [discriminate|]. destruct (pivots n (schur M)) as [D'|] eqn:P; [|discriminate]. injection H as <-. cbn. f_equal. exact (IH _ _ P).
Qed.
(** A definite matrix has a definite Schur complement, so its pivots are at least the modulus. *)
Lemma pivots_definite n : forall M m, (forall i j, M i j = M j i) -> 0 < m -> definite n M m -> exists D, pivots n M = Some D /\ forall x, In x D -> m <= x.
Proof.
  induction n as [|n IH]; intros M m Sy Pm De; [exists []; split; [reflexivity|intros ? []]|]. cbn [pivots].
  assert (P0 : m <= M 0%nat 0%nat).
  { specialize (De (fun i => if Nat.eqb i 0 then 1 else 0)). unfold norm_sq, form in De. rewrite !sumn_shift in De. cbn [Nat.eqb] in De.
    rewrite (sumn_0 n (fun i => 0 * 0)) in De by (intros; ring). rewrite (sumn_0 n (fun j => M 0%nat (S j) * 1 * 0)) in De by (intros; ring).
    rewrite (sumn_0 n (fun i => sumn (S n) (fun j => M (S i) j * 0 * (if Nat.eqb j 0 then 1 else 0)))) in De; [lra|]. intros i _. apply sumn_0. intros; ring. }
  destruct (Req_EM_T (M 0%nat 0%nat) 0) as [Z|Nz]; [lra|].
  destruct (IH (schur M) m (schur_sym M Sy) Pm) as (D & -> & HD).
  - intros v. set (s := sumn n (fun j => M 0%nat (S j) * v j)).
    pose (w := fun i => match i with O => - (s / M 0%nat 0%nat) | S i => v i end). specialize (De w). rewrite (form_S n M w Sy Nz) in De.
    change (sumn n (fun j => M 0%nat (S j) * w (S j))) with s in De. change (fun i => w (S i)) with v in De. change (w 0%nat) with (- (s / M 0%nat 0%nat)) in De.
    replace (- (s / M 0%nat 0%nat) + s / M 0%nat 0%nat) with 0 in De by ring. unfold norm_sq in De. rewrite sumn_shift in De. cbn [w] in De. fold (norm_sq n v) in De.
    change (sumn n (fun i => v i * v i)) with (norm_sq n v) in De. pose proof (Rle_0_sqr (- (s / M 0%nat 0%nat))) as P1. unfold Rsqr in *.
    assert (0 <= m * (- (s / M 0%nat 0%nat) * - (s / M 0%nat 0%nat))) by (apply Rmult_le_pos; lra). lra.
  - exists (M 0%nat 0%nat :: D). split; [reflexivity|]. intros x [<-|I]; auto.
Qed.
Lemma zero_or n (f : nat -> R) : (forall j, (j < n)%nat -> f j = 0) \/ exists j, (j < n)%nat /\ f j <> 0.
Proof.
  induction n as [|n [IH|(j & L & N)]]; [left; lia| |right; exists j; split; [lia|exact N]]. destruct (Req_dec (f n) 0) as [Z|N]; [left|right; exists n; auto].
  intros j L. destruct (Nat.eq_dec j n) as [->|]; [exact Z|apply IH; lia].
Qed.
(** Positive pivots: the matrix is positive definite. *)
Lemma pivots_positive n : forall M D, (forall i j, M i j = M j i) -> pivots n M = Some D -> (forall x, In x D -> 0 < x) ->
  forall v, 0 <= form n M v /\ ((exists i, (i < n)%nat /\ v i <> 0) -> 0 < form n M v).
Proof.
  induction n as [|n IH]; intros M D Sy H PD v; [split; [unfold form; cbn; lra|intros (i & L & _); lia]|]. cbn [pivots] in H.
  destruct (Req_EM_T (M 0%nat 0%nat) 0) as [|Nz]; [discriminate|]. destruct (pivots n (schur M)) as [D'|] eqn:P; [|discriminate]. injection H as <-.
  destruct (IH (schur M) D' (schur_sym M Sy) P (fun x I => PD x (or_intror I)) (fun i => v (S i))) as [A B]. specialize (PD _ (or_introl eq_refl)).
  rewrite (form_S n M v Sy Nz). set (q := v 0%nat + _). assert (0 <= M 0%nat 0%nat * Rsqr q) by (apply Rmult_le_pos; [lra|apply Rle_0_sqr]). split; [lra|].
  intros (i & L & Nv). destruct (zero_or n (fun j => v (S j))) as [E|N].
  - assert (forall j, (j < n)%nat -> v (S j) = 0) as E' by exact E. destruct i as [|i]; [|exfalso; apply Nv, E'; lia].
    unfold q in *. rewrite (sumn_0 n) in * by (intros j Lj; rewrite E' by exact Lj; ring). assert (0 < Rsqr (v 0%nat + 0 / M 0%nat 0%nat)) by (apply Rlt_0_sqr; unfold Rdiv; lra).
    assert (0 < M 0%nat 0%nat * Rsqr (v 0%nat + 0 / M 0%nat 0%nat)) by (apply Rmult_lt_0_compat; lra). lra.
  - specialize (B N). lra.
Qed.

Lemma ldl_length n : forall M r, length (ldl_solve n M r) = n.
Proof. induction n as [|n IH]; intros M r; cbn; [reflexivity|]. f_equal. apply IH. Qed.
(** Elimination and back substitution solve the system when no pivot is 0. *)
Lemma ldl_exact n : forall M r D, pivots n M = Some D -> forall i, (i < n)%nat -> sumn n (fun j => M i j * (ldl_solve n M r).[j]) = r i.
Proof.
  induction n as [|n IH]; intros M r D H i L; [lia|]. cbn [pivots] in H. destruct (Req_EM_T (M 0%nat 0%nat) 0) as [|Nz]; [discriminate|].
  destruct (pivots n (schur M)) as [D'|] eqn:P; [|discriminate]. cbn [ldl_solve]. set (p := ldl_solve n (schur M) _). set (s := sumn n (fun j => M 0%nat (S j) * p.[j])).
  rewrite sumn_shift. cbn [nth]. destruct i as [|i]; [fold s; field; exact Nz|].
  specialize (IH (schur M) (fun i => r (S i) - M (S i) 0%nat / M 0%nat 0%nat * r 0%nat) D' P i ltac:(lia)). fold p in IH.
  rewrite (sumn_ext n _ (fun j => M (S i) (S j) * p.[j] - M (S i) 0%nat / M 0%nat 0%nat * (M 0%nat (S j) * p.[j]))) in IH by (intros j _; unfold schur; field; exact Nz).
  rewrite sumn_minus, sumn_scal in IH. fold s in IH. match goal with |- _ + ?X = _ => replace X with (r (S i) - M (S i) 0%nat / M 0%nat 0%nat * r 0%nat + M (S i) 0%nat / M 0%nat 0%nat * s) by (rewrite <- IH; ring) end.
  field. exact Nz.
Qed.
(** With positive pivots the solution of M p = - g goes downhill. *)
Lemma ldl_descends n M D g : (forall i j, M i j = M j i) -> pivots n M = Some D -> (forall x, In x D -> 0 < x) ->
  let p := ldl_solve n M (fun i => - g i) in sumn n (fun i => g i * p.[i]) <= 0 /\ ((exists i, (i < n)%nat /\ g i <> 0) -> sumn n (fun i => g i * p.[i]) < 0).
Proof.
  intros Sy H PD p. pose proof (ldl_exact n M (fun i => - g i) D H) as Ex. fold p in Ex.
  assert (F : form n M (fun i => p.[i]) = - sumn n (fun i => g i * p.[i])).
  { transitivity (sumn n (fun i => -1 * (g i * p.[i]))); [|rewrite sumn_scal; ring]. unfold form. apply sumn_ext. intros i L. rewrite (sumn_ext n _ (fun j => p.[i] * (M i j * p.[j]))) by (intros; ring). rewrite sumn_scal, (Ex i L). ring. }
  destruct (pivots_positive n M D Sy H PD (fun i => p.[i])) as [A B]. rewrite F in A, B. split; [lra|]. intros (i & L & N).
  destruct (zero_or n (fun i => p.[i])) as [Z|N']; [|specialize (B N'); lra]. exfalso. specialize (Ex i L). rewrite sumn_0 in Ex by (intros j Lj; rewrite Z by exact Lj; ring). lra.
Qed.

(** The linear solver of the model. *)
Lemma kkt_at_sym n k i j : kkt_at n k i j = kkt_at n k j i.
Proof. unfold kkt_at. rewrite (Nat.max_comm i j), (Nat.min_comm i j). reflexivity. Qed.
Lemma kkt_at_low n A B i j : (i < n)%nat -> (j < n)%nat -> length A = n -> (forall w, In w A -> length w = n) -> kkt_at n (mkKkt (S := Xn) (map (map Fin) A) B) i j = low A i j.
Proof.
  intros Li Lj LA W. unfold kkt_at, low. cbn [k_tl]. replace (Nat.ltb (Nat.max i j) n) with true by (symmetry; apply Nat.ltb_lt; lia).
  assert (M : (Nat.max i j < length A)%nat) by lia.
  change (real (@nth XR (Nat.min i j) (@nth (list XR) (Nat.max i j) (map (map Fin) A) []) (Fin 0)) = nth (Nat.min i j) (nth (Nat.max i j) A []) 0).
  rewrite (nth_map_lt (map Fin) A (Nat.max i j) [] []) by exact M. rewrite (nth_map_lt Fin _ (Nat.min i j) 0 (Fin 0)); [reflexivity|]. rewrite W; [lia|]. apply nth_In. exact M.
Qed.
Lemma regularized_sym n M d g : (forall i j, M i j = M j i) -> forall i j, regularized n M d g i j = regularized n M d g j i.
Proof. intros Sy i j. unfold regularized. rewrite (Nat.eqb_sym j i). destruct (Nat.eqb_spec i j) as [->|]; [reflexivity|apply Sy]. Qed.
Lemma regularized_0 n M i j : regularized n M 0 0 i j = M i j.
Proof. unfold regularized. destruct (Nat.eqb i j); [|reflexivity]. destruct (Nat.ltb i n); lra. Qed.
Lemma pivots_ext n : forall M N, (forall i j, (i < n)%nat -> (j < n)%nat -> M i j = N i j) -> pivots n M = pivots n N.
Proof.
  induction n as [|n IH]; intros M N H; [reflexivity|]. cbn [pivots]. rewrite <- (H 0%nat 0%nat) by lia. rewrite <- (IH (schur M) (schur N)); [reflexivity|].
  intros i j Li Lj. unfold schur. rewrite !H by lia. reflexivity.
Qed.
Lemma signs_positive n D : length D = n -> (forall x, In x D -> tiny < x) -> signs n 0 D.
Proof.
  intros L H. unfold signs, count. pose proof tiny_pos. repeat split.
  - replace (filter (fun x => R_ltb tiny x) D) with D; [exact L|]. clear L. induction D as [|x D IH]; [reflexivity|]. cbn [filter]. assert (R_ltb tiny x = true) as -> by (apply R_ltb_true, H; left; reflexivity). f_equal. apply IH. intros y I. apply H. right. exact I.
  - clear L. induction D as [|x D IH]; [reflexivity|]. cbn [filter]. assert (R_ltb x (- tiny) = false) as -> by (apply R_ltb_false; specialize (H x (or_introl eq_refl)); lra). apply IH. intros y I. apply H. right. exact I.
  - intros x I. specialize (H x I). rewrite Rabs_pos_eq; lra.
Qed.

Lemma ldl_sizes fuel E ls b : length (ls_solve (e_lin (with_ldl fuel E)) ls b) = length b.
Proof. cbn. rewrite map_length. apply ldl_length. Qed.
Lemma lit4 : lit (S := Rn) 1 4 = 1 / IZR (10 ^ 4). Proof. reflexivity. Qed.
(** Definite matrices are not perturbed. *)
Lemma ldl_unperturbed fuel n M gmin prev : (forall i j, M i j = M j i) -> definite n M (1 / 10000) ->
  ldlt_compute (S := Rn) fuel (fun d g => pivots (n + 0) (regularized n M d g)) n 0 gmin prev = Ok (mkLd (S := Rn) true 0 0).
Proof.
  intros Sy De. unfold ldlt_compute. destruct (pivots_definite n M (1 / 10000) Sy ltac:(lra) De) as (D & HD & B). rewrite Nat.add_0_r.
  rewrite (pivots_ext n _ M) by (intros; apply regularized_0). rewrite HD. pose proof (pivots_length n M D HD) as LD.
  assert (T : tiny < 1 / 10000). { unfold tiny. apply Rmult_lt_compat_l; [lra|]. apply Rinv_lt_contravar; [apply Rmult_lt_0_compat; apply IZR_lt; reflexivity|apply IZR_lt; reflexivity]. }
  replace (inertia_eqb (inertia_of (S := Rn) D) (mkIn n 0 0)) with true by (symmetry; apply ideal_signs, signs_positive; [exact LD|intros x I; specialize (B x I); lra]).
  replace (forallb _ D) with true; [reflexivity|]. symmetry. apply forallb_forall. intros x I. specialize (B x I). apply R_leb_true. rewrite lit4. change (IZR (10 ^ 4)) with 10000. cbn [s_abs Rn]. rewrite Rabs_pos_eq; lra.
Qed.
Lemma ldl_definite fuel E n : exact_on_definite (with_ldl fuel E) n.
Proof.
  intros A r LA W Lr De. cbn [with_ldl e_lin ldl_lin ls_new ls_compute ls_solve l_n l_m l_gmin l_prev]. set (M := kkt_at n _).
  assert (Sy : forall i j, M i j = M j i) by apply kkt_at_sym. assert (EM : forall i j, (i < n)%nat -> (j < n)%nat -> M i j = low A i j) by (intros; apply kkt_at_low; assumption).
  assert (DM : definite n M (1 / 10000)).
  { intros v. eapply Rle_trans; [apply De|]. apply Req_le. apply sumn_ext. intros i Li. apply sumn_ext. intros j Lj. rewrite EM by assumption. reflexivity. }
  rewrite (ldl_unperturbed fuel n M _ _ Sy DM). cbn [fst l_M ld_d ld_g]. rewrite map_length, Lr.
  destruct (pivots_definite n M (1 / 10000) Sy ltac:(lra) DM) as (D & HD & _).
  eexists. split; [reflexivity|]. split; [apply ldl_length|]. intros i Li.
  rewrite (pivots_ext n M (regularized n M 0 0)) in HD by (intros; symmetry; apply regularized_0).
  pose proof (ldl_exact n _ (fun i => real (@nth XR i (map Fin r) (Fin 0))) D HD i Li) as Ex. cbv beta in Ex.
  rewrite (nth_map_lt Fin r i 0 (Fin 0)) in Ex by lia. cbn [real] in Ex. rewrite <- Ex. apply sumn_ext. intros j Lj. rewrite regularized_0, EM by assumption. reflexivity.
Qed.
