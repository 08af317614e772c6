(** Proofs for C89: Newton's method on a definite quadratic. *)
From Coq Require Import ZArith QArith Reals List Bool Arith Lia Lra.
From Verif Require Import Base ExprModel ExprReal ExprXR NumModel UtilModel KktModel FilterModel FilterProofs ExitModel SolverModel SolverSpec SolverProofs NewtonModel XArith XQ FinEval LinR KktSpec KktProofs ScaleProofs IpmShape RunY ProbEarly ProbSolveKkt2 ProbSolveRun SmoothSpec
  ProblemSpec QuadSpec.
Import ListNotations.
Local Open Scope R_scope.

Section Algebra.
Variables (n : nat) (Q : nat -> nat -> R) (b : nat -> R) (c : R).
Hypothesis Sy : forall i j, Q i j = Q j i.
Definition quad (y : nat -> R) : R := 1 / 2 * form n Q y + sumn n (fun i => b i * y i) + c.
Definition slope (y : nat -> R) (i : nat) : R := sumn n (fun j => Q i j * y j) + b i.
Lemma form_add y d : form n Q (fun i => y i + d i) = form n Q y + 2 * sumn n (fun i => sumn n (fun j => Q i j * y j) * d i) + form n Q d.
Proof.
  unfold form.
  assert (A : forall i, sumn n (fun j => Q i j * (y i + d i) * (y j + d j)) = sumn n (fun j => Q i j * y i * y j) + (sumn n (fun j => Q i j * y j) * d i + (sumn n (fun j => Q i j * d j * y i) + sumn n (fun j => Q i j * d i * d j)))).
  { intros i. rewrite (Rmult_comm _ (d i)), <- sumn_scal. rewrite <- !sumn_plus. apply sumn_ext. intros j _. ring. }
  rewrite (sumn_ext n _ _ (fun i _ => A i)). rewrite !sumn_plus.
  assert (B : sumn n (fun i => sumn n (fun j => Q i j * d j * y i)) = sumn n (fun i => sumn n (fun j => Q i j * y j) * d i)).
  { rewrite sumn_swap. apply sumn_ext. intros i _. rewrite (Rmult_comm _ (d i)), <- sumn_scal. apply sumn_ext. intros j _. rewrite (Sy j i). ring. }
  rewrite B. lra.
Qed.
Lemma quad_add y d : quad (fun i => y i + d i) = quad y + sumn n (fun i => slope y i * d i) + 1 / 2 * form n Q d.
Proof.
  unfold quad. rewrite form_add. unfold slope. rewrite (sumn_ext n (fun i => b i * (y i + d i)) (fun i => b i * y i + b i * d i)) by (intros; ring). rewrite sumn_plus.
  rewrite (sumn_ext n (fun i => (sumn n (fun j => Q i j * y j) + b i) * d i) (fun i => sumn n (fun j => Q i j * y j) * d i + b i * d i)) by (intros; ring). rewrite sumn_plus. lra.
Qed.
Lemma slope_add y d i : slope (fun i => y i + d i) i = slope y i + sumn n (fun j => Q i j * d j).
Proof. unfold slope. rewrite (sumn_ext n (fun j => Q i j * (y j + d j)) (fun j => Q i j * y j + Q i j * d j)) by (intros; ring). rewrite sumn_plus. lra. Qed.
Lemma slope_ext y z i : (forall j, (j < n)%nat -> y j = z j) -> slope y i = slope z i.
Proof. intros H. unfold slope. f_equal. apply sumn_ext. intros j L. rewrite H by exact L. reflexivity. Qed.
Lemma form_ext y z : (forall j, (j < n)%nat -> y j = z j) -> form n Q y = form n Q z.
Proof. intros H. unfold form. apply sumn_ext. intros i Li. apply sumn_ext. intros j Lj. rewrite !H by assumption. reflexivity. Qed.
Lemma quad_ext y z : (forall j, (j < n)%nat -> y j = z j) -> quad y = quad z.
Proof. intros H. unfold quad. rewrite (form_ext y z H). do 2 f_equal. apply sumn_ext. intros i L. rewrite H by exact L. reflexivity. Qed.
Lemma form_single k s : (k < n)%nat -> form n Q (fun i => if Nat.eqb i k then s else 0) = s * s * Q k k.
Proof.
  intros L. unfold form.
  assert (A : forall m (g : nat -> R), (k < m)%nat -> sumn m (fun j => if Nat.eqb j k then g j else 0) = g k).
  { induction m as [|m IH]; intros g Lm; [lia|]. cbn [sumn]. destruct (Nat.eqb_spec m k) as [->|Ne]; [|rewrite IH by lia; lra].
    rewrite sumn_0; [lra|]. intros i Hi. destruct (Nat.eqb_spec i k); [lia|reflexivity]. }
  rewrite (sumn_ext n _ (fun i => if Nat.eqb i k then s * s * Q k k else 0)).
  - apply (A n (fun _ => s * s * Q k k) L).
  - intros i _. destruct (Nat.eqb_spec i k) as [->|Ne].
    + rewrite (sumn_ext n _ (fun j => if Nat.eqb j k then Q k j * s * s else 0)); [rewrite (A n (fun j => Q k j * s * s) L); ring|]. intros j _. destruct (Nat.eqb j k); ring.
    + apply sumn_0. intros; ring.
Qed.
Lemma sum_single k s (g : nat -> R) : (k < n)%nat -> sumn n (fun i => g i * (if Nat.eqb i k then s else 0)) = g k * s.
Proof.
  intros L. revert L. generalize n as m. induction m as [|m IH]; intros L; [lia|]. cbn [sumn]. destruct (Nat.eqb_spec m k) as [->|Ne]; [|rewrite IH by lia; lra].
  rewrite sumn_0; [lra|]. intros i Hi. destruct (Nat.eqb_spec i k); [lia|ring].
Qed.
Lemma quad_upd y k t : (k < n)%nat -> quad (fun i => if Nat.eqb i k then t else y i) = quad y + (t - y k) * slope y k + 1 / 2 * (t - y k) * (t - y k) * Q k k.
Proof.
  intros L. rewrite (quad_ext _ (fun i => y i + (if Nat.eqb i k then t - y k else 0))); [|intros j _; destruct (Nat.eqb_spec j k) as [->|]; lra].
  rewrite (quad_add y (fun i => if Nat.eqb i k then t - y k else 0)). rewrite (form_single k (t - y k) L), (sum_single k (t - y k) (slope y) L). ring.
Qed.
Lemma slope_upd y k t i : (k < n)%nat -> slope (fun j => if Nat.eqb j k then t else y j) i = slope y i + (t - y k) * Q i k.
Proof.
  intros L. rewrite (slope_ext _ (fun j => y j + (if Nat.eqb j k then t - y k else 0))); [|intros j _; destruct (Nat.eqb_spec j k) as [->|]; lra].
  rewrite (slope_add y (fun j => if Nat.eqb j k then t - y k else 0)). rewrite (sum_single k (t - y k) (Q i) L). ring.
Qed.
(** Where the slopes vanish is the minimum. *)
Lemma flat_min m y z : definite n Q m -> (forall i, (i < n)%nat -> slope y i = 0) -> quad y + m / 2 * norm_sq n (fun i => z i - y i) <= quad z.
Proof.
  intros D F. rewrite (quad_ext z (fun i => y i + (z i - y i))) by (intros; ring). rewrite (quad_add y (fun i => z i - y i)). rewrite (sumn_0 n (fun i => slope y i * (z i - y i))) by (intros i L; rewrite F by exact L; ring).
  specialize (D (fun i => z i - y i)). lra.
Qed.
End Algebra.

Lemma vdot_f (a d : list R) : vdot (S := Xn) (fv a) (fv d) = Fin (vdot (S := Rn) a d).
Proof. unfold vdot. rewrite (vmap2_f (s_mul Xn) Rmult) by reflexivity. apply vsum_f. Qed.
Lemma vneg_f (a : list R) : vneg (S := Xn) (fv a) = fv (map Ropp a).
Proof. apply map_f. reflexivity. Qed.
Lemma vscale_len (a : R) (p : list R) : @length R (vscale (S := Rn) a p) = length p. Proof. apply (map_length (Rmult a)). Qed.
Lemma fm_eq A : fm A = map (map Fin) A. Proof. reflexivity. Qed.

Section Run.
Context {U : Type}.
Variables (E : env Xn) (o : options Xn) (t : R) (P : nprob Xn) (cbs : list (callback Xn U)) (n : nat) (Q : nat -> nat -> R) (b : nat -> R) (c f m : R).
Hypothesis Sy : forall i j, Q i j = Q j i.
Hypothesis En : np_n P = n.
Hypothesis Es : np_sc P = fsc f [] [].
Hypothesis Pf : 0 < f.
Hypothesis Ht : o_tol o = Fin t.
Hypothesis Pt : 0 < t.
Hypothesis De : definite n Q m.
Hypothesis Fm : 1 / 10000 <= f * m.
Hypothesis Ex : exact_on_definite E n.
Hypothesis Hf : forall y, length y = n -> np_f P (fv y) = Fin (f * quad n Q b c (fun i => y.[i])).
Hypothesis Hg : forall y, length y = n -> exists g, np_g P (fv y) = fv g /\ length g = n /\ forall i, (i < n)%nat -> g.[i] = f * slope n Q b (fun i => y.[i]) i.
Hypothesis HH : forall y, length y = n -> exists A, np_H P (fv y) = fm A /\ length A = n /\ (forall w, In w A -> length w = n) /\ forall i j, (i < n)%nat -> (j < n)%nat -> low A i j = f * Q i j.

Definition steepness (y : list R) (i : nat) : R := slope n Q b (fun i => y.[i]) i.
Lemma err_flat y : length y = n -> s_ltb Xn (Fin t) (unscaled_newton (S := Xn) (np_sc P) (np_g P (fv y))) = false <-> forall i, (i < n)%nat -> Rabs (steepness y i) <= t.
Proof.
  intros L. destruct (Hg y L) as (g & -> & Lg & Eg). rewrite Es, unscaled_newton_f by lra. rewrite xltb, R_ltb_false.
  rewrite (c41_newton n (map (steepness y) (seq 0 n)) g f t); [|rewrite map_length, seq_length; reflexivity|exact Lg|exact Pf| |lra].
  - split; intros H i Li; specialize (H i Li); rewrite (nth_map_lt _ _ i 0%nat) in * by (rewrite seq_length; exact Li); rewrite seq_nth in * by exact Li; exact H.
  - intros i Li. rewrite (nth_map_lt _ _ i 0%nat) by (rewrite seq_length; exact Li). rewrite seq_nth by exact Li. apply Eg, Li.
Qed.

Lemma newton_step y : length y = n -> let ls := ls_new (e_lin E) n 0 false in exists p, ls_solve (e_lin E) (fst (ls_compute (e_lin E) ls (mkKkt (S := Xn) (np_H P (fv y)) []))) (vneg (S := Xn) (np_g P (fv y))) = fv p /\ length p = n /\
  forall i, (i < n)%nat -> steepness y i + sumn n (fun j => Q i j * p.[j]) = 0.
Proof.
  intros L ls. destruct (Hg y L) as (g & Eg & Lg & Vg). destruct (HH y L) as (A & EA & LA & WA & VA). rewrite Eg, EA, vneg_f, fm_eq.
  destruct (Ex A (map Ropp g) LA WA ltac:(rewrite map_length; exact Lg)) as (p & Ep & Lp & Vp).
  - intros v. unfold form. rewrite (sumn_ext n _ (fun i => f * sumn n (fun j => Q i j * v i * v j))).
    + rewrite sumn_scal. specialize (De v). unfold form in De. assert (0 <= norm_sq n v) by (apply sumn_nonneg; intros; apply Rle_0_sqr). nra.
    + intros i Li. rewrite <- sumn_scal. apply sumn_ext. intros j Lj. rewrite VA by assumption. ring.
  - exists p. split; [exact Ep|]. split; [exact Lp|]. intros i Li. specialize (Vp i Li).
    rewrite (nth_map_lt Ropp g i 0 0) in Vp by lia. rewrite Vg in Vp by exact Li.
    rewrite (sumn_ext n _ (fun j => f * (Q i j * p.[j]))) in Vp by (intros j Lj; rewrite VA by assumption; ring). rewrite sumn_scal in Vp. change (slope n Q b (fun i0 => y.[i0]) i) with (steepness y i) in Vp.
    apply Rmult_eq_reg_l with f; [|lra]. lra.
Qed.

Lemma newton_moves y flt fuel : length y = n -> f_entries flt = [] -> s_ltb Xn (f_max flt) (Fin 0) = false -> (0 < fuel)%nat ->
  let g := np_g P (fv y) in let ls := ls_new (e_lin E) n 0 false in
  let p := ls_solve (e_lin E) (fst (ls_compute (e_lin E) ls (mkKkt (S := Xn) (np_H P (fv y)) []))) (vneg (S := Xn) g) in
  exists (y' : list R) (flt' : filter Xn) (a : Xn), length y' = n /\ (forall i, (i < n)%nat -> steepness y' i = 0) /\
    newton_search (S := Xn) P fuel (fv y) (np_f P (fv y)) g p (vdot (S := Xn) g p) (s_ofZ Xn 1) flt = Ok (NStep (S := Xn) (fv y') (np_f P (fv y')) a flt').
Proof.
  intros L Fe Fx Hfu. cbv zeta. destruct (newton_step y L) as (p & -> & Lp & Vp). destruct fuel as [|fuel]; [lia|]. cbn [newton_search].
  pose (y' := (vadd (S := Rn) y (vscale (S := Rn) 1 p) : list R)). assert (Ly' : length y' = n).
  { unfold y', vadd. rewrite (vmap2_length_R Rplus). rewrite vscale_len. lia. }
  assert (Ny : forall i, y'.[i] = y.[i] + p.[i]). { intros i. unfold y'. rewrite vadd_nth by (rewrite vscale_len; lia). rewrite vscale_nth. lra. }
  assert (Ev : vstep (S := Xn) (fv y) (s_ofZ Xn 1) (fv p) = fv y'). { unfold vstep. change (s_ofZ Xn 1) with (Fin 1). rewrite vscale_f, vadd_f. reflexivity. }
  rewrite Ev. destruct (Hg y L) as (g & Eg & Lg & Vg). rewrite Eg, vdot_f. rewrite (Hf y L), (Hf y' Ly').
  assert (Fl : forall i, (i < n)%nat -> steepness y' i = 0).
  { intros i Li. rewrite <- (Vp i Li). unfold steepness. rewrite (slope_ext n Q b _ (fun j => y.[j] + p.[j])) by (intros; apply Ny). apply slope_add. }
  set (G := sumn n (fun i => steepness y i * p.[i])).
  assert (Dv : vdot (S := Rn) g p = f * G).
  { rewrite vdot_R by lia. rewrite Lg. unfold G. rewrite <- sumn_scal. apply sumn_ext. intros i Li. rewrite Vg by exact Li. unfold steepness. ring. }
  assert (Qp : form n Q (fun i => p.[i]) = - G).
  { unfold G, form. rewrite <- (Rmult_1_l (sumn n (fun i => steepness y i * p.[i]))), <- Ropp_mult_distr_l_reverse, <- sumn_scal. apply sumn_ext. intros i Li. specialize (Vp i Li).
    rewrite (sumn_ext n _ (fun j => p.[i] * (Q i j * p.[j]))) by (intros; ring). rewrite sumn_scal. nra. }
  assert (NG : G <= 0). { specialize (De (fun i => p.[i])). assert (0 <= norm_sq n (fun i => p.[i])) by (apply sumn_nonneg; intros; apply Rle_0_sqr). assert (0 < m) by (destruct (Rlt_le_dec 0 m) as [|C]; [assumption|exfalso; nra]). rewrite Qp in De. assert (0 <= m * norm_sq n (fun i => p.[i])) by (apply Rmult_le_pos; lra). lra. }
  assert (Vq : quad n Q b c (fun i => y'.[i]) = quad n Q b c (fun i => y.[i]) + 1 / 2 * G).
  { rewrite (quad_ext n Q b c _ (fun j => y.[j] + p.[j])) by (intros; apply Ny). rewrite (quad_add n Q b c Sy (fun j => y.[j]) (fun j => p.[j])), Qp. change (sumn n (fun i => slope n Q b (fun j => y.[j]) i * p.[i])) with G. lra. }
  rewrite Vq, Dv. set (q := quad n Q b c (fun i => y.[i])).
  change (s_finite Xn (Fin (f * (q + 1 / 2 * G)))) with true. cbn [negb].
  match goal with |- context [try_add ?F ?C ?T ?D ?A] => destruct (add_ok F C T D A) as (flt' & Ea) end.
  - reflexivity.
  - exact Fx.
  - exact Fe.
  - intros _. unfold armijo. cbn [fe_newton fe_cost]. rewrite q_lit. cbn -[Qred Rle_dec Rmult Rplus].
    replace (Q2R (Qred (inject_Z 1 / inject_Z 100000000))) with (1 / 100000000)%R by (cbn; unfold Q2R; cbn; lra).
    apply xleb. assert (f * G <= 0) by nra. lra.
  - unfold sufficient. apply orb_true_intro. left. unfold margin. cbn [fe_newton fe_cost fe_viol].
    assert (Ep : s_pow Xn (s_ofZ Xn 1) (lit 15 1) = Fin 1) by apply one_pow. rewrite Ep. unfold g_cost. rewrite q_lit. cbn -[Qred Rle_dec Rmult Rplus].
    apply xleb. rewrite Rmult_0_r. assert (f * G <= 0) by nra. lra.
  - exists y', flt', (s_ofZ Xn 1). split; [exact Ly'|]. split; [exact Fl|]. rewrite Ea. rewrite (Hf y' Ly'), Vq. reflexivity.
Qed.

Lemma diverging_big y : diverging (S := Xn) (fv y) = true -> exists i, (i < length y)%nat /\ 10000000000 < Rabs y.[i].
Proof.
  unfold diverging. rewrite fv_fin. cbn [negb]. rewrite orb_false_r, norminf_f. change (s_ofZ Xn 10000000000) with (Fin (IZR 10000000000)). rewrite xltb. intros H. apply R_ltb_true in H.
  destruct (norminf_attained y) as [K|(x & I & K)]; rewrite K in H; [lra|]. apply (In_nth _ _ 0) in I as (i & Li & <-). exists i. auto.
Qed.
Lemma newton_quad fuel y0 u clk : length y0 = n -> mat_dims (S := Xn) n n (np_H P (fv y0)) = true ->
  match newton (U := U) E P cbs o fuel (fv y0) u clk with
  | OutOfFuel => (fuel < 2)%nat
  | Ok (st, fin) => exists y, n_x E fin = fv y /\ length y = n /\
    ((st = SUCCESS /\ y = y0 /\ n_u E fin = u /\ forall i, (i < n)%nat -> Rabs (steepness y0 i) <= t) \/
     (st = DIVERGING_ITERATES /\ y = y0 /\ n_u E fin = u /\ exists i, (i < n)%nat /\ 10000000000 < Rabs y0.[i]) \/
     exists i, n_u E fin = fst (run_callbacks cbs i u) /\
       ((st = CALLBACK_REQUESTED_STOP /\ y = y0 /\ snd (run_callbacks cbs i u) = true) \/
        ((forall i, (i < n)%nat -> steepness y i = 0) /\ snd (run_callbacks cbs i u) = false /\
         (st = SUCCESS \/ (st = MAX_ITERATIONS_EXCEEDED /\ (o_max o <= 1)%Z) \/ (st = TIMEOUT /\ s_ltb Xn (o_timeout o) (s_sub Xn (e_clock E (S clk)) (e_clock E clk)) = true)))))
  | _ => False
  end.
Proof.
  intros L Md. destruct (Hg y0 L) as (g & Eg & Lg & _). destruct (HH y0 L) as (A & EA & _).
  unfold newton. cbn [newton_init n_g n_H n_f]. rewrite En, Md, Eg, EA, (Hf y0 L), fv_fin, fm_fin. unfold vec_dim. rewrite fv_len, Lg, Nat.eqb_refl. cbn [andb orb negb oassert].
  change (s_finite Xn (Fin (f * quad n Q b c (fun i => y0.[i])))) with true. cbn [negb orb].
  destruct fuel as [|fuel]; [cbn; lia|]. cbn [drive newton_init n_E]. rewrite Ht.
  destruct (s_ltb Xn (Fin t) _) eqn:Et.
  2: { cbv beta iota. exists y0. split; [reflexivity|]. split; [exact L|]. left. split; [reflexivity|]. split; [reflexivity|]. split; [reflexivity|]. apply err_flat; assumption. }
  unfold newton_body at 1. cbn [newton_init n_x n_u n_flt n_ls n_H n_g n_f n_clk n_it]. set (inf := newton_info _ _). clearbody inf.
  destruct (diverging (S := Xn) (fv y0)) eqn:Ed.
  { cbv beta iota. exists y0. split; [reflexivity|]. split; [exact L|]. right; left. split; [reflexivity|]. split; [reflexivity|]. split; [reflexivity|]. rewrite <- L. apply diverging_big, Ed. }
  pose proof (surjective_pairing (run_callbacks cbs inf u)) as Ec. destruct (run_callbacks cbs inf u) as [u' stop] eqn:Ec'. clear Ec. destruct stop.
  { cbv beta iota. exists y0. split; [reflexivity|]. split; [exact L|]. right; right. exists inf. rewrite Ec'. split; [reflexivity|]. left. auto. }
  destruct (newton_moves y0 (filter_new (s_ofZ Xn 0)) (S fuel) L eq_refl) as (y & flt & a & Ly & Fl & Es'); [|lia|].
  { unfold filter_new. cbn [f_max]. change (s_ofZ Xn 0) with (Fin 0). qeval. reflexivity. }
  cbv zeta in Es'. rewrite ?En, Es'. cbn [obind]. unfold limits. destruct (Z.leb_spec (o_max o) (0 + 1)) as [Hm|Hm]; cbv beta iota.
  { cbn [SolverModel.finish]. cbv beta iota. exists y. split; [reflexivity|]. split; [exact Ly|]. right; right. exists inf. rewrite Ec'. split; [reflexivity|]. right. split; [exact Fl|]. split; [reflexivity|]. right; left. split; [reflexivity|lia]. }
  destruct (s_ltb Xn (o_timeout o) _) eqn:Eto; cbn [SolverModel.finish obind].
  { cbv beta iota. exists y. split; [reflexivity|]. split; [exact Ly|]. right; right. exists inf. rewrite Ec'. split; [reflexivity|]. right. split; [exact Fl|]. split; [reflexivity|]. right; right. split; reflexivity. }
  destruct fuel as [|fuel]; [cbn; lia|]. cbn [drive n_E]. 
  rewrite (proj2 (err_flat y Ly)) by (intros i Li; rewrite (Fl i Li), Rabs_R0; lra).
  cbv beta iota. exists y. split; [reflexivity|]. split; [exact Ly|]. right; right. exists inf. rewrite Ec'. split; [reflexivity|]. right. auto.
Qed.
End Run.
