(** Proofs for C97: Newton's method on uniformly convex functions. *)
From Coq Require Import ZArith Reals List Bool Arith Lia Lra.
From Verif Require Import Base ExprModel ExprReal ExprXR NumModel UtilModel KktModel FilterModel FilterProofs ExitModel SolverModel SolverSpec SolverProofs NewtonModel NewtonSpec NewtonProofs NewtonXR XArith FinEval LinR KktSpec KktProofs ScaleProofs IpmShape ProbSolveKkt2
  QuadSpec QuadProofs LdlModel LdlProofs DownSpec DownLin DownProofs RateLin.
Import ListNotations.
Local Open Scope R_scope.

Lemma halve_X (a : R) : halve (S := Xn) (Fin a) = Fin (a / 2).
Proof. unfold halve. rewrite xlit, xmul. change (IZR (10 ^ Z.of_nat 1)) with 10. f_equal. lra. Qed.
Lemma amin_X : n_amin (S := Xn) = Fin (1 / IZR (10 ^ 20)).
Proof. unfold n_amin. rewrite xlit. reflexivity. Qed.
Lemma flag_good flt b : good flt -> good (with_flag flt b).
Proof. intros H. exact H. Qed.

Lemma fv_fin (l : list R) : all_fin (S := Xn) (fv l) = true.
Proof. unfold all_fin, fv. induction l as [|a l IH]; [reflexivity|]. exact IH. Qed.
Lemma fm_fin (M : list (list R)) : mat_fin (S := Xn) (fm M) = true.
Proof. unfold mat_fin, fm. induction M as [|r M IH]; [reflexivity|]. cbn [map forallb]. rewrite fv_fin. exact IH. Qed.

Section Run.
Context {U : Type}.
Variables (fl : nat) (E0 : env Xn) (o : options Xn) (t : R) (P : nprob Xn) (cbs : list (callback Xn U)) (log : U -> list (call Xn)) (n : nat) (f m L : R).
Variables (V : list R -> R) (G : list R -> list R) (A : list R -> list (list R)).
Let E := with_ldl fl E0.
(** The calls of callbacks so far can be read off the callbacks' state. *)
Hypothesis Lo : forall i u c, In c (log (fst (run_callbacks cbs i u))) -> In c (log u) \/ snd (fst c) = i.
Hypothesis En : np_n P = n.
Hypothesis Es : np_sc P = fsc f [] [].
Hypothesis Pf : 0 < f.
Hypothesis Ht : o_tol o = Fin t.
Hypothesis Pt : 0 < t.
Hypothesis Pm : 1 / 10000 <= m.
Hypothesis PL : m <= L <= m * 1000000000000000000.
Hypothesis Hf : forall y, length y = n -> np_f P (fv y) = Fin (V y).
Hypothesis Hg : forall y, length y = n -> np_g P (fv y) = fv (G y) /\ length (G y) = n.
Hypothesis HH : forall y, length y = n -> np_H P (fv y) = fm (A y) /\ length (A y) = n /\ (forall w, In w (A y) -> length w = n).
Hypothesis Hm : forall y, length y = n -> definite n (low (A y)) m.
Hypothesis HL : forall y v, length y = n -> form n (low (A y)) v <= L * norm_sq n v.
Hypothesis Tm : forall y z, length y = n -> length z = n -> V y + sumn n (fun i => (G y).[i] * (z.[i] - y.[i])) + m / 2 * norm_sq n (fun i => z.[i] - y.[i]) <= V z.
Hypothesis TL : forall y z, length y = n -> length z = n -> V z <= V y + sumn n (fun i => (G y).[i] * (z.[i] - y.[i])) + L / 2 * norm_sq n (fun i => z.[i] - y.[i]).

Definition steep2 (y : list R) : R := norm_sq n (fun i => (G y).[i]).
(** The step gains at least this much. *)
Definition gain (y y' : list R) : Prop := length y' = n /\ V y' <= V y - 1 / 100000000 * (m / (2 * L)) * (steep2 y / L).
Definition is_steep (y : list R) : Prop := exists i, (i < n)%nat /\ t < Rabs ((G y).[i] / f).

Lemma step_len (y q : list R) (a : R) : length y = n -> length q = n -> length (vadd (S := Rn) y (vscale (S := Rn) a q) : list R) = n.
Proof. intros Ly Lq. unfold vadd. rewrite (vmap2_length_R Rplus), vscale_len. lia. Qed.
Lemma step_nth (y q : list R) (a : R) i : length y = n -> length q = n -> (vadd (S := Rn) y (vscale (S := Rn) a q) : list R).[i] = y.[i] + a * q.[i].
Proof. intros Ly Lq. rewrite vadd_nth by (rewrite vscale_len; lia). rewrite vscale_nth. reflexivity. Qed.
Lemma step_upper (y q : list R) (a : R) : length y = n -> length q = n ->
  V (vadd (S := Rn) y (vscale (S := Rn) a q)) <= V y + a * sumn n (fun i => (G y).[i] * q.[i]) + a * a * (L / 2) * norm_sq n (fun i => q.[i]).
Proof.
  intros Ly Lq. eapply Rle_trans; [apply (TL y); [exact Ly|apply step_len; assumption]|]. apply Req_le. f_equal; [f_equal|].
  - rewrite <- sumn_scal. apply sumn_ext. intros i _. rewrite step_nth by assumption. ring.
  - replace (norm_sq n (fun i => (vadd (S := Rn) y (vscale (S := Rn) a q) : list R).[i] - y.[i])) with (a * a * norm_sq n (fun i => q.[i])); [ring|].
    unfold norm_sq. rewrite <- sumn_scal. apply sumn_ext. intros i _. rewrite step_nth by assumption. ring.
Qed.
(** The line search: the step size found is 1 or more than half of m / L. *)
Lemma search_rate j : forall fuel y q r flt, length y = n -> length q = n -> good flt -> 0 < r <= 1 -> m / (2 * L) <= r -> r <= m / L * 2 ^ j ->
  let d := sumn n (fun i => (G y).[i] * q.[i]) in d < 0 -> m * norm_sq n (fun i => q.[i]) <= - d ->
  ((fuel <= j)%nat /\ newton_search (S := Xn) P fuel (fv y) (Fin (V y)) (fv (G y)) (fv q) (Fin d) (Fin r) flt = OutOfFuel) \/
  exists (a : R) (flt' : filter Xn), good flt' /\ m / (2 * L) <= a <= 1 /\ V (vadd (S := Rn) y (vscale (S := Rn) a q)) <= V y + 1 / 100000000 * a * d /\
    newton_search (S := Xn) P fuel (fv y) (Fin (V y)) (fv (G y)) (fv q) (Fin d) (Fin r) flt = Ok (NStep (S := Xn) (fv (vadd (S := Rn) y (vscale (S := Rn) a q))) (np_f P (fv (vadd (S := Rn) y (vscale (S := Rn) a q)))) (Fin a) flt').
Proof.
  assert (PLL : 0 < L) by lra. assert (Pmm : 0 < m) by lra.
  assert (Low : 1 / IZR (10 ^ 20) <= m / (2 * L)).
  { change (IZR (10 ^ 20)) with 100000000000000000000. apply Rmult_le_reg_r with (2 * L); [lra|]. replace (m / (2 * L) * (2 * L)) with m by (field; lra). lra. }
  induction j as [|j IH]; intros fuel y q r flt Ly Lq Gf Pr Hr Hj d Nd Hq; (destruct fuel as [|fuel]; [left; split; [lia|reflexivity]|]).
  - cbn [newton_search]. cbv zeta. unfold vstep. rewrite vscale_f, vadd_f. set (z := vadd (S := Rn) y (vscale (S := Rn) r q)). assert (Lz : length z = n) by (apply step_len; assumption).
    rewrite (Hf z Lz). change (s_finite Xn (Fin (V z))) with true. cbn [negb].
    assert (Ar : V z <= V y + 1 / 100000000 * r * d).
    { eapply Rle_trans; [apply step_upper; assumption|]. fold d. cbn [pow] in Hj. rewrite Rmult_1_r in Hj.
      assert (r * L <= m). { apply Rmult_le_reg_r with (/ L); [apply Rinv_0_lt_compat, PLL|]. replace (r * L * / L) with r by (field; lra). exact Hj. }
      set (N := norm_sq n (fun i => q.[i])) in *. assert (0 <= N) by apply norm_sq_pos.
      assert (r * L * N <= m * N) by (apply Rmult_le_compat_r; lra). assert (r * (r * L * N) <= r * - d) by (apply Rmult_le_compat_l; lra). assert (r * d < 0) by (assert (0 < r * - d) by (apply Rmult_lt_0_compat; lra); lra). lra. }
    rewrite newton_accepts by (auto; lra). right. exists r, flt. split; [exact Gf|]. split; [lra|]. split; [exact Ar|]. fold z. rewrite (Hf z Lz). reflexivity.
  - cbn [newton_search]. cbv zeta. unfold vstep. rewrite vscale_f, vadd_f. set (z := vadd (S := Rn) y (vscale (S := Rn) r q)). assert (Lz : length z = n) by (apply step_len; assumption).
    rewrite (Hf z Lz). change (s_finite Xn (Fin (V z))) with true. cbn [negb].
    destruct (Rle_lt_dec (V z) (V y + 1 / 100000000 * r * d)) as [Ar|Ar].
    { rewrite newton_accepts by (auto; lra). right. exists r, flt. split; [exact Gf|]. split; [lra|]. split; [exact Ar|]. fold z. rewrite (Hf z Lz). reflexivity. }
    rewrite newton_rejects by (auto; lra). rewrite halve_X, amin_X, xltb.
    assert (Big : m / L < r).
    { destruct (Rle_lt_dec r (m / L)) as [C|C]; [|exact C]. exfalso. apply (Rlt_not_le _ _ Ar). eapply Rle_trans; [apply step_upper; assumption|]. fold d.
      assert (r * L <= m). { apply Rmult_le_reg_r with (/ L); [apply Rinv_0_lt_compat, PLL|]. replace (r * L * / L) with r by (field; lra). exact C. }
      set (N := norm_sq n (fun i => q.[i])) in *. assert (0 <= N) by apply norm_sq_pos.
      assert (r * L * N <= m * N) by (apply Rmult_le_compat_r; lra). assert (r * (r * L * N) <= r * - d) by (apply Rmult_le_compat_l; lra). assert (r * d < 0) by (assert (0 < r * - d) by (apply Rmult_lt_0_compat; lra); lra). lra. }
    assert (Hf2 : m / (2 * L) <= r / 2) by (replace (m / (2 * L)) with (m / L / 2) by (field; lra); lra).
    replace (R_ltb (r / 2) (1 / IZR (10 ^ 20))) with false by (symmetry; apply R_ltb_false; lra).
    cbn [pow] in Hj. destruct (IH fuel y q (r / 2) (with_flag flt false) Ly Lq (flag_good _ _ Gf) ltac:(lra) Hf2 ltac:(lra) Nd Hq) as [[Lf Of]|K]; [left; split; [apply le_n_S; exact Lf|exact Of]|right; exact K].
Qed.
Lemma steep_pos y : length y = n -> is_steep y -> 0 < steep2 y.
Proof.
  intros Ly (i & Li & Hi). unfold steep2, norm_sq. eapply Rlt_le_trans; [|apply (sumn_elem n (fun i => (G y).[i] * (G y).[i]) i); [intros; apply Rle_0_sqr|exact Li]].
  destruct (Req_dec ((G y).[i]) 0) as [Z|N]; [rewrite Z in Hi; unfold Rdiv in Hi; rewrite Rmult_0_l, Rabs_R0 in Hi; lra|]. apply (Rlt_0_sqr _ N).
Qed.
Lemma err_steep y : length y = n -> s_ltb Xn (Fin t) (unscaled_newton (S := Xn) (np_sc P) (np_g P (fv y))) = true <-> is_steep y.
Proof.
  intros Ly. destruct (Hg y Ly) as (-> & Lg). rewrite Es, unscaled_newton_f by lra. rewrite xltb, R_ltb_true.
  pose proof (c41_newton n (map (fun x => x / f) (G y)) (G y) f t ltac:(rewrite map_length; exact Lg) Lg Pf) as K.
  assert (K1 : forall i, (i < n)%nat -> (map (fun x => x / f) (G y)).[i] = (G y).[i] / f) by (intros i Li; rewrite (nth_map_lt _ (G y) i 0 0) by lia; reflexivity).
  specialize (K ltac:(intros j Lj; rewrite K1 by exact Lj; field; lra) ltac:(lra)).
  split.
  - intros H. assert (N : ~ (forall j, (j < n)%nat -> Rabs ((G y).[j] / f) <= t)).
    { intros C. apply (Rlt_not_le _ _ H). apply K. intros j Lj. rewrite K1 by exact Lj. apply C, Lj. }
    clear - N. assert (Q : forall k, (forall j, (j < k)%nat -> Rabs ((G y).[j] / f) <= t) \/ exists i, (i < k)%nat /\ t < Rabs ((G y).[i] / f)).
    { induction k as [|k [IH|(i & Li & Hi)]]; [left; lia| |right; exists i; split; [lia|exact Hi]]. destruct (Rle_lt_dec (Rabs ((G y).[k] / f)) t) as [C|C]; [left|right; exists k; split; [lia|exact C]].
      intros j Lj. destruct (Nat.eq_dec j k) as [->|]; [exact C|apply IH; lia]. }
    destruct (Q n) as [C|C]; [contradiction|exact C].
  - intros (i & Li & Hi). apply Rnot_le_lt. intros C. apply (proj1 K) with (j := i) in C; [|exact Li]. rewrite K1 in C by exact Li. lra.
Qed.
Lemma step_gain y ls fuel flt : length y = n -> made_for n ls -> good flt -> is_steep y ->
  let p := ls_solve (e_lin E) (fst (ls_compute (e_lin E) ls (mkKkt (S := Xn) (np_H P (fv y)) []))) (vneg (S := Xn) (np_g P (fv y))) in
  ((fuel <= 60)%nat /\ newton_search (S := Xn) P fuel (fv y) (np_f P (fv y)) (np_g P (fv y)) p (vdot (S := Xn) (np_g P (fv y)) p) (s_ofZ Xn 1) flt = OutOfFuel) \/
  exists y' a flt', good flt' /\ gain y y' /\
    newton_search (S := Xn) P fuel (fv y) (np_f P (fv y)) (np_g P (fv y)) p (vdot (S := Xn) (np_g P (fv y)) p) (s_ofZ Xn 1) flt = Ok (NStep (S := Xn) (fv y') (np_f P (fv y')) a flt').
Proof.
  intros Ly Mf Gf St p. destruct (Hg y Ly) as (Eg & Lg). destruct (HH y Ly) as (EA & LA & WA).
  assert (Sy : forall i j, low (A y) i j = low (A y) j i) by (intros i j; unfold low; rewrite (Nat.max_comm i j), (Nat.min_comm i j); reflexivity).
  destruct (made_solves fl n ls (A y) (map Ropp (G y)) Mf LA WA ltac:(rewrite map_length; exact Lg)) as (q & Eq & Lq & Sq).
  { intros v. eapply Rle_trans; [|apply (Hm y Ly)]. apply Rmult_le_compat_r; [apply norm_sq_pos|exact Pm]. }
  assert (p = fv q) as ->. { unfold p. rewrite Eg, EA, vneg_f. exact Eq. }
  destruct (step_slope n (low (A y)) m L (fun i => (G y).[i]) (fun i => q.[i]) Sy ltac:(lra) ltac:(lra) (Hm y Ly) (fun v => HL y v Ly)) as [D1 D2].
  { intros i Li. rewrite (Sq i Li). apply (nth_map_lt Ropp (G y) i 0 0). lia. }
  set (d := sumn n (fun i => (G y).[i] * q.[i])) in *. fold (steep2 y) in D1. pose proof (steep_pos y Ly St) as PS.
  assert (Nd : d < 0). { apply Rnot_le_lt. intros C. assert (L * - d <= 0) by (assert (0 <= L * d) by (apply Rmult_le_pos; lra); lra). lra. }
  rewrite Eg, (Hf y Ly), vdot_f. rewrite vdot_R by lia. rewrite Lg. fold d. change (s_ofZ Xn 1) with (Fin 1).
  destruct (search_rate 60 fuel y q 1 flt Ly Lq Gf ltac:(lra)) as [[Lf Of]|(a & flt' & Gf' & Ha & Va & Sr)]; [| |exact Nd|exact D2| |].
  - apply Rmult_le_reg_r with (2 * L); [lra|]. replace (m / (2 * L) * (2 * L)) with m by (field; lra). lra.
  - apply Rmult_le_reg_r with L; [lra|]. replace (m / L * 2 ^ 60 * L) with (m * 2 ^ 60) by (field; lra). rewrite (pow_IZR 2 60). change (2 ^ Z.of_nat 60)%Z with 1152921504606846976%Z. lra.
  - left. split; [exact Lf|exact Of].
  - fold d in Va, Sr. right. exists (vadd (S := Rn) y (vscale (S := Rn) a q)), (Fin a : Xn), flt'. split; [exact Gf'|]. split; [|exact Sr]. split; [apply step_len; assumption|].
    assert (D3 : steep2 y / L <= - d). { apply Rmult_le_reg_r with L; [lra|]. replace (steep2 y / L * L) with (steep2 y) by (field; lra). lra. }
    assert (0 <= m / (2 * L)) by (apply Rlt_le, Rdiv_lt_0_compat; lra). assert (0 < steep2 y / L) by (apply Rdiv_lt_0_compat; lra).
    assert (m / (2 * L) * (steep2 y / L) <= a * - d) by (apply Rmult_le_compat; lra). lra.
Qed.

(** What the gains add up to. *)
Definition rate : R := 1 - m * m / (100000000 * L * L).
Lemma rate_range : 0 < rate < 1.
Proof.
  unfold rate. assert (0 < m * m / (100000000 * L * L) < 1); [|lra]. assert (0 < m * m) by (apply Rmult_lt_0_compat; lra). assert (m * m <= L * L) by (apply Rmult_le_compat; lra).
  split; [apply Rdiv_lt_0_compat; lra|]. apply Rmult_lt_reg_r with (100000000 * L * L); [lra|]. replace (m * m / (100000000 * L * L) * (100000000 * L * L)) with (m * m) by (field; lra). lra.
Qed.
Lemma low_end y z : length y = n -> length z = n -> 2 * m * (V y - V z) <= steep2 y.
Proof.
  intros Ly Lz. pose proof (Tm y z Ly Lz) as K. unfold steep2. 
  assert (Q : 0 <= norm_sq n (fun i => (G y).[i] + m * (z.[i] - y.[i]))) by apply norm_sq_pos.
  replace (norm_sq n (fun i => (G y).[i] + m * (z.[i] - y.[i]))) with (norm_sq n (fun i => (G y).[i]) + 2 * m * sumn n (fun i => (G y).[i] * (z.[i] - y.[i])) + m * m * norm_sq n (fun i => z.[i] - y.[i])) in Q.
  - set (S1 := sumn n _) in *. set (N := norm_sq n (fun i => z.[i] - y.[i])) in *. assert (m * (V y + S1 + m / 2 * N) <= m * V z) by (apply Rmult_le_compat_l; lra). lra.
  - unfold norm_sq. rewrite <- !sumn_scal, <- !sumn_plus. apply sumn_ext. intros i _. ring.
Qed.
Lemma gain_rate y y' z : length y = n -> gain y y' -> length z = n -> V y' - V z <= rate * (V y - V z).
Proof.
  intros Ly (_ & Ga) Lz. pose proof (low_end y z Ly Lz) as K. unfold rate. assert (PLL : 0 < L) by lra.
  replace ((1 - m * m / (100000000 * L * L)) * (V y - V z)) with (V y - V z - 1 / 100000000 * (m / (2 * L)) * (2 * m * (V y - V z) / L)) by (field; lra).
  assert (2 * m * (V y - V z) / L <= steep2 y / L) by (apply Rmult_le_compat_r; [apply Rlt_le, Rinv_0_lt_compat, PLL|exact K]).
  assert (0 <= m / (2 * L)) by (apply Rlt_le, Rdiv_lt_0_compat; lra).
  assert (m / (2 * L) * (2 * m * (V y - V z) / L) <= m / (2 * L) * (steep2 y / L)) by (apply Rmult_le_compat_l; assumption). lra.
Qed.
Lemma high_end y : length y = n -> exists z, length z = n /\ steep2 y <= 2 * L * (V y - V z).
Proof.
  intros Ly. assert (PLL : 0 < L) by lra. destruct (Hg y Ly) as (_ & Lg). exists (vadd (S := Rn) y (vscale (S := Rn) (- / L) (G y))). split; [apply step_len; assumption|].
  pose proof (step_upper y (G y) (- / L) Ly Lg) as K. fold (steep2 y) in K. change (sumn n (fun i => (G y).[i] * (G y).[i])) with (steep2 y) in K.
  set (z := V (vadd (S := Rn) y (vscale (S := Rn) (- / L) (G y)))) in *. replace (V y + - / L * steep2 y + - / L * - / L * (L / 2) * steep2 y) with (V y - steep2 y / (2 * L)) in K by (field; lra).
  assert (2 * L * (steep2 y / (2 * L)) = steep2 y) by (field; lra). assert (2 * L * z <= 2 * L * (V y - steep2 y / (2 * L))) by (apply Rmult_le_compat_l; lra). lra.
Qed.

(** The points so far: each gained on the one before, and all but the last are steep. *)
Record run_so_far (y0 : list R) (ys : list (list R)) (y : list R) : Prop := mkRun {
  rs_0 : nth_error ys 0 = Some y0; rs_l : nth_error ys (length ys - 1) = Some y; rs_n : length y = n;
  rs_c : chain (fun a b => length a = n /\ is_steep a /\ gain a b) ys }.
Lemma run_one y0 : length y0 = n -> run_so_far y0 [y0] y0.
Proof. intros Ly. constructor; auto. intros [|k] a b _ H; cbn in H; [discriminate|destruct k; discriminate]. Qed.
Lemma run_more y0 ys y y' : run_so_far y0 ys y -> is_steep y -> gain y y' -> run_so_far y0 (ys ++ [y']) y'.
Proof.
  intros [S0 Sl Sn Sc] St Ga. assert (Ly : ys <> []) by (intros ->; discriminate). assert (0 < length ys)%nat by (destruct ys; [contradiction|cbn; lia]).
  constructor.
  - rewrite nth_error_app1 by lia. exact S0.
  - rewrite app_length. cbn [length]. rewrite nth_error_app2 by lia. replace (length ys + 1 - 1 - length ys)%nat with 0%nat by lia. reflexivity.
  - apply Ga.
  - intros k a b Ha Hb. destruct (Nat.lt_ge_cases (S k) (length ys)) as [Lk|Lk].
    + rewrite nth_error_app1 in Ha, Hb by lia. exact (Sc k a b Ha Hb).
    + assert (S k < length (ys ++ [y']))%nat by (apply nth_error_Some; congruence). rewrite app_length in H0. cbn in H0. assert (k = length ys - 1)%nat by lia. subst k.
      rewrite nth_error_app1 in Ha by lia. rewrite Sl in Ha. injection Ha as <-. rewrite nth_error_app2 in Hb by lia. replace (S (length ys - 1) - length ys)%nat with 0%nat in Hb by lia. injection Hb as <-. auto.
Qed.
Lemma run_rate y0 ys y : run_so_far y0 ys y -> forall k a, nth_error ys k = Some a -> length a = n /\ forall z, length z = n -> V a - V z <= rate ^ k * (V y0 - V z).
Proof.
  intros [S0 Sl Sn Sc]. assert (L0 : length y0 = n). { destruct ys as [|a [|b ys]]; [discriminate| |]; cbn in S0; injection S0 as ->; [cbn in Sl; injection Sl as ->; exact Sn|]. exact (proj1 (Sc 0%nat y0 b eq_refl eq_refl)). }
  induction k as [|k IH]; intros a Ha; [rewrite S0 in Ha; injection Ha as <-; split; [exact L0|]; intros; cbn; lra|].
  destruct (nth_error ys k) as [b|] eqn:Hb; [|apply nth_error_None in Hb; assert (S k < length ys)%nat by (apply nth_error_Some; congruence); lia].
  destruct (IH b eq_refl) as [Lb Rb]. destruct (Sc k b a Hb Ha) as (_ & _ & Ga). split; [apply Ga|]. intros z Lz. specialize (Rb z Lz). pose proof (gain_rate b a z Lb Ga Lz) as K. pose proof rate_range.
  assert (rate * (V b - V z) <= rate * (rate ^ k * (V y0 - V z))) by (apply Rmult_le_compat_l; lra). cbn [pow]. lra.
Qed.
(** A bound on the slopes, and on the number of points. *)
Lemma run_slopes y0 ys y : run_so_far y0 ys y -> forall k a, nth_error ys k = Some a -> steep2 a <= L / m * rate ^ k * steep2 y0.
Proof.
  intros S k a Ha. destruct (run_rate _ _ _ S k a Ha) as [La Ra]. destruct (high_end a La) as (z & Lz & Hz). specialize (Ra z Lz).
  assert (L0 : length y0 = n) by exact (proj1 (run_rate _ _ _ S 0%nat y0 (rs_0 _ _ _ S))). pose proof (low_end y0 z L0 Lz) as K. pose proof rate_range as Rr. assert (Pk : 0 < rate ^ k) by (apply pow_lt; lra).
  assert (V y0 - V z <= steep2 y0 / (2 * m)). { apply Rmult_le_reg_r with (2 * m); [lra|]. replace (steep2 y0 / (2 * m) * (2 * m)) with (steep2 y0) by (field; lra). lra. }
  assert (rate ^ k * (V y0 - V z) <= rate ^ k * (steep2 y0 / (2 * m))) by (apply Rmult_le_compat_l; lra).
  replace (L / m * rate ^ k * steep2 y0) with (2 * L * (rate ^ k * (steep2 y0 / (2 * m)))) by (field; lra). eapply Rle_trans; [exact Hz|]. apply Rmult_le_compat_l; lra.
Qed.
Lemma steep_more a : is_steep a -> t * t * (f * f) < steep2 a.
Proof.
  intros (i & Li & Hi). unfold steep2, norm_sq. eapply Rlt_le_trans; [|apply (sumn_elem n (fun i => (G a).[i] * (G a).[i]) i); [intros; apply Rle_0_sqr|exact Li]].
  unfold Rdiv in Hi. rewrite Rabs_mult, (Rabs_right (/ f)) in Hi by (apply Rle_ge, Rlt_le, Rinv_0_lt_compat, Pf).
  assert (Ha : t * f < Rabs ((G a).[i])). { apply Rmult_lt_reg_r with (/ f); [apply Rinv_0_lt_compat, Pf|]. replace (t * f * / f) with t by (field; lra). exact Hi. }
  replace ((G a).[i] * (G a).[i]) with (Rabs ((G a).[i]) * Rabs ((G a).[i])) by (rewrite <- Rabs_mult; apply Rabs_right, Rle_ge, Rle_0_sqr).
  replace (t * t * (f * f)) with (t * f * (t * f)) by ring. assert (0 < t * f) by (apply Rmult_lt_0_compat; lra). apply Rmult_gt_0_lt_compat; lra.
Qed.
Lemma run_count y0 ys y K : run_so_far y0 ys y -> L / m * rate ^ K * steep2 y0 <= t * t * (f * f) -> (length ys <= S K)%nat.
Proof.
  intros S HK. destruct (Nat.le_gt_cases (length ys) (Datatypes.S K)) as [C|C]; [exact C|exfalso].
  destruct (nth_error ys K) as [a|] eqn:Ha; [|apply nth_error_None in Ha; lia]. destruct (nth_error ys (Datatypes.S K)) as [b|] eqn:Hb; [|apply nth_error_None in Hb; lia].
  destruct (rs_c _ _ _ S K a b Ha Hb) as (_ & St & _). pose proof (steep_more a St). pose proof (run_slopes _ _ _ S K a Ha). lra.
Qed.

(** The loop. *)
Definition r_inv (y0 : list R) (st : nstate E (U := U)) : Prop := exists ys y, run_so_far y0 ys y /\ n_it _ st = Z.of_nat (length ys - 1) /\ n_x _ st = fv y /\
  n_f _ st = np_f P (n_x _ st) /\ n_g _ st = np_g P (n_x _ st) /\ n_H _ st = np_H P (n_x _ st) /\ n_E _ st = unscaled_newton (S := Xn) (np_sc P) (np_g P (n_x _ st)) /\
  good (n_flt _ st) /\ made_for n (n_ls _ st) /\ (forall c, In c (log (n_u _ st)) -> shows_point ys c).
(** How it can end. *)
Definition r_end (start : Xn) (y0 : list R) (s : status) (st : nstate E (U := U)) : Prop := exists ys y, run_so_far y0 ys y /\ n_x _ st = fv y /\ (forall c, In c (log (n_u _ st)) -> shows_point ys c) /\
  ((s = SUCCESS /\ ~ is_steep y) \/ (s = DIVERGING_ITERATES /\ exists i, (i < n)%nat /\ 10000000000 < Rabs y.[i]) \/ (s = CALLBACK_REQUESTED_STOP /\ cbs <> []) \/
   (s = MAX_ITERATIONS_EXCEEDED /\ (o_max o <= Z.of_nat (length ys - 1))%Z) \/ (s = TIMEOUT /\ exists k, s_ltb Xn (o_timeout o) (s_sub Xn (e_clock E k) start) = true)).

Lemma body_rate fuel start y0 st : r_inv y0 st -> s_ltb Xn (o_tol o) (n_E _ st) = true ->
  ((fuel <= 60)%nat /\ newton_body E P cbs o fuel start st = OutOfFuel) \/ exists r, newton_body E P cbs o fuel start st = Ok r /\ match r with Next st' => r_inv y0 st' /\ n_it _ st' = (n_it _ st + 1)%Z | Exit s st' => s <> SUCCESS /\ r_end start y0 s st' end.
Proof.
  intros (ys & y & Sf & It & Ex & If & Ig & IH & IE & Im & Il & Lg) Le. unfold newton_body.
  destruct (diverging _) eqn:Ed. { right. eexists. split; [reflexivity|]. split; [discriminate|]. exists ys, y. split; [exact Sf|]. split; [exact Ex|]. split; [exact Lg|]. right; left. split; [reflexivity|]. rewrite Ex in Ed. rewrite <- (rs_n _ _ _ Sf). apply diverging_big, Ed. }
  assert (Lg' : forall c, In c (log (fst (run_callbacks cbs (newton_info E st) (n_u E st)))) -> shows_point ys c).
  { intros c Hc. apply Lo in Hc as [Hc|Hc]; [apply Lg, Hc|]. exists (length ys - 1)%nat, y. rewrite Hc. cbn [newton_info i_iter i_x]. split; [exact It|]. split; [apply Sf|exact Ex]. }
  assert (Na : cbs = [] -> snd (run_callbacks cbs (newton_info E st) (n_u E st)) = false) by (intros ->; reflexivity).
  destruct (run_callbacks _ _ _) as [u stop]. cbn [fst snd] in Lg', Na. destruct stop.
  { right. eexists. split; [reflexivity|]. split; [discriminate|]. exists ys, y. split; [exact Sf|]. split; [exact Ex|]. split; [exact Lg'|]. right; right; left. split; [reflexivity|]. intros C. specialize (Na C). discriminate. }
  cbv zeta. assert (St : is_steep y) by (apply err_steep; [apply Sf|]; rewrite <- Ex, <- IE, <- Ht; exact Le).
  destruct (step_gain y (n_ls _ st) fuel (n_flt _ st) (rs_n _ _ _ Sf) Il Im St) as [[Lf Of]|(y' & a & flt' & Gf & Ga & Se)]; [left; split; [exact Lf|]; cbv zeta in Of; rewrite If, Ig, IH, Ex, Of; reflexivity|].
  right. cbv zeta in Se. rewrite If, Ig, IH, Ex, Se. cbn [obind].
  assert (Sf' : run_so_far y0 (ys ++ [y']) y') by (eapply run_more; eassumption). assert (Ly : (0 < length ys)%nat) by (destruct ys; [destruct Sf; discriminate|cbn; lia]).
  set (st' := fun clk => mkN E (U := U) (fv y') (np_f P (fv y')) (np_g P (fv y')) (np_H P (fv y')) (unscaled_newton (S := Xn) (np_sc P) (np_g P (fv y'))) flt' (n_it E st + 1)%Z u
    (fst (ls_compute (e_lin E) (n_ls E st) (mkKkt (S := Xn) (np_H P (fv y)) []))) clk).
  assert (Q : forall clk, r_inv y0 (st' clk)).
  { intros clk. exists (ys ++ [y']), y'. cbn [st' n_x n_f n_g n_H n_E n_flt n_ls n_u n_it]. split; [exact Sf'|]. split; [rewrite It, app_length; cbn [length]; lia|]. do 5 (split; [reflexivity|]). split; [exact Gf|]. split; [apply made_compute, Il|].
    intros c Hc. apply shows_more, Lg', Hc. }
  unfold limits. destruct (Z.leb_spec (o_max o) (n_it E st + 1)) as [Hmx|Hmx].
  { eexists. split; [reflexivity|]. split; [discriminate|]. exists (ys ++ [y']), y'. split; [exact Sf'|]. split; [reflexivity|]. split; [intros c Hc; apply shows_more, Lg', Hc|]. right; right; right; left. split; [reflexivity|]. rewrite app_length. cbn [length]. lia. }
  destruct (s_ltb Xn (o_timeout o) _) eqn:Eto.
  { eexists. split; [reflexivity|]. split; [discriminate|]. exists (ys ++ [y']), y'. split; [exact Sf'|]. split; [reflexivity|]. split; [intros c Hc; apply shows_more, Lg', Hc|]. right; right; right; right. split; [reflexivity|]. eexists. exact Eto. }
  eexists. split; [reflexivity|]. cbn [finish]. split; [apply (Q (S (n_clk E st)))|reflexivity].
Qed.

Lemma newton_rate fuel y0 u clk : length y0 = n -> mat_dims (S := Xn) n n (np_H P (fv y0)) = true -> log u = [] ->
  (forall s fin, newton E P cbs o fuel (fv y0) u clk = Ok (s, fin) -> r_end (e_clock E clk) y0 s fin) /\
  (forall K, L / m * rate ^ K * steep2 y0 <= t * t * (f * f) -> (60 < fuel)%nat -> (K < fuel)%nat -> exists s fin, newton E P cbs o fuel (fv y0) u clk = Ok (s, fin)).
Proof.
  intros Ly Md Lu. destruct (Hg y0 Ly) as (Eg & Lg). destruct (HH y0 Ly) as (EA & _).
  assert (I0 : r_inv y0 (newton_init E P (fv y0) u clk)).
  { exists [y0], y0. cbn [newton_init n_x n_f n_g n_H n_E n_flt n_ls n_u n_it]. split; [apply run_one, Ly|]. do 6 (split; [reflexivity|]). split; [apply good_new|]. split; [rewrite En; apply made_new|rewrite Lu; intros c []]. }
  unfold newton. cbn [newton_init n_g n_H n_f]. rewrite En, Md, Eg, EA, (Hf y0 Ly), fv_fin, fm_fin. unfold vec_dim. rewrite fv_len, Lg, Nat.eqb_refl. cbn [andb orb negb oassert].
  change (s_finite Xn (Fin (V y0))) with true. cbn [negb orb]. set (st0 := newton_init E P (fv y0) u clk) in *. split.
  - intros s fin H. apply (drive_ok _ _ _ (r_inv y0)) in H.
    + destruct H as (st1 & I & [(-> & -> & Le)|(Le & B)]).
      * destruct I as (ys & y & Sf & It & Ex & _ & _ & _ & IE & _ & _ & Lgg). exists ys, y. split; [exact Sf|]. split; [exact Ex|]. split; [exact Lgg|]. left. split; [reflexivity|].
        intros C. apply err_steep in C; [|apply Sf]. rewrite <- Ex, <- IE, <- Ht in C. congruence.
      * destruct (body_rate fuel (e_clock E clk) y0 st1 I Le) as [[_ Br]|(r & Br & Hr)]; [congruence|]. rewrite B in Br. injection Br as <-. apply Hr.
    + intros st1 st2 I Le B. destruct (body_rate fuel (e_clock E clk) y0 st1 I Le) as [[_ Br]|(r & Br & Hr)]; [congruence|]. rewrite B in Br. injection Br as <-. apply Hr.
    + exact I0.
  - intros K HK Lfu LK.
    assert (Q : forall k st, r_inv y0 st -> (Z.of_nat K < Z.of_nat k + n_it _ st)%Z -> exists s fin, drive (n_E E) (o_tol o) (newton_body E P cbs o fuel (e_clock E clk)) k st = Ok (s, fin)).
    { induction k as [|k IH]; intros st I Hk.
      - destruct I as (ys & y & Sf & It & _). pose proof (run_count _ _ _ K Sf HK). lia.
      - cbn [drive]. destruct (s_ltb Xn (o_tol o) (n_E E st)) eqn:Le; [|eauto]. destruct (body_rate fuel (e_clock E clk) y0 st I Le) as [[C _]|(r & -> & Hr)]; [lia|]. cbn [obind]. destruct r as [s st'|st']; [eauto|]. apply IH; [apply Hr|]. lia. }
    apply Q; [exact I0|]. cbn [st0 newton_init n_it]. lia.
Qed.
End Run.
