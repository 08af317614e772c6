(** Proofs for C90: steps of Newton's method. *)
From Coq Require Import ZArith QArith Reals List Bool Arith Lia Lra.
From Verif Require Import Base ExprModel ExprReal ExprXR NumModel UtilModel KktModel FilterModel FilterProofs ExitModel SolverModel SolverSpec SolverProofs NewtonModel NewtonSpec NewtonProofs NewtonXR XArith FinEval LinR KktSpec KktProofs ScaleProofs IpmShape ProbSolveKkt2
  QuadSpec QuadProofs LdlModel LdlProofs DownSpec DownLin.
Import ListNotations.
Local Open Scope R_scope.

Lemma accepted_armijo {S : nops} (flt : filter S) cur trial d a flt' : s_leb S (fe_viol cur) (f_min flt) = true -> switching cur d a = true -> try_add flt cur trial d a = (flt', true) -> armijo cur trial d a = true.
Proof.
  intros L Sw H. unfold try_add in H. destruct (_ || _) in H; [discriminate|]. cbv zeta in H. rewrite L, Sw in H. cbn [andb] in H. destruct (armijo cur trial d a); [reflexivity|]. cbn in H. discriminate.
Qed.

Section Run.
Context {U : Type}.
Variables (fl : nat) (E0 : env Xn) (o : options Xn) (t : R) (P : nprob Xn) (cbs : list (callback Xn U)) (n : nat) (f : R).
Let E := with_ldl fl E0.
Hypothesis Lf : (40 <= fl)%nat.
Hypothesis En : np_n P = n.
Hypothesis Es : np_sc P = fsc f [] [].
Hypothesis Pf : 0 < f.
Hypothesis Ht : o_tol o = Fin t.
Hypothesis Pt : 0 < t.
Hypothesis Hf : forall y, length y = n -> exists v, np_f P (fv y) = Fin v.
Hypothesis Hg : forall y, length y = n -> exists g, np_g P (fv y) = fv g /\ length g = n.
Hypothesis HH : forall y, length y = n -> exists A, np_H P (fv y) = fm A /\ length A = n /\ (forall w, In w A -> length w = n).

(** What a step achieves, for the functions the solver is given. *)
Definition tame_P (y : list R) : Prop := forall A, np_H P (fv y) = fm A -> forall i j, (i < n)%nat -> (j < n)%nat -> INR n * Rabs (low A i j) <= 1000000000000.
Definition down (y y' : list R) : Prop := length y' = n /\ (tame_P y ->
  (exists v v', np_f P (fv y) = Fin v /\ np_f P (fv y') = Fin v' /\ v' < v) \/
  (exists g g', np_g P (fv y) = fv g /\ np_g P (fv y') = fv g' /\ norm1 (S := Rn) g' <= 999 / 1000 * norm1 (S := Rn) g)).

Lemma fv_inj a b : fv a = fv b -> a = b.
Proof. revert b. induction a as [|x a IH]; intros [|y b] H; try discriminate; [reflexivity|]. injection H as -> H. f_equal. apply IH, H. Qed.
Lemma steep_nz y g : length y = n -> np_g P (fv y) = fv g -> length g = n -> s_ltb Xn (Fin t) (unscaled_newton (S := Xn) (np_sc P) (np_g P (fv y))) = true -> exists i, (i < n)%nat /\ g.[i] <> 0.
Proof.
  intros L Eg Lg H. destruct (zero_or n (fun i => g.[i])) as [Z|N]; [|exact N]. exfalso. rewrite Eg, Es, unscaled_newton_f in H by lra. rewrite xltb in H. apply R_ltb_true in H.
  pose proof (c41_newton n (map (fun _ => 0) (seq 0 n)) g f t ltac:(rewrite map_length, seq_length; reflexivity) Lg Pf) as K.
  assert (K2 : forall i, (i < n)%nat -> (map (fun _ => 0) (seq 0 n)).[i] = 0) by (intros i Li; rewrite (nth_map_lt _ _ i 0%nat) by (rewrite seq_length; exact Li); reflexivity).
  specialize (K ltac:(intros i Li; rewrite K2, Z by exact Li; ring) ltac:(lra)). apply (Rlt_not_le _ _ H), K. intros i Li. rewrite K2 by exact Li. rewrite Rabs_R0. lra.
Qed.
Lemma step_down y ls fuel flt x' f' a' flt' : length y = n -> made_for n ls -> f_min flt = f_min (filter_new (s_ofZ Xn 0)) ->
  s_ltb Xn (Fin t) (unscaled_newton (S := Xn) (np_sc P) (np_g P (fv y))) = true ->
  let p := ls_solve (e_lin E) (fst (ls_compute (e_lin E) ls (mkKkt (S := Xn) (np_H P (fv y)) []))) (vneg (S := Xn) (np_g P (fv y))) in
  newton_search (S := Xn) P fuel (fv y) (np_f P (fv y)) (np_g P (fv y)) p (vdot (S := Xn) (np_g P (fv y)) p) (s_ofZ Xn 1) flt = Ok (NStep (S := Xn) x' f' a' flt') ->
  f' = np_f P x' /\ f_min flt' = f_min (filter_new (s_ofZ Xn 0)) /\ exists y', x' = fv y' /\ down y y'.
Proof.
  intros L Mf Fm St p H. destruct (Hg y L) as (g & Eg & Lg). destruct (HH y L) as (A & EA & LA & WA).
  assert (Ep : exists q, p = fv q /\ length q = n /\ (tame_P y -> sumn n (fun i => g.[i] * q.[i]) < 0)).
  { unfold p. rewrite Eg, EA, vneg_f. assert (Q : exists q, ls_solve (e_lin E) (fst (ls_compute (e_lin E) ls (mkKkt (S := Xn) (fm A) []))) (fv (map Ropp g)) = fv q /\ length q = n).
    { unfold E. cbn [with_ldl e_lin ldl_lin ls_solve]. eexists. split; [reflexivity|]. rewrite ldl_length, fv_len, map_length. exact Lg. }
    destruct Q as (q & Eq & Lq). exists q. split; [exact Eq|]. split; [exact Lq|]. intros Tm.
    destruct (direction_down fl n ls A g Lf Mf LA WA Lg (fun i j Li Lj => Tm A EA i j Li Lj)) as (q' & Eq' & _ & Ds).
    assert (q' = q) as -> by (apply fv_inj; rewrite <- Eq; symmetry; exact Eq'). apply Ds. exact (steep_nz y g L Eg Lg St). }
  destruct Ep as (q & -> & Lq & Ds). apply (search_spec P fuel (fv y) (fv q) 0) in H; [|exact Fm]. destruct H as (A1 & A2 & A3). split; [exact A1|]. split; [exact A2|].
  assert (Lv : forall a : R, length (vadd (S := Rn) y (vscale (S := Rn) a q) : list R) = n) by (intros a; unfold vadd; rewrite (vmap2_length_R Rplus), vscale_len; lia).
  destruct A3 as [(k & fl1 & fl2 & M1 & -> & Ff & T)|(-> & N)].
  - rewrite half_power_X in *. exists (vadd (S := Rn) y (vscale (S := Rn) (/ 2 ^ k) q)). assert (Ev : vadd (S := Xn) (fv y) (vscale (S := Xn) (Fin (/ 2 ^ k)) (fv q)) = fv (vadd (S := Rn) y (vscale (S := Rn) (/ 2 ^ k) q))) by (rewrite vscale_f, vadd_f; reflexivity).
    split; [exact Ev|]. split; [apply Lv|]. intros Tm. specialize (Ds Tm). left. rewrite Ev in T. destruct (Hf y L) as (v & Ev0). destruct (Hf _ (Lv (/ 2 ^ k))) as (v' & Ev1). exists v, v'. split; [exact Ev0|]. split; [exact Ev1|].
    rewrite Ev0, Ev1, Eg, vdot_f in T. rewrite vdot_R in T by lia. rewrite Lg in T. set (d := sumn n _) in *. assert (Pk : 0 < / 2 ^ k) by (apply Rinv_0_lt_compat, pow_lt; lra).
    apply accepted_armijo in T; [| |apply switching_X; auto].
    + rename T into Ar. unfold armijo in Ar. cbn [fe_cost] in Ar. rewrite xlit, !xmul, xadd in Ar. apply xleb in Ar.
      change (IZR (10 ^ Z.of_nat 8)) with 100000000 in Ar. assert (/ 2 ^ k * d < 0) by (assert (0 < / 2 ^ k * - d) by (apply Rmult_lt_0_compat; lra); lra). lra.
    + rewrite M1. change (s_ofZ Xn 0) with (Fin 0). rewrite (proj1 filter_X). apply xleb. lra.
  - exists (vadd (S := Rn) y (vscale (S := Rn) 1 q)). assert (Ev : vadd (S := Xn) (fv y) (vscale (S := Xn) (s_ofZ Xn 1) (fv q)) = fv (vadd (S := Rn) y (vscale (S := Rn) 1 q))) by (change (s_ofZ Xn 1) with (Fin 1); rewrite vscale_f, vadd_f; reflexivity).
    split; [exact Ev|]. split; [apply Lv|]. intros _. right. rewrite Ev in N. destruct (Hg _ (Lv 1)) as (g' & Eg' & Lg'). exists g, g'. split; [exact Eg|]. split; [exact Eg'|].
    rewrite Eg, Eg', !norm1_f, xlit, xmul in N. apply xleb in N. change (IZR (10 ^ Z.of_nat 3)) with 1000 in N. exact N.
Qed.

(** The points so far, the last of which is the current one. *)
Definition so_far (y0 : list R) (ys : list (list R)) (y : list R) : Prop := nth_error ys 0 = Some y0 /\ nth_error ys (length ys - 1) = Some y /\ chain down ys /\ length y = n.
Lemma so_far_one y0 : length y0 = n -> so_far y0 [y0] y0.
Proof. intros L. split; [reflexivity|]. split; [reflexivity|]. split; [|exact L]. intros [|k] a b _ H; cbn in H; [discriminate|destruct k; discriminate]. Qed.
Lemma so_far_more y0 ys y y' : so_far y0 ys y -> down y y' -> so_far y0 (ys ++ [y']) y'.
Proof.
  intros (A & B & C & D) Dn. assert (Ly : ys <> []) by (intros ->; discriminate). assert (0 < length ys)%nat by (destruct ys; [contradiction|cbn; lia]).
  split; [rewrite nth_error_app1 by lia; exact A|]. rewrite app_length. cbn [length]. split; [rewrite nth_error_app2 by lia; replace (length ys + 1 - 1 - length ys)%nat with 0%nat by lia; reflexivity|].
  split; [|exact (proj1 Dn)]. intros k a b Ha Hb. destruct (Nat.lt_ge_cases (S k) (length ys)) as [L|L].
  - rewrite nth_error_app1 in Ha, Hb by lia. exact (C k a b Ha Hb).
  - assert (S k < length (ys ++ [y']))%nat by (apply nth_error_Some; congruence). rewrite app_length in H0. cbn in H0. assert (k = length ys - 1)%nat by lia. subst k.
    rewrite nth_error_app1 in Ha by lia. rewrite B in Ha. injection Ha as <-. rewrite nth_error_app2 in Hb by lia. replace (S (length ys - 1) - length ys)%nat with 0%nat in Hb by lia. injection Hb as <-. exact Dn.
Qed.
End Run.

Lemma log_new {U} k (all : list (callback Xn U)) i : forall w c, In c (snd (fst (run_callbacks (logged_from k all) i w))) -> In c (snd w) \/ snd (fst c) = i.
Proof.
  revert k. induction all as [|cb all IH]; intros k w c H; cbn [logged_from run_callbacks] in H; [left; exact H|]. unfold logged at 1 in H. destruct (cb i (fst w)) as [v b].
  assert (Q : forall c0, In c0 (snd w ++ [(k, i, b)]) -> In c0 (snd w) \/ snd (fst c0) = i) by (intros c0 I; apply in_app_or in I as [I|[<-|[]]]; auto).
  destruct b; [apply Q, H|]. apply IH in H as [H|H]; [apply Q, H|right; exact H].
Qed.

Section Log.
Context {U : Type}.
Variables (fl : nat) (E0 : env Xn) (o : options Xn) (t : R) (P : nprob Xn) (all : list (callback Xn U)) (n : nat) (f : R).
Let E := with_ldl fl E0.
Hypothesis Lf : (40 <= fl)%nat.
Hypothesis En : np_n P = n.
Hypothesis Es : np_sc P = fsc f [] [].
Hypothesis Pf : 0 < f.
Hypothesis Ht : o_tol o = Fin t.
Hypothesis Pt : 0 < t.
Hypothesis Hf : forall y, length y = n -> exists v, np_f P (fv y) = Fin v.
Hypothesis Hg : forall y, length y = n -> exists g, np_g P (fv y) = fv g /\ length g = n.
Hypothesis HH : forall y, length y = n -> exists A, np_H P (fv y) = fm A /\ length A = n /\ (forall w, In w A -> length w = n).

Definition d_inv (y0 : list R) (st : nstate E (U := U * list (call Xn))) : Prop := exists ys y, so_far P n y0 ys y /\ n_it _ st = Z.of_nat (length ys - 1) /\ n_x _ st = fv y /\
  n_f _ st = np_f P (n_x _ st) /\ n_g _ st = np_g P (n_x _ st) /\ n_H _ st = np_H P (n_x _ st) /\ n_E _ st = unscaled_newton (S := Xn) (np_sc P) (np_g P (n_x _ st)) /\
  f_min (n_flt _ st) = f_min (filter_new (s_ofZ Xn 0)) /\ made_for n (n_ls _ st) /\ forall c, In c (snd (n_u _ st)) -> shows_point ys c.
Lemma shows_more ys y c : shows_point ys c -> shows_point (ys ++ [y]) c.
Proof. intros (k & x & A & B & C). exists k, x. split; [exact A|]. split; [|exact C]. rewrite nth_error_app1; [exact B|]. apply nth_error_Some. congruence. Qed.

(** What holds at the end. *)
Definition d_end (y0 : list R) (st : nstate E (U := U * list (call Xn))) : Prop := exists ys y, so_far P n y0 ys y /\ n_x _ st = fv y /\ forall c, In c (snd (n_u _ st)) -> shows_point ys c.
Lemma d_inv_end y0 st : d_inv y0 st -> d_end y0 st. Proof. intros (ys & y & A & _ & B & _ & _ & _ & _ & _ & _ & C). exists ys, y. auto. Qed.

Lemma body_down fuel start y0 st r : d_inv y0 st -> s_ltb Xn (o_tol o) (n_E _ st) = true -> newton_body E P (log_all all) o fuel start st = Ok r ->
  match r with Next st' => d_inv y0 st' | Exit _ st' => d_end y0 st' end.
Proof.
  intros Iv. assert (Iv0 := Iv). destruct Iv as (ys & y & Sf & It & Ex & If & Ig & IH & IE & Im & Il & Lg). intros Le H. unfold newton_body in H. destruct (diverging _); [injection H as <-; apply d_inv_end, Iv0|].
  assert (Lg' : forall c, In c (snd (fst (run_callbacks (log_all all) (newton_info E st) (n_u E st)))) -> shows_point ys c).
  { intros c Hc. apply log_new in Hc as [Hc|Hc]; [apply Lg, Hc|]. exists (length ys - 1)%nat, y. rewrite Hc. cbn [newton_info i_iter i_x]. split; [exact It|]. split; [apply Sf|exact Ex]. }
  destruct (run_callbacks _ _ _) as [u stop]. cbn [fst] in Lg'. destruct stop; [injection H as <-; exists ys, y; split; [exact Sf|]; split; [exact Ex|exact Lg']|].
  cbv zeta in H. apply obind_ok in H. destruct H as (rs & Se & H). rewrite If, Ig, IH, Ex in Se.
  destruct rs as [x' f' a' flt'|flt']; [|injection H as <-; exists ys, y; split; [exact Sf|]; split; [exact Ex|exact Lg']].
  apply (step_down fl E0 t P n f Lf En Es Pf Pt Hf Hg HH y (n_ls _ st) fuel (n_flt _ st) x' f' a' flt' (proj2 (proj2 (proj2 Sf))) Il Im) in Se; [|rewrite <- Ex, <- IE, <- Ht; exact Le].
  destruct Se as (-> & Fm & y' & -> & Dn). assert (Sf' : so_far P n y0 (ys ++ [y']) y') by (eapply so_far_more; eassumption).
  destruct (limits _ _ _ _ _) as [l clk]. injection H as <-. assert (Ly : (0 < length ys)%nat) by (destruct Sf as [S1 _]; destruct ys; [discriminate|cbn; lia]).
  assert (Q : d_inv y0 (mkN E (U := U * list (call Xn)) (fv y') (np_f P (fv y')) (np_g P (fv y')) (np_H P (fv y')) (unscaled_newton (S := Xn) (np_sc P) (np_g P (fv y'))) flt' (n_it E st + 1)%Z u
    (fst (ls_compute (e_lin E) (n_ls E st) (mkKkt (S := Xn) (n_H E st) []))) clk)).
  { exists (ys ++ [y']), y'. cbn [n_x n_f n_g n_H n_E n_flt n_ls n_u n_it]. split; [exact Sf'|]. split; [rewrite It, app_length; cbn [length]; lia|]. do 5 (split; [reflexivity|]). split; [exact Fm|]. split; [apply made_compute, Il|].
    intros c Hc. apply shows_more, Lg', Hc. }
  destruct l; [apply d_inv_end, Q|exact Q].
Qed.

Lemma newton_down fuel y0 u clk st fin : length y0 = n -> newton E P (log_all all) o fuel (fv y0) (u, []) clk = Ok (st, fin) -> d_end y0 fin.
Proof.
  intros L H. unfold newton in H. apply oassert_ok in H. destruct H as [_ H].
  assert (I0 : d_inv y0 (newton_init E P (fv y0) (u, []) clk)).
  { exists [y0], y0. cbn [newton_init n_x n_f n_g n_H n_E n_flt n_ls n_u n_it]. split; [eapply so_far_one; eassumption|]. do 6 (split; [reflexivity|]). split; [reflexivity|]. split; [rewrite En; apply made_new|intros c []]. }
  destruct (_ || _) in H; [injection H as <- <-; apply d_inv_end, I0|].
  apply (drive_ok _ _ _ (d_inv y0)) in H.
  - destruct H as (st1 & I & [(-> & -> & _)|(Le & B)]); [apply d_inv_end, I|]. exact (body_down _ _ _ _ _ I Le B).
  - intros st1 st2 I Le B. exact (body_down _ _ _ _ _ I Le B).
  - exact I0.
Qed.
End Log.
