(** C50 over the reals and over scalars with NaN and infinities. *)
From Coq Require Import ZArith Reals List Bool Lia Lra.
From Verif Require Import Base ExprModel ExprReal ExprXR NumModel LinR UtilModel KktModel FilterModel FilterProofs ExitModel SolverModel SolverSpec
  SolverProofs NewtonModel NewtonSpec NewtonProofs XArith.
Import ListNotations.
Local Open Scope R_scope.

(** SUCCESS over the reals: every entry of the unscaled gradient is within the tolerance. *)
Lemma c50_success {U} (E : env Rn) (P : nprob Rn) (cbs : list (callback Rn U)) (o : options Rn) fuel x0 u clk st :
  0 < sc_f (np_sc P) -> newton E P cbs o fuel x0 u clk = Ok (SUCCESS, st) ->
  forall v : R, In v (np_g P (n_x _ st)) -> Rabs (v / sc_f (np_sc P)) <= o_tol o.
Proof.
  intros D H v I. apply c50_meaning in H. destruct H as [H _]. cbn [newton_means] in H. apply R_ltb_false in H.
  eapply Rle_trans; [|exact H]. unfold unscaled_newton, kkt_newton. destruct (is_identity (np_sc P)) eqn:Id.
  - unfold is_identity in Id. apply andb_true_iff in Id. destruct Id as [Id _]. apply andb_true_iff in Id. destruct Id as [Id _].
    apply R_eqb_true in Id. cbn in Id. rewrite Id. unfold Rdiv. rewrite Rinv_1, Rmult_1_r. apply norminf_le. exact I.
  - apply norminf_le. unfold vscale. apply in_map_iff. exists v. split; auto. cbn. field. lra.
Qed.

(** The Armijo branch of the filter. *)
Lemma try_add_armijo {S : nops} (flt : filter S) cur trial d a flt' b : s_leb S (fe_viol cur) (f_min flt) = true ->
  switching cur d a = true -> try_add flt cur trial d a = (flt', b) ->
  s_finite S (fe_cost trial) = true -> s_ltb S (f_max flt) (fe_viol trial) = false ->
  (armijo cur trial d a = false -> b = false /\ flt' = with_flag flt false) /\
  (armijo cur trial d a = true -> f_entries flt = [] -> b = true /\ flt' = flt).
Proof.
  intros L Sw H F M. unfold try_add in H. rewrite F, M, L, Sw in H. cbn [negb orb andb] in H. split; intros A; rewrite A in H; cbn [negb andb orb] in H.
  - injection H as <- <-. auto.
  - intros Em. unfold in_filter in H. rewrite Em in H. cbn [existsb] in H. injection H as <- <-. auto.
Qed.
Lemma try_add_true_armijo {S : nops} (flt : filter S) cur trial d a flt' : s_leb S (fe_viol cur) (f_min flt) = true ->
  switching cur d a = true -> try_add flt cur trial d a = (flt', true) -> armijo cur trial d a = true.
Proof.
  intros L Sw H. destruct (try_add_accepts _ _ _ _ _ _ H) as (F & M & _). destruct (armijo cur trial d a) eqn:A; auto.
  destruct (try_add_armijo _ _ _ _ _ _ _ L Sw H F M) as [B _]. destruct (B A). discriminate.
Qed.

Lemma pow_0_R : s_pow Rn 0 (lit 11 1) = 0.
Proof.
  rewrite lit_R. change (IZR (10 ^ Z.of_nat 1)) with 10. cbn [Rn nbase R_ops s_pow]. unfold R_pow.
  destruct (Req_EM_T (IZR (Int_part (11 / 10))) (11 / 10)) as [Ei|_].
  - exfalso. assert (K : (11 = 10 * Int_part (11 / 10))%Z). { apply eq_IZR. rewrite mult_IZR, Ei. lra. } lia.
  - destruct (Req_EM_T 0 0); [reflexivity|contradiction].
Qed.
Lemma filter_min_R : f_min (filter_new (S := Rn) 0) = 1 / 10000.
Proof. unfold filter_new. cbn [f_min]. rewrite lit_R, smax_R. cbn [Rn nbase R_ops s_ofZ s_mul]. rewrite Rmax_left by lra. cbn. lra. Qed.

(** Over the reals an accepted step along a descent direction satisfies the Armijo condition, or it is the full step
    and reduces the gradient. *)
Lemma newton_armijo_R (flt : filter Rn) (f0 f1 d a : R) flt' : f_min flt = f_min (filter_new (S := Rn) 0) -> d < 0 -> 0 < a ->
  try_add flt (mkFE (S := Rn) f0 0) (mkFE (S := Rn) f1 0) d a = (flt', true) -> f1 <= f0 + 1 / 100000000 * a * d.
Proof.
  intros M D A H. apply try_add_true_armijo in H.
  - unfold armijo in H. apply R_leb_true in H. cbn [fe_cost] in H. rewrite lit_R in H.
    change (IZR (10 ^ Z.of_nat 8)) with 100000000 in H. exact H.
  - rewrite M, filter_min_R. apply R_leb_true. cbn. lra.
  - unfold switching. apply andb_true_iff. split; [apply R_ltb_true; exact D|]. apply R_ltb_true. cbn [fe_viol].
    rewrite pow_0_R. apply Rmult_lt_0_compat; auto. apply R_pow_pos_base. cbn. lra.
Qed.
Lemma half_power_R k : half_power (S := Rn) k = / 2 ^ k.
Proof.
  induction k as [|k IH]; [cbn; lra|]. rewrite half_power_S, IH. unfold halve. rewrite lit_R. change (IZR (10 ^ Z.of_nat 1)) with 10.
  cbn [Rn nbase R_ops s_mul pow]. match goal with |- ?a = ?b => change (@eq R a b) end. field. apply pow_nonzero. lra.
Qed.
Lemma half_power_X k : half_power (S := Xn) k = Fin (/ 2 ^ k).
Proof.
  change (half_power (S := Xn) k) with (halves (S := Xn) k (Fin 1)). rewrite xhalves. f_equal. lra.
Qed.
Lemma c50_descent (E : env Rn) (P : nprob Rn) (x x' : list R) : newton_step E P x x' ->
  exists p, newton_direction E P x p /\
   ((exists k, x' = vadd (S := Rn) x (vscale (S := Rn) (/ 2 ^ k) p) /\
      (vdot (S := Rn) (np_g P x) p < 0 -> np_f P x' <= np_f P x + 1 / 100000000 * / 2 ^ k * vdot (S := Rn) (np_g P x) p)) \/
    (x' = vadd (S := Rn) x (vscale (S := Rn) 1 p) /\ norm1 (S := Rn) (np_g P x') <= 999 / 1000 * norm1 (S := Rn) (np_g P x))).
Proof.
  intros (p & D & H). exists p. split; auto. destruct H as [(k & flt & flt' & M & X & _ & T)|(X & N)].
  - left. exists k. rewrite half_power_R in X, T. split; [exact X|]. intros G. eapply newton_armijo_R; [exact M|exact G| |exact T].
    apply Rinv_0_lt_compat, pow_lt. lra.
  - right. split; [exact X|]. apply R_leb_true in N. rewrite lit_R in N. exact N.
Qed.

(** Termination over scalars with NaN and infinities. *)
Lemma c55_newton (P : nprob Xn) x f g p d flt fuel : (67 <= fuel)%nat ->
  exists r, newton_search P fuel x f g p d (Fin 1 : Xn) flt = Ok r.
Proof. intros L. apply (search_total P x f g p d 66); [|lia]. apply small_20. lra. Qed.
Lemma c50_total {U} (E : env Xn) (P : nprob Xn) (cbs : list (callback Xn U)) (o : options Xn) x0 u clk fuel :
  length (np_g P x0) = np_n P -> mat_dims (np_n P) (np_n P) (np_H P x0) = true ->
  (67 <= fuel)%nat -> (Z.to_nat (o_max o) < fuel)%nat -> exists r, newton E P cbs o fuel x0 u clk = Ok r.
Proof. intros. apply newton_total with (K := 66%nat); auto; try lia. apply small_20. lra. Qed.

(** Steps over scalars with NaN and infinities. *)
Lemma switching_X (f0 d a : R) : d < 0 -> 0 < a -> switching (S := Xn) (mkFE (S := Xn) (Fin f0) (Fin 0)) (Fin d) (Fin a) = true.
Proof.
  intros D A. unfold switching. cbn [fe_viol]. apply andb_true_iff. split; [apply R_ltb_true; exact D|].
  rewrite !xlit, xpow_0, xopp by (change (IZR (10 ^ Z.of_nat 1)) with 10; lra).
  destruct (xpow_pos (- d) (23 / IZR (10 ^ Z.of_nat 1))) as (q & Q & ->); [lra|]. rewrite xmul. apply R_ltb_true. apply Rmult_lt_0_compat; auto.
Qed.
Lemma filter_X : f_min (filter_new (S := Xn) (Fin 0)) = Fin (1 / 10000) /\ f_max (filter_new (S := Xn) (Fin 0)) = Fin 10000.
Proof.
  unfold filter_new. cbn [f_min f_max]. rewrite xlit. unfold smax. rewrite !xofZ, xltb. replace (R_ltb 1 0) with false by (symmetry; apply R_ltb_false; lra).
  rewrite !xmul. change (IZR (10 ^ Z.of_nat 4)) with 10000. split; f_equal; lra.
Qed.
Definition good (flt : filter Xn) : Prop := f_min flt = Fin (1 / 10000) /\ f_max flt = Fin 10000 /\ f_entries flt = [].
Lemma newton_accepts flt (f0 f1 d a : R) : good flt -> d < 0 -> 0 < a -> f1 <= f0 + 1 / 100000000 * a * d ->
  try_add (S := Xn) flt (fe_newton (S := Xn) (Fin f0)) (fe_newton (S := Xn) (Fin f1)) (Fin d) (Fin a) = (flt, true).
Proof.
  intros (Mn & Mx & En) D A H. destruct (try_add (S := Xn) flt _ _ _ _) as [flt' b] eqn:T.
  apply try_add_armijo in T; [| |apply switching_X; auto|reflexivity|].
  - destruct T as [_ T]. destruct T as [-> ->]; auto. unfold armijo. cbn [fe_cost fe_newton]. rewrite xlit, !xmul, xadd. apply xleb.
    change (IZR (10 ^ Z.of_nat 8)) with 100000000. exact H.
  - rewrite Mn. apply xleb. cbn. lra.
  - rewrite Mx. apply R_ltb_false. cbn. lra.
Qed.
Lemma newton_rejects flt (f0 f1 d a : R) : good flt -> d < 0 -> 0 < a -> f0 + 1 / 100000000 * a * d < f1 ->
  try_add (S := Xn) flt (fe_newton (S := Xn) (Fin f0)) (fe_newton (S := Xn) (Fin f1)) (Fin d) (Fin a) = (with_flag flt false, false).
Proof.
  intros (Mn & Mx & En) D A H. destruct (try_add (S := Xn) flt _ _ _ _) as [flt' b] eqn:T.
  apply try_add_armijo in T; [| |apply switching_X; auto|reflexivity|].
  - destruct T as [T _]. destruct T as [-> ->]; auto. unfold armijo. cbn [fe_cost fe_newton]. rewrite xlit, !xmul, xadd. apply xleb_false.
    change (IZR (10 ^ Z.of_nat 8)) with 100000000. exact H.
  - rewrite Mn. apply xleb. cbn. lra.
  - rewrite Mx. apply R_ltb_false. cbn. lra.
Qed.

(** A linear solver that always answers p = (1), and a clock that stands still. *)
Definition one_lin : linear Xn := mkLin (S := Xn) unit (fun _ _ _ => tt) (fun _ _ => (tt, true)) (fun _ _ => [Fin 1]).
Definition one_env : env Xn := mkEnv (S := Xn) one_lin (fun _ => Fin 0) (fun _ _ => []).
Definition opts1 (m : Z) : options Xn := mkOpt (S := Xn) (Fin (1 / 100000000)) m PInf false.

(** f(x) = -x; the gradient is -1 up to 0 and NaN beyond. *)
Definition nan_prob : nprob Xn :=
  mkNP (S := Xn) 1 (fun x => match x with [Fin r] => Fin (- r) | _ => NaN end)
    (fun x => match x with [Fin r] => if Rlt_dec 0 r then [NaN] else [Fin (-1)] | _ => [NaN] end)
    (fun _ => [[Fin 1]]) (mkSc (S := Xn) (Fin 1) [] []).
Lemma x_step0 : vstep (S := Xn) [Fin 0] (Fin 1) [Fin 1] = [Fin 1].
Proof. cbn. f_equal. f_equal. lra. Qed.
Lemma unscaled_1 (v : XR) : unscaled_newton (S := Xn) (mkSc (S := Xn) (Fin 1) [] []) [v] = s_abs Xn v.
Proof.
  unfold unscaled_newton, is_identity. cbn [sc_f sc_e sc_i length Nat.eqb andb].
  replace (s_eqb Xn (Fin 1) (s_ofZ Xn 1)) with true; [reflexivity|]. symmetry. apply R_eqb_true. reflexivity.
Qed.
Lemma not_diverging0 : diverging (S := Xn) [Fin 0] = false.
Proof.
  unfold diverging. replace (all_fin (S := Xn) [Fin 0]) with true by reflexivity. cbn [negb]. rewrite orb_false_r.
  unfold norminf. cbn [fold_left]. change (s_abs Xn (Fin 0)) with (Fin (Rabs 0)). rewrite xofZ, xltb, Rabs_R0. apply R_ltb_false. apply IZR_le. discriminate.
Qed.
Lemma good_new : good (filter_new (S := Xn) (Fin 0)).
Proof. destruct filter_X. repeat split; auto. Qed.
Lemma dot_1 : vdot (S := Xn) [Fin (-1)] [Fin 1] = Fin (-1).
Proof. cbn. f_equal. lra. Qed.

(** A step whose new gradient is NaN ends the solve with SUCCESS. *)
Lemma c50_nan : exists st, newton (U := unit) one_env nan_prob [] (opts1 100) 3 [Fin 0] tt 0 = Ok (SUCCESS, st) /\
  n_x _ st = [Fin 1] /\ np_g nan_prob (n_x _ st) = [NaN].
Proof.
  eexists. split; [|].
  - unfold newton, newton_init. cbn [n_g n_H n_f np_g np_H np_f nan_prob np_n n_E np_sc].
    destruct (Rlt_dec 0 0); [lra|]. cbn [vec_dim mat_dims length Nat.eqb forallb andb oassert].
    replace (negb _ || negb _ || negb _) with false by reflexivity. cbn [drive n_E]. rewrite unscaled_1.
    change (s_abs Xn (Fin (-1))) with (Fin (Rabs (-1))). cbn [opts1 o_tol]. rewrite xltb, Rabs_left by lra.
    replace (R_ltb _ _) with true by (symmetry; apply R_ltb_true; lra).
    unfold newton_body at 1. cbn [n_x]. rewrite not_diverging0. cbn [run_callbacks newton_info n_u n_g n_H n_f n_flt n_ls n_clk n_it].
    cbn [one_env e_lin one_lin ls_compute ls_solve ls_new fst]. rewrite dot_1. cbn [newton_search]. cbv zeta.
    change (s_ofZ Xn 1) with (Fin 1). change (s_ofZ Xn 0) with (Fin 0). rewrite x_step0. cbn [nan_prob np_f]. replace (negb (s_finite Xn _)) with false by reflexivity.
    rewrite newton_accepts; [|apply good_new|lra|lra|lra]. cbn [obind]. cbn [nan_prob np_g np_H np_sc]. destruct (Rlt_dec 0 1); [|lra].
    unfold limits. cbn [opts1 o_max o_timeout]. cbn [Z.leb Z.add Z.compare Pos.compare Pos.compare_cont].
    replace (s_ltb Xn PInf _) with false by reflexivity. cbn [finish obind drive n_E]. rewrite unscaled_1. cbn [s_abs Xn nbase X_ops lift].
    replace (s_ltb Xn _ NaN) with false by reflexivity. reflexivity.
  - cbn [n_x]. split; [reflexivity|]. cbn [nan_prob np_g]. destruct (Rlt_dec 0 1); [reflexivity|lra].
Qed.

(** f(0) = 0, f(1) = NaN and f = 1 elsewhere; the gradient is -1 at 0 and 0 elsewhere. *)
Definition hole_prob : nprob Xn :=
  mkNP (S := Xn) 1 (fun x => match x with [Fin r] => if Req_EM_T r 0 then Fin 0 else if Req_EM_T r 1 then NaN else Fin 1 | _ => NaN end)
    (fun x => match x with [Fin r] => if Req_EM_T r 0 then [Fin (-1)] else [Fin 0] | _ => [NaN] end)
    (fun _ => [[Fin 1]]) (mkSc (S := Xn) (Fin 1) [] []).
Lemma hole_f r : np_f hole_prob [Fin r] = if Req_EM_T r 0 then Fin 0 else if Req_EM_T r 1 then NaN else Fin 1. Proof. reflexivity. Qed.
Lemma hole_g r : np_g hole_prob [Fin r] = if Req_EM_T r 0 then [Fin (-1)] else [Fin 0]. Proof. reflexivity. Qed.
Lemma x_stepa a : vstep (S := Xn) [Fin 0] (Fin a) [Fin 1] = [Fin a].
Proof. cbn. f_equal. f_equal. lra. Qed.
Lemma good_flag flt b : good flt -> good (with_flag flt b).
Proof. intros (A & B & C). repeat split; auto. Qed.
Lemma hole_kkt : s_leb Xn (kkt1_newton (S := Xn) [Fin 0]) (s_mul Xn (lit (S := Xn) 999 3) (kkt1_newton (S := Xn) [Fin (-1)])) = true.
Proof.
  unfold kkt1_newton, norm1. rewrite xlit. change (IZR (10 ^ Z.of_nat 3)) with 1000. apply xleb.
  cbn. 
  unfold Rabs. destruct (Rcase_abs 0), (Rcase_abs (-1)); lra.
Qed.
Lemma hole_search K : forall fuel a flt, good flt -> 0 < a < 1 -> s_ltb Xn (halves (S := Xn) (Datatypes.S K) (Fin a)) (n_amin (S := Xn)) = true -> (K < fuel)%nat ->
  exists a' flt', newton_search hole_prob fuel [Fin 0] (Fin 0 : Xn) [Fin (-1)] [Fin 1] (Fin (-1) : Xn) (Fin a : Xn) flt = Ok (NStep (S := Xn) [Fin 1] (NaN : Xn) a' flt').
Proof.
  induction K as [|K IH]; intros fuel a flt G A H L; (destruct fuel as [|fuel]; [lia|]); cbn [newton_search]; cbv zeta.
  all: rewrite x_stepa, hole_f; destruct (Req_EM_T a 0); [lra|]; destruct (Req_EM_T a 1); [lra|];
       replace (negb (s_finite Xn (Fin 1))) with false by reflexivity; rewrite newton_rejects; [|exact G|lra|lra|lra].
  all: change (s_ofZ Xn 1) with (Fin 1); rewrite x_stepa, hole_f, hole_g; destruct (Req_EM_T 1 0); [lra|]; destruct (Req_EM_T 1 1); [|lra].
  all: rewrite hole_kkt.
  - change (s_ltb Xn (halve (S := Xn) (Fin a)) (n_amin (S := Xn)) = true) in H. rewrite H. eauto.
  - destruct (s_ltb Xn (halve (S := Xn) (Fin a)) _); [eauto|]. rewrite <- halves_S in H. rewrite xhalve in *. apply IH; [apply good_flag; auto|lra|exact H|lia].
Qed.

(** A full step to a point of NaN cost ends the solve with SUCCESS. *)
Lemma c50_hole fuel : (68 <= fuel)%nat -> exists st, newton (U := unit) one_env hole_prob [] (opts1 100) fuel [Fin 0] tt 0 = Ok (SUCCESS, st) /\
  n_x _ st = [Fin 1] /\ np_f hole_prob (n_x _ st) = NaN.
Proof.
  intros L. assert (Sr : exists a' flt', newton_search hole_prob fuel [Fin 0] (Fin 0 : Xn) [Fin (-1)] [Fin 1] (Fin (-1) : Xn) (Fin 1 : Xn) (filter_new (S := Xn) (Fin 0)) = Ok (NStep (S := Xn) [Fin 1] (NaN : Xn) a' flt')).
  { destruct fuel as [|fuel]; [lia|]. pose proof (hole_search 65 fuel (1 / 2) _ good_new) as HS.
    cbn [newton_search]. cbv zeta. rewrite x_stepa, hole_f. destruct (Req_EM_T 1 0); [lra|]. destruct (Req_EM_T 1 1); [|lra].
    replace (negb (s_finite Xn NaN)) with true by reflexivity. rewrite xhalve. 
    replace (s_ltb Xn (Fin (1 / 2)) n_amin) with false.
    2: { symmetry. unfold n_amin. rewrite xlit, xltb. apply R_ltb_false. apply Rle_trans with (1 * / 2); [|lra]. unfold Rdiv.
         apply Rmult_le_compat_l; [lra|]. apply Rinv_le_contravar; [lra|]. apply IZR_le. discriminate. }
    apply HS; [lra| |lia]. rewrite <- xhalve, halves_S. apply small_20. lra. }
  destruct Sr as (a' & flt' & Sr). 
  assert (G0 : np_g hole_prob [Fin 0] = [Fin (-1)]) by (rewrite hole_g; destruct (Req_EM_T 0 0); [reflexivity|lra]).
  assert (F0 : np_f hole_prob [Fin 0] = Fin 0) by (rewrite hole_f; destruct (Req_EM_T 0 0); [reflexivity|lra]).
  assert (G1 : np_g hole_prob [Fin 1] = [Fin 0]) by (rewrite hole_g; destruct (Req_EM_T 1 0); [lra|reflexivity]).
  eexists. split.
  - unfold newton, newton_init. cbn [n_g n_H n_f n_E]. rewrite G0, F0. cbn [np_H hole_prob np_n n_E np_sc].
    cbn [vec_dim mat_dims length Nat.eqb forallb andb oassert].
    replace (negb _ || negb _ || negb _) with false by reflexivity. destruct fuel as [|[|fuel]]; [lia|lia|]. cbn [drive n_E]. rewrite unscaled_1.
    change (s_abs Xn (Fin (-1))) with (Fin (Rabs (-1))). cbn [opts1 o_tol]. rewrite xltb, Rabs_left by lra.
    replace (R_ltb _ _) with true by (symmetry; apply R_ltb_true; lra).
    unfold newton_body at 1. cbn [n_x]. rewrite not_diverging0. cbn [run_callbacks newton_info n_u n_g n_H n_f n_flt n_ls n_clk n_it].
    cbn [one_env e_lin one_lin ls_compute ls_solve ls_new fst]. rewrite dot_1.
    change (s_ofZ Xn 1) with (Fin 1). change (s_ofZ Xn 0) with (Fin 0). rewrite Sr. cbn [obind]. rewrite G1. cbn [np_sc np_H hole_prob].
    unfold limits. cbn [opts1 o_max o_timeout]. cbn [Z.leb Z.add Z.compare Pos.compare Pos.compare_cont].
    replace (s_ltb Xn PInf _) with false by reflexivity. cbn [finish obind drive n_E]. rewrite unscaled_1.
    change (s_abs Xn (Fin 0)) with (Fin (Rabs 0)). rewrite xltb, Rabs_R0. replace (R_ltb _ _) with false by (symmetry; apply R_ltb_false; lra). reflexivity.
  - cbn [n_x]. split; [reflexivity|]. rewrite hole_f. destruct (Req_EM_T 1 0); [lra|]. destruct (Req_EM_T 1 1); [reflexivity|lra].
Qed.

(** With a limit of 0 iterations one iteration is carried out. *)
Lemma c56_zero : exists st, newton (U := unit) one_env nan_prob [] (opts1 0) 3 [Fin 0] tt 0 = Ok (MAX_ITERATIONS_EXCEEDED, st) /\ n_it _ st = 1%Z /\ n_x _ st = [Fin 1].
Proof.
  eexists. split; [|].
  - unfold newton, newton_init. cbn [n_g n_H n_f np_g np_H np_f nan_prob np_n n_E np_sc].
    destruct (Rlt_dec 0 0); [lra|]. cbn [vec_dim mat_dims length Nat.eqb forallb andb oassert].
    replace (negb _ || negb _ || negb _) with false by reflexivity. cbn [drive n_E]. rewrite unscaled_1.
    change (s_abs Xn (Fin (-1))) with (Fin (Rabs (-1))). cbn [opts1 o_tol]. rewrite xltb, Rabs_left by lra.
    replace (R_ltb _ _) with true by (symmetry; apply R_ltb_true; lra).
    unfold newton_body at 1. cbn [n_x]. rewrite not_diverging0. cbn [run_callbacks newton_info n_u n_g n_H n_f n_flt n_ls n_clk n_it].
    cbn [one_env e_lin one_lin ls_compute ls_solve ls_new fst]. rewrite dot_1. cbn [newton_search]. cbv zeta.
    change (s_ofZ Xn 1) with (Fin 1). change (s_ofZ Xn 0) with (Fin 0). rewrite x_step0. cbn [nan_prob np_f]. replace (negb (s_finite Xn _)) with false by reflexivity.
    rewrite newton_accepts; [|apply good_new|lra|lra|lra]. cbn [obind]. cbn [nan_prob np_g np_H np_sc]. destruct (Rlt_dec 0 1); [|lra].
    unfold limits. cbn [opts1 o_max o_timeout]. cbn [Z.leb Z.add Z.compare Pos.compare Pos.compare_cont]. reflexivity.
  - cbn [n_x n_it]. split; reflexivity.
Qed.

(** x^2 / 2 from 1: one Newton step to the minimum. *)
Definition sq_prob : nprob Rn :=
  mkNP (S := Rn) 1 (fun x => match x with [r] => r * r / 2 | _ => 0 end) (fun x => x) (fun _ => [[1]]) (mkSc (S := Rn) 1 [] []).
Definition sq_env : env Rn :=
  mkEnv (S := Rn) (mkLin (S := Rn) unit (fun _ _ _ => tt) (fun _ _ => (tt, true)) (fun _ b => b)) (fun _ => 0) (fun _ _ => []).
Lemma unscaled_1R (v : R) : unscaled_newton (S := Rn) (mkSc (S := Rn) 1 [] []) [v] = Rabs v.
Proof.
  unfold unscaled_newton, is_identity. cbn [sc_f sc_e sc_i length Nat.eqb andb].
  replace (s_eqb Rn 1 (s_ofZ Rn 1)) with true; [reflexivity|]. symmetry. apply R_eqb_true. reflexivity.
Qed.
Lemma sq_run : exists st, newton (U := unit) sq_env sq_prob [] (mkOpt (S := Rn) (1 / 100) 10 5 false) 3 [1] tt 0 = Ok (SUCCESS, st) /\ n_x _ st = [0].
Proof.
  eexists. split.
  - unfold newton, newton_init. cbn [n_g n_H n_f n_E np_g np_H np_f np_n np_sc sq_prob].
    cbn [vec_dim mat_dims length Nat.eqb forallb andb oassert].
    replace (negb _ || negb _ || negb _) with false by reflexivity. cbn [drive n_E]. rewrite unscaled_1R.
    cbn [o_tol]. rewrite Rabs_R1. replace (s_ltb Rn (1 / 100) 1) with true by (symmetry; apply R_ltb_true; lra).
    unfold newton_body at 1. cbn [n_x].
    replace (diverging (S := Rn) [1]) with false.
    2: { symmetry. unfold diverging. replace (all_fin (S := Rn) [1]) with true by reflexivity. cbn [negb]. rewrite orb_false_r.
         apply R_ltb_false. unfold norminf. cbn [fold_left Rn nbase R_ops s_abs]. rewrite Rabs_R1. apply IZR_le. discriminate. }
    cbn [run_callbacks newton_info n_u n_g n_H n_f n_flt n_ls n_clk n_it sq_env e_lin ls_compute ls_solve ls_new fst].
    replace (vneg (S := Rn) [1]) with ([-1] : list R) by reflexivity.
    replace (vdot (S := Rn) [1] [-1]) with (-1) by (cbn; lra).
    cbn [newton_search]. cbv zeta. replace (vstep (S := Rn) [1] (s_ofZ Rn 1) [-1]) with ([0] : list R) by (cbn; f_equal; lra).
    cbn [np_f sq_prob]. replace (negb (s_finite Rn _)) with false by reflexivity.
    destruct (try_add (S := Rn) _ _ _ _ _) as [flt b] eqn:T.
    apply try_add_armijo in T; [|change (s_ofZ Rn 0) with 0; rewrite filter_min_R; apply R_leb_true; cbn; lra| |reflexivity|].
    + destruct T as [_ T]. destruct T as [-> ->]; [|reflexivity|].
      { unfold armijo. apply R_leb_true. cbn [fe_cost fe_newton]. rewrite lit_R. change (IZR (10 ^ Z.of_nat 8)) with 100000000. cbn. lra. }
      cbn [obind]. cbn [sq_prob np_g np_H np_sc]. unfold limits. cbn [o_max o_timeout]. cbn [Z.leb Z.add Z.compare Pos.compare Pos.compare_cont].
      replace (s_ltb Rn 5 _) with false by (symmetry; apply R_ltb_false; cbn; lra).
      cbn [finish obind drive n_E]. rewrite unscaled_1R, Rabs_R0. replace (s_ltb Rn (1 / 100) 0) with false by (symmetry; apply R_ltb_false; lra). reflexivity.
    + unfold switching. apply andb_true_iff. split; [apply R_ltb_true; cbn; lra|]. apply R_ltb_true. cbn [fe_viol fe_newton]. 
      change (s_ofZ Rn 0) with 0. rewrite pow_0_R. apply Rmult_lt_0_compat; [cbn; lra|]. apply R_pow_pos_base. cbn. lra.
    + apply R_ltb_false. unfold filter_new. cbn [f_max fe_viol fe_newton]. rewrite smax_R. cbn [Rn nbase R_ops s_ofZ s_mul].
      rewrite Rmax_left by lra. lra.
  - reflexivity.
Qed.

(** A callback that asks to stop on the first iteration. *)
Lemma stop_run : exists st, newton (U := unit * list (call Xn)) one_env nan_prob (log_all [fun _ u => (u, false); fun _ u => (u, true)]) (opts1 100) 3 [Fin 0] (tt, []) 0 = Ok (CALLBACK_REQUESTED_STOP, st)
  /\ map (fun c => (fst (fst c), snd c)) (snd (n_u _ st)) = [(0%nat, false); (1%nat, true)].
Proof.
  eexists. split.
  - unfold newton, newton_init. cbn [n_g n_H n_f np_g np_H np_f nan_prob np_n n_E np_sc].
    destruct (Rlt_dec 0 0); [lra|]. cbn [vec_dim mat_dims length Nat.eqb forallb andb oassert].
    replace (negb _ || negb _ || negb _) with false by reflexivity. cbn [drive n_E]. rewrite unscaled_1.
    change (s_abs Xn (Fin (-1))) with (Fin (Rabs (-1))). cbn [opts1 o_tol]. rewrite xltb, Rabs_left by lra.
    replace (R_ltb _ _) with true by (symmetry; apply R_ltb_true; lra).
    unfold newton_body at 1. cbn [n_x]. rewrite not_diverging0. reflexivity.
  - reflexivity.
Qed.
