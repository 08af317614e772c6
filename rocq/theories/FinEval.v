(** On finite values the extended reals compute what the reals do: vectors, norms and KKT errors. *)
From Coq Require Import ZArith Reals List Bool Lia Lra.
From Verif Require Import Base ExprModel ExprReal ExprXR NumModel UtilModel KktModel ExitModel XArith.
Import ListNotations.
Local Open Scope R_scope.

Definition fv (l : list R) : list XR := map Fin l.
Definition fm (A : list (list R)) : list (list XR) := map fv A.
Lemma fv_len l : length (fv l) = length l. Proof. apply map_length. Qed.

Lemma vmap2_f f (g : R -> R -> R) a b : (forall u v, f (Fin u) (Fin v) = Fin (g u v)) -> vmap2 (S := Xn) f (fv a) (fv b) = fv (vmap2 (S := Rn) g a b).
Proof. intros H. revert b. induction a as [|u a IH]; intros [|v b]; try reflexivity. unfold vmap2 in *. cbn [fv map combine fst snd]. rewrite H. f_equal. apply IH. Qed.
Lemma vadd_f a b : vadd (S := Xn) (fv a) (fv b) = fv (vadd (S := Rn) a b). Proof. apply vmap2_f. reflexivity. Qed.
Lemma vsub_f a b : vsub (S := Xn) (fv a) (fv b) = fv (vsub (S := Rn) a b). Proof. apply vmap2_f. reflexivity. Qed.
Lemma vmul_f a b : vmul (S := Xn) (fv a) (fv b) = fv (vmul (S := Rn) a b). Proof. apply vmap2_f. reflexivity. Qed.
Lemma map_f f (g : R -> R) l : (forall u, f (Fin u) = Fin (g u)) -> map f (fv l) = fv (map g l).
Proof. intros H. unfold fv. rewrite !map_map. apply map_ext. exact H. Qed.
Lemma vscale_f a l : vscale (S := Xn) (Fin a) (fv l) = fv (vscale (S := Rn) a l). Proof. apply (map_f _ (Rmult a)). reflexivity. Qed.
Lemma repeat_f a k : repeat (Fin a) k = fv (repeat a k). Proof. induction k; cbn; [reflexivity|]. rewrite IHk. reflexivity. Qed.
Lemma foldadd_f l : forall a, fold_left (s_add Xn) (fv l) (Fin a) = Fin (fold_left Rplus l a).
Proof. induction l as [|v l IH]; intros a; [reflexivity|]. cbn [fv map fold_left]. rewrite xadd. apply IH. Qed.
Lemma vsum_f l : vsum (S := Xn) (fv l) = Fin (vsum (S := Rn) l). Proof. apply foldadd_f. Qed.
Lemma norm1_f l : norm1 (S := Xn) (fv l) = Fin (norm1 (S := Rn) l).
Proof. unfold norm1. rewrite (map_f _ Rabs) by reflexivity. apply vsum_f. Qed.
Lemma smax_f a b : smax (S := Xn) (Fin a) (Fin b) = Fin (smax (S := Rn) a b).
Proof. unfold smax. rewrite xltb. change (s_ltb Rn a b) with (R_ltb a b). destruct (R_ltb a b); reflexivity. Qed.
Lemma foldmax_f l : forall a, fold_left (fun m x => smax (S := Xn) m (s_abs Xn x)) (fv l) (Fin a) = Fin (fold_left (fun m x => smax (S := Rn) m (Rabs x)) l a).
Proof. induction l as [|v l IH]; intros a; [reflexivity|]. cbn [fv map fold_left]. change (s_abs Xn (Fin v)) with (Fin (Rabs v)). rewrite smax_f. apply IH. Qed.
Lemma norminf_f l : norminf (S := Xn) (fv l) = Fin (norminf (S := Rn) l).
Proof. destruct l as [|v l]; [reflexivity|]. apply (foldmax_f l (Rabs v)). Qed.
Lemma mtvec_f n A y : mtvec (S := Xn) n (fm A) (fv y) = fv (mtvec (S := Rn) n A y).
Proof.
  unfold mtvec. change (repeat (s_ofZ Xn 0) n) with (repeat (Fin 0) n). rewrite repeat_f. change (repeat (s_ofZ Rn 0) n) with (repeat 0 n). generalize (repeat 0 n) as acc.
  revert y. induction A as [|r A IH]; intros [|v y] acc; try reflexivity. cbn [fm fv map combine fold_left fst snd]. change (map Fin r) with (fv r). rewrite vscale_f, vadd_f. apply IH.
Qed.
Lemma diag_mul_f d A : diag_mul (S := Xn) (fv d) (fm A) = fm (diag_mul (S := Rn) d A).
Proof. unfold diag_mul. revert A. induction d as [|v d IH]; intros [|r A]; try reflexivity. cbn [fm fv map combine fst snd]. change (map Fin r) with (fv r). rewrite vscale_f. f_equal. apply IH. Qed.
Lemma vinv_f l : (forall v, In v l -> v <> 0) -> vinv (S := Xn) (fv l) = fv (vinv (S := Rn) l).
Proof.
  intros H. unfold vinv, fv. rewrite !map_map. apply map_ext_in. intros v I. change (s_ofZ Xn 1) with (Fin 1). apply xdiv. apply H. exact I.
Qed.
Lemma s_factor_f a b : b <> 0 -> s_factor (S := Xn) (Fin a) (Fin b) = Fin (s_factor (S := Rn) a b).
Proof. intros H. unfold s_factor, s_max. change (s_ofZ Xn 100) with (Fin 100). rewrite xdiv by exact H. rewrite smax_f. apply xdiv. apply not_0_IZR. lia. Qed.
Lemma s_factor_pos a b : s_factor (S := Rn) a b <> 0.
Proof.
  assert (H : 100 <= smax (S := Rn) 100 (a / b)). { unfold smax. change (s_ltb Rn 100 (a / b)) with (R_ltb 100 (a / b)). unfold R_ltb. destruct (Rlt_dec _ _); [apply Rlt_le; assumption|apply Rle_refl]. }
  intros Q. unfold s_factor, s_max in Q. change (smax (S := Rn) 100 (a / b) / 100 = 0) in Q. set (m := smax (S := Rn) 100 (a / b)) in *. change R in (type of m). lra.
Qed.
Lemma rows_f (l : list R) : rows_of (S := Xn) (fv l) = Fin (IZR (Z.of_nat (length l))). Proof. unfold rows_of. rewrite fv_len. reflexivity. Qed.
Lemma kkt_sqp_f n g A c y : (0 < length y)%nat -> kkt_sqp (S := Xn) n (fv g) (fm A) (fv c) (fv y) = Fin (kkt_sqp (S := Rn) n g A c y).
Proof.
  intros L. unfold kkt_sqp. rewrite mtvec_f, vsub_f, !norminf_f, norm1_f, rows_f. rewrite s_factor_f by (apply not_0_IZR; lia).
  rewrite xdiv by apply s_factor_pos. apply smax_f.
Qed.
Lemma kkt_ipm_f n g A c B d s y z mu : (0 < length z)%nat ->
  kkt_ipm (S := Xn) n (fv g) (fm A) (fv c) (fm B) (fv d) (fv s) (fv y) (fv z) (Fin mu) = Fin (kkt_ipm (S := Rn) n g A c B d s y z mu).
Proof.
  intros L. unfold kkt_ipm. rewrite !mtvec_f, !vsub_f, vmul_f. rewrite !fv_len. rewrite repeat_f, vsub_f, !norminf_f, !norm1_f, rows_f.
  change (s_ofZ Xn (Z.of_nat (length y + length z))) with (Fin (IZR (Z.of_nat (length y + length z)))). rewrite xadd.
  rewrite !s_factor_f by (apply not_0_IZR; lia). rewrite !xdiv by apply s_factor_pos. rewrite !smax_f. reflexivity.
Qed.
Definition fsc (f : R) (de di : list R) : scaling Xn := mkSc (S := Xn) (Fin f) (fv de) (fv di).
Lemma is_identity_f f de di : is_identity (fsc f de di) = is_identity (mkSc (S := Rn) f de di).
Proof. unfold is_identity, fsc. cbn [sc_f sc_e sc_i]. rewrite !fv_len. reflexivity. Qed.
Lemma mul_len (h : R -> R) (a b : list R) : (0 < length b)%nat -> length a = length b -> (0 < length (map h (vmul (S := Rn) a b)))%nat.
Proof. destruct a as [|u a], b as [|v b]; cbn; lia. Qed.
Lemma unscaled_sqp_f f de di n g A c y : f <> 0 -> (forall v, In v de -> v <> 0) -> (0 < length y)%nat -> length de = length y ->
  unscaled_sqp (S := Xn) (fsc f de di) n (fv g) (fm A) (fv c) (fv y) = Fin (unscaled_sqp (S := Rn) (mkSc (S := Rn) f de di) n g A c y).
Proof.
  intros Hf Hd L Ld. unfold unscaled_sqp. rewrite is_identity_f. destruct (is_identity _); [apply kkt_sqp_f; exact L|].
  cbn [fsc sc_f sc_e sc_i]. change (s_ofZ Xn 1) with (Fin 1). rewrite xdiv by exact Hf. rewrite vinv_f by exact Hd.
  rewrite vscale_f, diag_mul_f, !vmul_f. rewrite (map_f _ (fun v => v * (1 / f))) by reflexivity. apply kkt_sqp_f.
  apply mul_len; assumption.
Qed.
Lemma unscaled_ipm_f f de di n g A c B d s y z mu : f <> 0 -> (forall v, In v de -> v <> 0) -> (forall v, In v di -> v <> 0) -> (0 < length z)%nat -> length di = length z ->
  unscaled_ipm (S := Xn) (fsc f de di) n (fv g) (fm A) (fv c) (fm B) (fv d) (fv s) (fv y) (fv z) (Fin mu) =
  Fin (unscaled_ipm (S := Rn) (mkSc (S := Rn) f de di) n g A c B d s y z mu).
Proof.
  intros Hf Hd Hi L Ld. unfold unscaled_ipm. rewrite is_identity_f. destruct (is_identity _); [apply kkt_ipm_f; exact L|].
  cbn [fsc sc_f sc_e sc_i]. change (s_ofZ Xn 1) with (Fin 1). rewrite xdiv by exact Hf. rewrite !vinv_f by assumption.
  rewrite vscale_f, !diag_mul_f, !vmul_f. rewrite !(map_f _ (fun v => v * (1 / f))) by reflexivity. rewrite xmul. apply kkt_ipm_f.
  apply mul_len; assumption.
Qed.
