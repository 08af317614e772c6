(** Proofs for C41, C42. *)
From Coq Require Import ZArith Reals List Bool Lra Lia Psatz.
From Verif Require Import Base ExprModel ExprReal NumModel LinR UtilModel KktModel KktSpec FilterProofs.
Import ListNotations.
Local Open Scope R_scope.

Lemma norminf_le_iff (v : list R) n b : length v = n -> 0 <= b -> norminf (S := Rn) v <= b <-> forall i, (i < n)%nat -> Rabs (v.[i]) <= b.
Proof.
  intros <- B. split; intros H.
  - intros i L. eapply Rle_trans; [apply norminf_nth|exact H].
  - apply norminf_lub; auto. intros x I. destruct (In_nth v x 0 I) as (i & L & <-). auto.
Qed.
Lemma quot_le_iff (a s t : R) : 0 < s -> a / s <= t <-> a <= t * s.
Proof.
  intros H. split; intros K.
  - replace a with (a / s * s) by (field; lra). apply Rmult_le_compat_r; lra.
  - replace t with (t * s / s) by (field; lra). unfold Rdiv. apply Rmult_le_compat_r; auto. left. apply Rinv_0_lt_compat; auto.
Qed.
Lemma smax_le_iff (a b t : R) : smax (S := Rn) a b <= t <-> a <= t /\ b <= t.
Proof. rewrite smax_R. unfold Rmax. destruct (Rle_dec a b); lra. Qed.
Lemma excuse_ge1 s k : 1 <= excuse s k.
Proof. unfold excuse. assert (100 <= Rmax 100 (s / INR k)) by apply Rmax_l. lra. Qed.
Lemma s_factor_R (s : R) k : s_factor (S := Rn) s (IZR (Z.of_nat k)) = excuse s k.
Proof. unfold s_factor, excuse, s_max. rewrite smax_R, INR_IZR_INZ. reflexivity. Qed.

Lemma nth_repeat_lt {A} (x d : A) n i : (i < n)%nat -> nth i (repeat x n) d = x.
Proof. revert i. induction n; intros [|i] H; cbn; auto; try lia. apply IHn. lia. Qed.
Section Len.
Variables (a b : list R).
Lemma vsub_length_R n : length a = n -> length b = n -> @length R (vsub (S := Rn) a b) = n.
Proof. intros <- E. unfold vsub. etransitivity; [apply (vmap2_length_R Rminus)|]. rewrite E. apply Nat.min_id. Qed.
Lemma vmul_length_R n : length a = n -> length b = n -> @length R (vmul (S := Rn) a b) = n.
Proof. intros <- E. unfold vmul. etransitivity; [apply (vmap2_length_R Rmult)|]. rewrite E. apply Nat.min_id. Qed.
Lemma vmul_nth n i : length a = n -> length b = n -> (vmul (S := Rn) a b : list R).[i] = a.[i] * b.[i].
Proof.
  intros E1 E2. destruct (Nat.lt_ge_cases i n) as [L|L].
  - unfold vmul. apply (vmap2_nth Rmult); lia.
  - rewrite !nth_overflow; try lia; try lra. rewrite (vmul_length_R n); auto.
Qed.
End Len.

Lemma c42 : forall n me mi (d : data) (s y z : list R) (mu t : R), data_ok n me mi d ->
  length s = mi -> length y = me -> length z = mi -> 0 <= t ->
  kkt_ipm (S := Rn) n (D_g d) (D_Ae d) (D_ce d) (D_Ai d) (D_ci d) s y z mu <= t <->
  within n me mi d (fun i => s.[i]) (fun i => y.[i]) (fun i => z.[i]) mu t.
Proof.
  intros n me mi d s y z mu t (Hg & He & Hce & Hi & Hci) Ls Ly Lz T. unfold kkt_ipm, within.
  rewrite !smax_le_iff. cbn [s_div s_add s_ofZ Rn nbase R_ops].
  replace (norm1 (S := Rn) y) with (sumn me (fun i => Rabs (y.[i]))) by (rewrite norm1_R, Ly; reflexivity).
  replace (norm1 (S := Rn) z) with (sumn mi (fun i => Rabs (z.[i]))) by (rewrite norm1_R, Lz; reflexivity).
  unfold rows_of. cbn [s_div s_add s_ofZ Rn nbase R_ops].
  repeat match goal with |- context [@length ?T ?l] => progress change (@length T l) with (@length R l) end. rewrite Ly, Lz.
  rewrite !s_factor_R. set (sd := excuse _ (me + mi)). set (sc := excuse _ mi).
  assert (1 <= sd) by apply excuse_ge1. assert (1 <= sc) by apply excuse_ge1.
  assert (Sd : 0 < sd) by lra. assert (Sc : 0 < sc) by lra.
  rewrite (quot_le_iff _ sd t Sd), (quot_le_iff _ sc t Sc).
  destruct (mtvec_spec me n _ y He Ly) as [Pe Qe]. destruct (mtvec_spec mi n _ z Hi Lz) as [Pi Qi].
  set (ae := mtvec (S := Rn) n (D_Ae d) y) in *. set (ai := mtvec (S := Rn) n (D_Ai d) z) in *.
  assert (L1 : @length R (vsub (S := Rn) (D_g d) ae) = n) by (apply vsub_length_R; auto).
  assert (L0 : @length R (vsub (S := Rn) (vsub (S := Rn) (D_g d) ae) ai) = n) by (apply vsub_length_R; auto).
  assert (L2 : @length R (vsub (S := Rn) (vmul (S := Rn) s z) (repeat (mu : Rn) (length s))) = mi).
  { apply vsub_length_R; [apply vmul_length_R; auto|]. etransitivity; [apply repeat_length|auto]. }
  assert (L3 : @length R (vsub (S := Rn) (D_ci d) s) = mi) by (apply vsub_length_R; auto).
  assert (0 <= t * sd) by nra. assert (0 <= t * sc) by nra.
  rewrite (norminf_le_iff _ n), (norminf_le_iff _ mi (t * sc)), (norminf_le_iff _ me), (norminf_le_iff (vsub (S := Rn) (D_ci d) s) mi) by auto.
  assert (E1 : forall j, (vsub (S := Rn) (vsub (S := Rn) (D_g d) ae) ai : list R).[j] = stationarity me mi d (fun i => y.[i]) (fun i => z.[i]) j).
  { intros j. rewrite vsub_nth by (etransitivity; [exact L1|symmetry; exact Pi]). rewrite vsub_nth by (etransitivity; [exact Hg|symmetry; exact Pe]).
    unfold stationarity. rewrite <- Qe, <- Qi. reflexivity. }
  assert (E2 : forall i, (i < mi)%nat -> (vsub (S := Rn) (vmul (S := Rn) s z) (repeat (mu : Rn) (length s)) : list R).[i] = s.[i] * z.[i] - mu).
  { intros i L. rewrite vsub_nth. 2:{ etransitivity; [apply (vmul_length_R s z mi); auto|]. symmetry. etransitivity; [apply repeat_length|auto]. }
    rewrite (vmul_nth s z mi) by auto. f_equal. apply nth_repeat_lt. lia. }
  assert (E3 : forall i, (vsub (S := Rn) (D_ci d) s : list R).[i] = (D_ci d).[i] - s.[i]).
  { intros i. apply vsub_nth. congruence. }
  setoid_rewrite E1. setoid_rewrite E3.
  split; intros H'.
  - destruct H' as [[[A B] C] D]. repeat split; auto. intros i L. rewrite <- E2 by auto. apply B. auto.
  - destruct H' as (A & B & C & D). repeat split; auto. intros i L. rewrite E2 by auto. apply B. auto.
Qed.

Lemma c42_sqp : forall n me (d : data) (y : list R) (t : R), length (D_g d) = n -> wf me n (D_Ae d) -> length (D_ce d) = me ->
  length y = me -> 0 <= t ->
  kkt_sqp (S := Rn) n (D_g d) (D_Ae d) (D_ce d) y <= t <-> within_eq n me d (fun i => y.[i]) t.
Proof.
  intros n me d y t Hg He Hce Ly T. unfold kkt_sqp, within_eq. rewrite !smax_le_iff. cbn [s_div s_add s_ofZ Rn nbase R_ops].
  replace (norm1 (S := Rn) y) with (sumn me (fun i => Rabs (y.[i]))) by (rewrite norm1_R, Ly; reflexivity).
  unfold rows_of. cbn [s_div s_add s_ofZ Rn nbase R_ops].
  repeat match goal with |- context [@length ?T ?l] => progress change (@length T l) with (@length R l) end. rewrite Ly.
  rewrite !s_factor_R. set (sd := excuse _ me). assert (1 <= sd) by apply excuse_ge1. assert (Sd : 0 < sd) by lra.
  rewrite (quot_le_iff _ sd t Sd).
  destruct (mtvec_spec me n _ y He Ly) as [Pe Qe]. set (ae := mtvec (S := Rn) n (D_Ae d) y) in *.
  assert (L1 : @length R (vsub (S := Rn) (D_g d) ae) = n) by (apply vsub_length_R; auto).
  assert (0 <= t * sd) by nra.
  rewrite (norminf_le_iff _ n), (norminf_le_iff _ me) by auto.
  assert (E1 : forall j, (vsub (S := Rn) (D_g d) ae : list R).[j] = (D_g d).[j] - sumn me (fun i => ent (D_Ae d) i j * y.[i])).
  { intros j. rewrite vsub_nth by (etransitivity; [exact Hg|symmetry; exact Pe]). rewrite <- Qe. reflexivity. }
  setoid_rewrite E1. tauto.
Qed.

Lemma within_ext n me mi d d1 s s1 y y1 z z1 mu t :
  (forall j, (j < n)%nat -> (D_g d).[j] = (D_g d1).[j]) ->
  (forall i, (i < me)%nat -> (D_ce d).[i] = (D_ce d1).[i]) ->
  (forall i, (i < mi)%nat -> (D_ci d).[i] = (D_ci d1).[i]) ->
  (forall i j, (i < me)%nat -> ent (D_Ae d) i j = ent (D_Ae d1) i j) ->
  (forall i j, (i < mi)%nat -> ent (D_Ai d) i j = ent (D_Ai d1) i j) ->
  (forall i, (i < mi)%nat -> s i = s1 i) -> (forall i, (i < me)%nat -> y i = y1 i) -> (forall i, (i < mi)%nat -> z i = z1 i) ->
  within n me mi d s y z mu t -> within n me mi d1 s1 y1 z1 mu t.
Proof.
  intros H1 H2 H3 H4 H5 H6 H7 H8 (A & B & C & D). unfold within.
  rewrite <- (sumn_ext me (fun i => Rabs (y i)) (fun i => Rabs (y1 i))) by (intros; rewrite H7; auto).
  rewrite <- (sumn_ext mi (fun i => Rabs (z i)) (fun i => Rabs (z1 i))) by (intros; rewrite H8; auto).
  repeat split.
  - intros j L. replace (stationarity me mi d1 y1 z1 j) with (stationarity me mi d y z j); auto.
    unfold stationarity. rewrite H1 by auto. f_equal; [f_equal|]; apply sumn_ext; intros; [rewrite H4, H7|rewrite H5, H8]; auto.
  - intros i L. rewrite <- H6, <- H8; auto.
  - intros i L. rewrite <- H2; auto.
  - intros i L. rewrite <- H3, <- H6; auto.
Qed.
Lemma within_eq_ext n me d d1 y y1 t :
  (forall j, (j < n)%nat -> (D_g d).[j] = (D_g d1).[j]) ->
  (forall i, (i < me)%nat -> (D_ce d).[i] = (D_ce d1).[i]) ->
  (forall i j, (i < me)%nat -> ent (D_Ae d) i j = ent (D_Ae d1) i j) ->
  (forall i, (i < me)%nat -> y i = y1 i) ->
  within_eq n me d y t -> within_eq n me d1 y1 t.
Proof.
  intros H1 H2 H4 H7 (A & C). unfold within_eq.
  rewrite <- (sumn_ext me (fun i => Rabs (y i)) (fun i => Rabs (y1 i))) by (intros; rewrite H7; auto).
  split.
  - intros j L. replace ((D_g d1).[j] - sumn me (fun i => ent (D_Ae d1) i j * y1 i)) with ((D_g d).[j] - sumn me (fun i => ent (D_Ae d) i j * y i)); auto.
    rewrite H1 by auto. f_equal; apply sumn_ext; intros; rewrite H4, H7; auto.
  - intros i L. rewrite <- H2; auto.
Qed.

Lemma vinv_length (v : list R) n : length v = n -> @length R (vinv (S := Rn) v) = n.
Proof. intros <-. apply map_length. Qed.
Lemma vinv_nth (v : list R) i : (i < length v)%nat -> (vinv (S := Rn) v : list R).[i] = 1 / v.[i].
Proof. intros L. unfold vinv. rewrite (nth_map_lt _ _ _ 0) by auto. reflexivity. Qed.
Lemma diag_wf (dv : list R) (A : list (list R)) m n : length dv = m -> wf m n A -> wf m n (diag_mul (S := Rn) dv A).
Proof.
  intros L [LA W]. split.
  - unfold diag_mul. rewrite map_length, combine_length. cbn in *. lia.
  - intros r I. unfold diag_mul in I. apply in_map_iff in I as ([x a] & <- & I). apply in_combine_r in I.
    etransitivity; [apply (vscale_length (S := Rn))|]. apply W. auto.
Qed.
Lemma diag_ent (dv : list R) (A : list (list R)) m n i j : length dv = m -> wf m n A -> (i < m)%nat -> ent (diag_mul (S := Rn) dv A) i j = dv.[i] * ent A i j.
Proof.
  intros L [LA W] H. unfold ent, diag_mul.
  rewrite (nth_map_lt _ _ _ (0 : Rn, [])) by (rewrite combine_length; cbn in *; lia).
  rewrite (combine_nth dv A) by (cbn in *; lia). apply vscale_nth.
Qed.
Lemma mapmul_nth (v : list R) (f : R) i : (map (fun x : R => x * f) v).[i] = v.[i] * f.
Proof.
  destruct (Nat.lt_ge_cases i (length v)) as [L|L]; [apply (nth_map_lt (fun x => x * f)); auto|].
  rewrite !nth_overflow; try rewrite map_length; auto; lra.
Qed.

Lemma c41 : forall n me mi (d d' : data) (f : R) (de di s y z : list R) (mu t : R),
  data_ok n me mi d -> is_scaled n me mi f (fun i => de.[i]) (fun i => di.[i]) d d' ->
  0 < f -> length de = me -> length di = mi -> (forall x, In x de -> 0 < x) -> (forall x, In x di -> 0 < x) ->
  length s = mi -> length y = me -> length z = mi -> (0 < mi)%nat -> 0 <= t ->
  unscaled_ipm (S := Rn) (mkSc (S := Rn) f de di) n (D_g d') (D_Ae d') (D_ce d') (D_Ai d') (D_ci d') s y z mu <= t <->
  within n me mi d (fun i => s.[i] / di.[i]) (fun i => de.[i] * y.[i] / f) (fun i => di.[i] * z.[i] / f) (mu / f) t.
Proof.
  intros n me mi d d' f de di s y z mu t (Hg & He & Hce & Hi & Hci) ((Hg' & He' & Hce' & Hi' & Hci') & S1 & S2 & S3 & S4 & S5)
    F Lde Ldi Pde Pdi Ls Ly Lz M T. unfold unscaled_ipm.
  replace (is_identity (S := Rn) _) with false.
  2:{ unfold is_identity. cbn [sc_f sc_e sc_i]. change (@length (car (nbase Rn)) di) with (@length R di). rewrite Ldi. destruct mi; [lia|]. cbn. rewrite andb_false_r. auto. }
  cbn zeta. cbn [sc_f sc_e sc_i].
  set (ie := vinv (S := Rn) de). set (ii := vinv (S := Rn) di).
  assert (Lie : @length R ie = me) by (apply vinv_length; auto). assert (Lii : @length R ii = mi) by (apply vinv_length; auto).
  pose (u := mkData (vscale (S := Rn) (1 / f) (D_g d')) (diag_mul (S := Rn) ie (D_Ae d')) (vmul (S := Rn) ie (D_ce d')) (diag_mul (S := Rn) ii (D_Ai d')) (vmul (S := Rn) ii (D_ci d'))).
  assert (U : data_ok n me mi u).
  { unfold data_ok. cbn [u D_g D_Ae D_ce D_Ai D_ci]. split; [etransitivity; [apply (vscale_length (S := Rn))|auto]|].
    split; [apply diag_wf; auto|]. split; [apply vmul_length_R; auto|]. split; [apply diag_wf; auto|apply vmul_length_R; auto]. }
  pose (yu := map (fun v : R => v * (1 / f)) (vmul (S := Rn) de y)). pose (zu := map (fun v : R => v * (1 / f)) (vmul (S := Rn) di z)).
  pose (su := vmul (S := Rn) ii s).
  assert (Lyu : length yu = me) by (unfold yu; rewrite map_length; apply vmul_length_R; auto).
  assert (Lzu : length zu = mi) by (unfold zu; rewrite map_length; apply vmul_length_R; auto).
  assert (Lsu : @length R su = mi) by (apply vmul_length_R; auto).
  pose proof (c42 n me mi u su yu zu (mu / f) t U Lsu Lyu Lzu T) as C.
  replace (s_mul Rn (s_div Rn (s_ofZ Rn 1) f) mu) with (mu / f) by (cbn; field; lra).
  assert (Nde : forall i, (i < me)%nat -> 0 < de.[i]) by (intros; apply Pde, nth_In; lia).
  assert (Ndi : forall i, (i < mi)%nat -> 0 < di.[i]) by (intros; apply Pdi, nth_In; lia).
  assert (X1 : forall j, (j < n)%nat -> (D_g u).[j] = (D_g d).[j]).
  { intros j L. cbn [u D_g]. rewrite vscale_nth, S1 by auto. field. lra. }
  assert (X2 : forall i, (i < me)%nat -> (D_ce u).[i] = (D_ce d).[i]).
  { intros i L. cbn [u D_ce]. rewrite (vmul_nth _ _ me), S2 by auto. unfold ie. rewrite vinv_nth by lia. field. specialize (Nde i L). lra. }
  assert (X3 : forall i, (i < mi)%nat -> (D_ci u).[i] = (D_ci d).[i]).
  { intros i L. cbn [u D_ci]. rewrite (vmul_nth _ _ mi), S3 by auto. unfold ii. rewrite vinv_nth by lia. field. specialize (Ndi i L). lra. }
  assert (X4 : forall i j, (i < me)%nat -> ent (D_Ae u) i j = ent (D_Ae d) i j).
  { intros i j L. cbn [u D_Ae]. rewrite (diag_ent _ _ me n), S4 by auto. unfold ie. rewrite vinv_nth by lia. field. specialize (Nde i L). lra. }
  assert (X5 : forall i j, (i < mi)%nat -> ent (D_Ai u) i j = ent (D_Ai d) i j).
  { intros i j L. cbn [u D_Ai]. rewrite (diag_ent _ _ mi n), S5 by auto. unfold ii. rewrite vinv_nth by lia. field. specialize (Ndi i L). lra. }
  assert (X6 : forall i, (i < mi)%nat -> (su : list R).[i] = s.[i] / di.[i]).
  { intros i L. unfold su. rewrite (vmul_nth _ _ mi) by auto. unfold ii. rewrite vinv_nth by lia. field. specialize (Ndi i L). lra. }
  assert (X7 : forall i, (i < me)%nat -> yu.[i] = de.[i] * y.[i] / f).
  { intros i L. unfold yu. rewrite mapmul_nth, (vmul_nth _ _ me) by auto. field. lra. }
  assert (X8 : forall i, (i < mi)%nat -> zu.[i] = di.[i] * z.[i] / f).
  { intros i L. unfold zu. rewrite mapmul_nth, (vmul_nth _ _ mi) by auto. field. lra. }
  etransitivity; [exact C|].
  split; apply within_ext; auto; intros; symmetry; auto.
Qed.
Lemma c41_sqp : forall n me (d d' : data) (f : R) (de y : list R) (t : R),
  data_ok n me 0 d -> is_scaled n me 0 f (fun i => de.[i]) (fun _ => 0) d d' ->
  0 < f -> length de = me -> (forall x, In x de -> 0 < x) -> length y = me -> (0 < me)%nat -> 0 <= t ->
  unscaled_sqp (S := Rn) (mkSc (S := Rn) f de []) n (D_g d') (D_Ae d') (D_ce d') y <= t <->
  within_eq n me d (fun i => de.[i] * y.[i] / f) t.
Proof.
  intros n me d d' f de y t (Hg & He & Hce & Hi & Hci) ((Hg' & He' & Hce' & Hi' & Hci') & S1 & S2 & S3 & S4 & S5)
    F Lde Pde Ly M T. unfold unscaled_sqp.
  replace (is_identity (S := Rn) _) with false.
  2:{ unfold is_identity. cbn [sc_f sc_e sc_i]. change (@length (car (nbase Rn)) de) with (@length R de). rewrite Lde. destruct me; [lia|]. cbn. rewrite andb_false_r. auto. }
  cbn zeta. cbn [sc_f sc_e sc_i].
  set (ie := vinv (S := Rn) de).
  assert (Lie : @length R ie = me) by (apply vinv_length; auto).
  pose (u := mkData (vscale (S := Rn) (1 / f) (D_g d')) (diag_mul (S := Rn) ie (D_Ae d')) (vmul (S := Rn) ie (D_ce d')) [] []).
  pose (yu := map (fun v : R => v * (1 / f)) (vmul (S := Rn) de y)).
  assert (Lyu : length yu = me) by (unfold yu; rewrite map_length; apply vmul_length_R; auto).
  assert (C : kkt_sqp (S := Rn) n (D_g u) (D_Ae u) (D_ce u) yu <= t <-> within_eq n me u (fun i => yu.[i]) t).
  { apply c42_sqp; auto; cbn [u D_g D_Ae D_ce].
    - etransitivity; [apply (vscale_length (S := Rn))|auto].
    - apply diag_wf; auto.
    - apply vmul_length_R; auto. }
  assert (Nde : forall i, (i < me)%nat -> 0 < de.[i]) by (intros; apply Pde, nth_In; lia).
  assert (X1 : forall j, (j < n)%nat -> (D_g u).[j] = (D_g d).[j]).
  { intros j L. cbn [u D_g]. rewrite vscale_nth, S1 by auto. field. lra. }
  assert (X2 : forall i, (i < me)%nat -> (D_ce u).[i] = (D_ce d).[i]).
  { intros i L. cbn [u D_ce]. rewrite (vmul_nth _ _ me), S2 by auto. unfold ie. rewrite vinv_nth by lia. field. specialize (Nde i L). lra. }
  assert (X4 : forall i j, (i < me)%nat -> ent (D_Ae u) i j = ent (D_Ae d) i j).
  { intros i j L. cbn [u D_Ae]. rewrite (diag_ent _ _ me n), S4 by auto. unfold ie. rewrite vinv_nth by lia. field. specialize (Nde i L). lra. }
  assert (X7 : forall i, (i < me)%nat -> yu.[i] = de.[i] * y.[i] / f).
  { intros i L. unfold yu. rewrite mapmul_nth, (vmul_nth _ _ me) by auto. field. lra. }
  etransitivity; [exact C|].
  split; apply within_eq_ext; auto; intros; symmetry; auto.
Qed.
Lemma c41_newton : forall n (g g' : list R) (f t : R), length g = n -> length g' = n -> 0 < f -> (forall j, (j < n)%nat -> g'.[j] = f * g.[j]) ->
  0 <= t -> unscaled_newton (S := Rn) (mkSc (S := Rn) f [] []) g' <= t <-> forall j, (j < n)%nat -> Rabs (g.[j]) <= t.
Proof.
  intros n g g' f t L L' F H T. unfold unscaled_newton, kkt_newton. destruct (is_identity _) eqn:E.
  - unfold is_identity in E. cbn in E. rewrite !andb_true_r in E. apply R_eqb_true in E.
    rewrite (norminf_le_iff _ n) by auto. split; intros K j Lj; specialize (K j Lj); [rewrite H in K by auto|rewrite H by auto]; subst f; rewrite Rmult_1_l in *; auto.
  - cbn [sc_f]. rewrite (norminf_le_iff _ n); auto.
    2:{ etransitivity; [apply (vscale_length (S := Rn))|auto]. }
    assert (X : forall j, (j < n)%nat -> (vscale (S := Rn) (1 / f) g' : list R).[j] = g.[j]).
    { intros j Lj. rewrite vscale_nth, H by auto. field. lra. }
    split; intros K j Lj; specialize (K j Lj); [rewrite <- X|rewrite <- X in K]; auto.
Qed.
(** Without scaling the error is that of the data itself. *)
Lemma c41_identity : forall n (d : data) (s y z : list R) (mu : R),
  (unscaled_ipm (S := Rn) (mkSc (S := Rn) 1 [] []) n (D_g d) (D_Ae d) (D_ce d) (D_Ai d) (D_ci d) s y z mu =
  kkt_ipm (S := Rn) n (D_g d) (D_Ae d) (D_ce d) (D_Ai d) (D_ci d) s y z mu) /\
  (unscaled_sqp (S := Rn) (mkSc (S := Rn) 1 [] []) n (D_g d) (D_Ae d) (D_ce d) y = kkt_sqp (S := Rn) n (D_g d) (D_Ae d) (D_ce d) y).
Proof.
  intros. assert (E : is_identity (S := Rn) (mkSc (S := Rn) 1 [] []) = true).
  { unfold is_identity. cbn. rewrite !andb_true_r. apply R_eqb_true. auto. }
  unfold unscaled_ipm, unscaled_sqp. rewrite E. auto.
Qed.
Lemma c41_ex : let d := mkData [200] [] [] [[400]] [2] in let d' := mkData [100] [] [] [[100]] [1/2] in
  data_ok 1 0 1 d /\ is_scaled 1 0 1 (1/2) (fun i => ([] : list R).[i]) (fun i => [1/4].[i]) d d' /\
  within 1 0 1 d (fun i => [1/2].[i] / [1/4].[i]) (fun i => ([] : list R).[i] * ([] : list R).[i] / (1/2)) (fun i => [1/4].[i] * [1].[i] / (1/2)) (1 / (1/2)) 1.
Proof.
  cbn zeta. split; [|split]; unfold data_ok, is_scaled, data_ok, wf, ent; cbn [D_g D_Ae D_ce D_Ai D_ci length].
  - repeat split; auto; try (match goal with |- forall r, In r _ -> _ => intros r I; cbn in I; destruct I as [<-|[]] || destruct I; reflexivity end).
  - { repeat split; auto; try (intros; lia); try (match goal with |- forall r, In r _ -> _ => intros r I; cbn in I; destruct I as [<-|[]] || destruct I; reflexivity end).
    all: intros [|i]; intros; try lia; try (cbn; lra). destruct j as [|[|j]]; cbn; lra. }
  - assert (forall s k, 1 <= excuse s k) by apply excuse_ge1.
    repeat split; try (intros; lia).
    + intros [|j] L; [|lia]. unfold stationarity, ent. cbn [D_g D_Ae D_Ai nth sumn]. pose proof (H (0 + (0 + Rabs (1 / 4 * 1 / (1 / 2)))) 1%nat).
      replace (200 - 0 - (0 + 400 * (1 / 4 * 1 / (1 / 2)))) with 0 by field. rewrite Rabs_R0. cbn [nth sumn Nat.add] in *. lra.
    + intros [|i] L; [|lia]. cbn [nth sumn]. replace (1 / 2 / (1 / 4) * (1 / 4 * 1 / (1 / 2)) - 1 / (1 / 2)) with (-1) by field.
      rewrite Rabs_left by lra. specialize (H (0 + Rabs (1 / 4 * 1 / (1 / 2))) 1%nat). lra.
    + intros [|i] L; [|lia]. cbn [nth D_ci]. replace (2 - 1 / 2 / (1 / 4)) with 0 by field. rewrite Rabs_R0. lra.
Qed.
