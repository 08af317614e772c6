(** Proofs for C40, C43, C48, C63 (clamping), C64. *)
From Coq Require Import ZArith Reals List Bool Lra Lia Psatz.
From Verif Require Import Base ExprModel ExprReal ExprXR NumModel LinR UtilModel UtilSpec FilterProofs.
Import ListNotations.
Local Open Scope R_scope.

(** ** C43 *)
Lemma ftb_step (x p tau a : R) : 0 < x -> 0 < tau <= 1 -> 0 < a <= 1 ->
  let a' := if R_ltb (a * p) (- tau * x) then - tau / p * x else a in
  0 < a' <= a /\ x + a' * p >= (1 - tau) * x /\ (forall b, 0 <= b <= a -> x + b * p >= (1 - tau) * x -> b <= a').
Proof.
  intros X T A. cbn. unfold R_ltb. destruct (Rlt_dec (a * p) (- tau * x)) as [L|L].
  - assert (P : p < 0) by nra.
    assert (E : - tau / p * x * p = - tau * x) by (field; lra).
    assert (0 < - tau / p * x).
    { apply Rmult_lt_0_compat; auto. replace (- tau / p) with (tau / (- p)) by (field; lra). apply Rdiv_lt_0_compat; lra. }
    repeat split; auto; try nra. intros b B H1. nra.
  - repeat split; try nra. intros; lra.
Qed.
Lemma ftb_from_spec (x p : list R) tau : 0 < tau <= 1 -> forall a, List.Forall (fun v => 0 < v) x -> length x = length p -> 0 < a <= 1 ->
  let a' := ftb_from (S := Rn) x p tau a in
  0 < a' <= a /\ keeps x p tau a' /\ (forall b, 0 <= b <= a -> keeps x p tau b -> b <= a').
Proof.
  intros T. revert p. induction x as [|x0 x IH]; intros [|p0 p] a F E A; cbn in E; try discriminate.
  { cbn. split; [lra|]. split; [intros i H; cbn in H; lia|]. intros; lra. }
  inversion_clear F as [|? ? X0 F']. cbn zeta. cbn [ftb_from]. cbn -[IZR].
  destruct (ftb_step x0 p0 tau a X0 T A) as (S1 & S2 & S3).
  set (a1 := if R_ltb (a * p0) (- tau * x0) then - tau / p0 * x0 else a) in *.
  destruct (IH p a1 F' ltac:(lia) ltac:(lra)) as (I1 & I2 & I3). cbn zeta in I1, I2, I3.
  set (a2 := ftb_from (S := Rn) x p tau a1) in *.
  split; [cbn in *; lra|]. split.
  - intros [|i] Hi; cbn in Hi |- *; [|apply I2; lia].
    destruct (Rle_dec 0 p0); nra.
  - intros b B K. apply I3.
    + split; [lra|]. apply S3; auto. apply (K O). cbn; lia.
    + intros i Hi. apply (K (S i)). cbn; lia.
Qed.
Lemma c43 : forall (x p : list R) (tau : R), List.Forall (fun v => 0 < v) x -> length x = length p -> 0 < tau <= 1 ->
  let a := ftb (S := Rn) x p tau in
  0 < a <= 1 /\ keeps x p tau a /\ (forall b, 0 <= b <= 1 -> keeps x p tau b -> b <= a).
Proof. intros. apply ftb_from_spec; auto. cbn. lra. Qed.
Lemma c43_ex : List.Forall (fun v => 0 < v) [1; 2] /\ 0 < 99/100 <= 1 /\ ftb (S := Rn) [1; 2] [-3; 1] (99/100) < 1.
Proof.
  split; [repeat constructor; lra|]. split; [lra|].
  destruct (c43 [1; 2] [-3; 1] (99/100)) as (A & B & _); [repeat constructor; lra|reflexivity|lra|].
  specialize (B O ltac:(cbn; lia)). cbn [nth] in B. lra.
Qed.

(** ** C64 *)
Lemma lit_R m k : lit (S := Rn) m k = IZR m / IZR (10 ^ Z.of_nat k).
Proof. reflexivity. Qed.
Lemma sqrt_lt_iff s b : 0 < b -> 0 <= s -> sqrt s < b <-> s < b * b.
Proof.
  intros B P. split; intros H.
  - rewrite <- (sqrt_sqrt s P). assert (0 <= sqrt s) by apply sqrt_pos. nra.
  - rewrite <- (sqrt_square b) by lra. apply sqrt_lt_1; nra.
Qed.
Lemma sqrt_gt_iff s b : 0 < b -> 0 <= s -> b < sqrt s <-> b * b < s.
Proof.
  intros B P. split; intros H.
  - rewrite <- (sqrt_sqrt s P). assert (0 <= sqrt s) by apply sqrt_pos. nra.
  - rewrite <- (sqrt_square b) by lra. apply sqrt_lt_1; nra.
Qed.
Definition sq (n : nat) (f : nat -> R) : R := sumn n (fun i => f i * f i).
Lemma sq_nonneg n f : 0 <= sq n f.
Proof. apply sumn_nonneg. intros; nra. Qed.
Lemma sq_ext n f g : (forall i, (i < n)%nat -> f i = g i) -> sq n f = sq n g.
Proof. intros H. apply sumn_ext. intros. rewrite H; auto. Qed.

Lemma c64_norms m n (A : list (list R)) (c : list R) k b : wf m n A -> length c = m -> 0 < IZR k -> 0 < IZR b ->
  R_ltb (norm2 (S := Rn) (mtvec (S := Rn) n A c)) (1 / IZR k) && R_ltb (1 / IZR b) (norm2 (S := Rn) c) = true <->
  sumn n (fun j => sumn m (fun i => ent A i j * c.[i]) * sumn m (fun i => ent A i j * c.[i])) < 1 / IZR k * (1 / IZR k) /\
  1 / IZR b * (1 / IZR b) < sumn m (fun i => c.[i] * c.[i]).
Proof.
  intros W L Hk Hb. rewrite andb_true_iff, !R_ltb_true, !norm2_R.
  destruct (mtvec_spec m n A c W L) as [P Q].
  assert (E : sumn (length (mtvec (S := Rn) n A c)) (fun i => (mtvec (S := Rn) n A c : list R).[i] * (mtvec (S := Rn) n A c : list R).[i]) =
              sumn n (fun j => sumn m (fun i => ent A i j * c.[i]) * sumn m (fun i => ent A i j * c.[i]))).
  { rewrite P. apply sumn_ext. intros j _. rewrite Q. reflexivity. }
  assert (0 < 1 / IZR k) by (apply Rdiv_lt_0_compat; lra). assert (0 < 1 / IZR b) by (apply Rdiv_lt_0_compat; lra).
  rewrite sqrt_lt_iff, sqrt_gt_iff; auto; try (apply sumn_nonneg; intros; nra).
  replace (length c) with m. split; intros [H1 H2]; split; auto; cbn in *; lra.
Qed.

Lemma c64_eq : forall m n (A : list (list R)) (c : list R), wf m n A -> length c = m -> eq_infeasible (S := Rn) n A c = true <->
  (0 < m)%nat /\
  sumn n (fun j => sumn m (fun i => ent A i j * c.[i]) * sumn m (fun i => ent A i j * c.[i])) < 1 / IZR (10 ^ 6) * (1 / IZR (10 ^ 6)) /\
  1 / IZR (10 ^ 2) * (1 / IZR (10 ^ 2)) < sumn m (fun i => c.[i] * c.[i]).
Proof.
  intros m n A c W L. unfold eq_infeasible. rewrite <- andb_assoc, andb_true_iff, !lit_R.
  change (Z.of_nat 6) with 6%Z. change (Z.of_nat 2) with 2%Z.
  change (s_ltb Rn) with R_ltb. rewrite (c64_norms m n A c (10^6) (10^2) W L) by (apply IZR_lt; reflexivity).
  destruct W as [<- _]. rewrite negb_true_iff, Nat.eqb_neq. split; intros [H1 H2]; split; auto; cbn in *; lia.
Qed.
Lemma c64_ineq : forall m n (A : list (list R)) (c : list R), wf m n A -> length c = m -> ineq_infeasible (S := Rn) n A c = true <->
  (0 < m)%nat /\
  sumn n (fun j => sumn m (fun i => ent A i j * Rmin (c.[i]) 0) * sumn m (fun i => ent A i j * Rmin (c.[i]) 0)) < 1 / IZR (10 ^ 6) * (1 / IZR (10 ^ 6)) /\
  1 / IZR (10 ^ 6) * (1 / IZR (10 ^ 6)) < sumn m (fun i => Rmin (c.[i]) 0 * Rmin (c.[i]) 0).
Proof.
  intros m n A c W L. unfold ineq_infeasible.
  assert (X : forall b c : bool, (if b then c else false) = b && c) by (intros [] []; auto).
  rewrite X, andb_true_iff, !lit_R. change (Z.of_nat 6) with 6%Z.
  change (s_ltb Rn) with R_ltb. rewrite (c64_norms m n A _ (10^6) (10^6) W) by (try rewrite map_length; auto; apply IZR_lt; reflexivity).
  assert (E : forall i, (i < m)%nat -> (map (fun c : Rn => smin c (s_ofZ Rn 0)) c : list R).[i] = Rmin (c.[i]) 0).
  { intros i Hi. rewrite (nth_map_lt (fun c : R => smin (S := Rn) c (s_ofZ Rn 0)) _ _ 0) by lia. apply smin_R. }
  rewrite (sumn_ext n _ (fun j => sumn m (fun i => ent A i j * Rmin (c.[i]) 0) * sumn m (fun i => ent A i j * Rmin (c.[i]) 0))).
  2:{ intros j _. rewrite (sumn_ext m _ (fun i => ent A i j * Rmin (c.[i]) 0)) by (intros; rewrite E; auto). reflexivity. }
  rewrite (sumn_ext m _ (fun i => Rmin (c.[i]) 0 * Rmin (c.[i]) 0)) by (intros; rewrite E; auto).
  destruct W as [<- _]. rewrite negb_true_iff, Nat.eqb_neq. split; intros [H1 H2]; split; auto; cbn in *; lia.
Qed.
Lemma c64_feasible : forall m n (A : list (list R)) (c : list R), wf m n A -> length c = m ->
  ((forall i, (i < m)%nat -> c.[i] = 0) -> eq_infeasible (S := Rn) n A c = false) /\
  ((forall i, (i < m)%nat -> 0 <= c.[i]) -> ineq_infeasible (S := Rn) n A c = false).
Proof.
  intros m n A c W L. split; intros H.
  - apply not_true_is_false. intros C. apply (c64_eq m n) in C as (_ & _ & C); auto.
    rewrite sumn_0 in C by (intros; rewrite H by auto; lra).
    assert (0 < 1 / IZR (10 ^ 2)) by (apply Rdiv_lt_0_compat; [lra|apply IZR_lt; reflexivity]). nra.
  - apply not_true_is_false. intros C. apply (c64_ineq m n) in C as (_ & _ & C); auto.
    rewrite sumn_0 in C by (intros; rewrite Rmin_right by auto; lra).
    assert (0 < 1 / IZR (10 ^ 6)) by (apply Rdiv_lt_0_compat; [lra|apply IZR_lt; reflexivity]). nra.
Qed.
Lemma c64_ex : eq_infeasible (S := Rn) 1 [[0]; [1]] [1; 0] = true /\ ineq_infeasible (S := Rn) 1 [[0]; [1]] [-1; 2] = true.
Proof.
  assert (W : wf 2 1 [[0]; [1]]) by (split; [reflexivity|intros r [<-|[<-|[]]]; reflexivity]).
  assert (0 < 1 / IZR (10 ^ 6)) by (apply Rdiv_lt_0_compat; [lra|apply IZR_lt; reflexivity]).
  assert (1 / IZR (10 ^ 6) < 1) by (apply Rmult_lt_reg_r with (IZR (10 ^ 6)); [apply IZR_lt; reflexivity|unfold Rdiv; rewrite Rmult_assoc, Rinv_l, !Rmult_1_l, ?Rmult_1_r; [apply IZR_lt; reflexivity|apply not_0_IZR; discriminate]]).
  split.
  - apply (c64_eq 2 1); auto. split; [lia|]. cbn [sumn nth ent]. change (10 ^ 2)%Z with 100%Z. split; nra.
  - apply (c64_ineq 2 1); auto. split; [lia|]. cbn [sumn nth ent]. rewrite (Rmin_left (-1)) by lra. rewrite (Rmin_right 2) by lra. split; nra.
Qed.

(** ** C48 *)
Lemma ln_le_minus t : 0 < t -> ln t <= t - 1.
Proof. intros T. pose proof (exp_ineq1_le (ln t)). rewrite exp_ln in H by auto. lra. Qed.
Lemma ln_quot a b : 0 < a -> 0 < b -> ln (a / b) = ln a - ln b.
Proof. intros A B. unfold Rdiv. rewrite ln_mult, ln_Rinv; auto. apply Rinv_0_lt_compat; auto. Qed.
Lemma c48_row (c rho mu : R) : 0 < rho -> 0 < mu ->
  let '(p, n) := p_n (S := Rn) c rho mu in
  0 < p /\ 0 < n /\ c - p + n = 0 /\
  (forall p' n', 0 < p' -> 0 < n' -> c - p' + n' = 0 -> elastic rho mu p n <= elastic rho mu p' n').
Proof.
  intros Hr Hm. unfold p_n. cbn -[IZR].
  replace ((rho * c - mu) * (rho * c - mu) - 4 * rho * (- mu * c / 2)) with (rho * c * (rho * c) + mu * mu) by field.
  assert (Q0 : 0 <= rho * c * (rho * c) + mu * mu) by nra.
  pose proof (sqrt_sqrt _ Q0) as Q. pose proof (sqrt_pos (rho * c * (rho * c) + mu * mu)) as Qp.
  set (q := sqrt (rho * c * (rho * c) + mu * mu)) in *.
  assert (Hq : rho * c < q /\ - (rho * c) < q) by (split; nra).
  set (n := (- (rho * c - mu) + q) / (2 * rho)).
  assert (Hn : 2 * rho * n = mu - rho * c + q) by (unfold n; field; lra).
  assert (N : 0 < n) by nra. assert (P : 0 < c + n) by nra.
  assert (St : mu * (/ (c + n) + / n) = 2 * rho).
  { assert (mu * (c + n + n) = 2 * rho * ((c + n) * n)) by nra.
    field_simplify_eq; [|split; lra]. nra. }
  repeat split; auto; try lra.
  intros p' n' P' N' L. unfold elastic.
  assert (p' = c + n') by lra. subst p'.
  pose proof (ln_le_minus ((c + n') / (c + n)) ltac:(apply Rdiv_lt_0_compat; lra)) as L1.
  pose proof (ln_le_minus (n' / n) ltac:(apply Rdiv_lt_0_compat; lra)) as L2.
  rewrite ln_quot in L1, L2 by lra.
  assert (E1 : (c + n') / (c + n) - 1 = (n' - n) * / (c + n)) by (field; lra).
  assert (E2 : n' / n - 1 = (n' - n) * / n) by (field; lra).
  rewrite E1 in L1. rewrite E2 in L2.
  assert (mu * (ln (c + n') - ln (c + n) + (ln n' - ln n)) <= (n' - n) * (2 * rho)).
  { rewrite <- St. replace ((n' - n) * (mu * (/ (c + n) + / n))) with (mu * ((n' - n) * / (c + n) + (n' - n) * / n)) by ring.
    apply Rmult_le_compat_l; lra. }
  lra.
Qed.
Lemma c48 : forall (c : list R) (rho mu : R), 0 < rho -> 0 < mu -> let '(p, n) := compute_p_n (S := Rn) c rho mu in
  length p = length c /\ length n = length c /\
  forall i, (i < length c)%nat ->
    0 < (p : list R).[i] /\ 0 < (n : list R).[i] /\ c.[i] - (p : list R).[i] + (n : list R).[i] = 0 /\
    (forall p' n', 0 < p' -> 0 < n' -> c.[i] - p' + n' = 0 ->
       elastic rho mu ((p : list R).[i]) ((n : list R).[i]) <= elastic rho mu p' n').
Proof.
  intros c rho mu Hr Hm. unfold compute_p_n. rewrite !map_length. repeat split; auto; intros.
  all: pose proof (c48_row (c.[i]) rho mu Hr Hm) as K; destruct (p_n (S := Rn) (c.[i]) rho mu) as [p n] eqn:E.
  all: rewrite ?(nth_map_lt (fun x : R => fst (p_n (S := Rn) x rho mu)) _ _ 0), ?(nth_map_lt (fun x : R => snd (p_n (S := Rn) x rho mu)) _ _ 0) by auto.
  all: rewrite ?E; cbn; try apply K; auto.
Qed.

(** ** C63: clamping *)
Lemma kappa_R : kappa_sigma (S := Rn) = IZR 10000000000.
Proof. reflexivity. Qed.
Lemma clamp_z_spec (mu s z : R) : 0 < mu -> 0 < s ->
  exists v : R, clamp_z (S := Rn) mu s z = Ok v /\ 0 < mu / (IZR (10 ^ 10) * s) <= v /\ v <= IZR (10 ^ 10) * mu / s /\
    (mu / (IZR (10 ^ 10) * s) <= z <= IZR (10 ^ 10) * mu / s -> v = z).
Proof.
  intros M P. unfold clamp_z, clamp. rewrite kappa_R. change (10 ^ 10)%Z with 10000000000%Z.
  assert (K : 1 < IZR 10000000000) by (apply IZR_lt; reflexivity). set (k := IZR 10000000000) in *. clearbody k.
  cbn -[IZR].
  assert (k <> 0) by lra. assert (s <> 0) by lra.
  assert (E : 1 / k * mu / s = mu / (k * s)) by (field; auto). rewrite E.
  assert (0 < k * s) by nra.
  assert (0 < mu / (k * s)) by (apply Rdiv_lt_0_compat; lra).
  assert (mu / (k * s) <= k * mu / s).
  { apply Rmult_le_reg_r with (k * s); auto. replace (mu / (k * s) * (k * s)) with mu by (field; auto).
    replace (k * mu / s * (k * s)) with (k * k * mu) by (field; auto). assert (1 <= k * k) by nra. assert (0 <= (k * k - 1) * mu) by (apply Rmult_le_pos; lra). lra. }
  replace (R_ltb (k * mu / s) (mu / (k * s))) with false by (symmetry; apply R_ltb_false; auto).
  unfold R_ltb. destruct (Rlt_dec z (mu / (k * s))) as [L|L]; [|destruct (Rlt_dec (k * mu / s) z) as [L'|L']].
  - exists (mu / (k * s)). repeat split; auto; lra.
  - exists (k * mu / s). repeat split; auto; lra.
  - exists z. repeat split; auto; lra.
Qed.
Lemma c63_clamp : forall (mu : R) (s z : list R), 0 < mu -> List.Forall (fun v => 0 < v) s -> length s = length z ->
  exists z' : list R, clamp_zs (S := Rn) mu s z = Ok z' /\ length z' = length z /\
    forall i, (i < length z)%nat ->
      0 < mu / (IZR (10 ^ 10) * s.[i]) <= z'.[i] /\ z'.[i] <= IZR (10 ^ 10) * mu / s.[i] /\
      (mu / (IZR (10 ^ 10) * s.[i]) <= z.[i] <= IZR (10 ^ 10) * mu / s.[i] -> z'.[i] = z.[i]).
Proof.
  intros mu s z M. revert z. induction s as [|s0 s IH]; intros [|z0 z] F L; cbn in L; try discriminate.
  { exists []. repeat split; auto; cbn in *; lia. }
  inversion_clear F as [|? ? S0 F']. destruct (IH z F' ltac:(lia)) as (z' & E & L' & H).
  destruct (clamp_z_spec mu s0 z0 M S0) as (v & E0 & H0).
  exists (v :: z'). cbn [clamp_zs]. rewrite E0. cbn [obind]. rewrite E. cbn [obind]. split; [reflexivity|].
  split; [cbn; lia|]. intros [|i] Hi; cbn [nth]; [tauto|]. apply H. cbn in Hi. lia.
Qed.
Lemma c48_ex : p_n (S := Rn) 0 1 1 = (1, 1) /\ compute_p_n (S := Rn) [0; 0] 1 1 = ([1; 1], [1; 1]).
Proof.
  assert (E : p_n (S := Rn) 0 1 1 = (1, 1)).
  { unfold p_n. cbn. replace ((1 * 0 - 1) * (1 * 0 - 1) - 4 * 1 * (- (1) * 0 / 2)) with 1 by field. rewrite sqrt_1.
    replace ((- (1 * 0 - 1) + 1) / (2 * 1)) with 1 by field. f_equal. lra. }
  split; auto. unfold compute_p_n. cbn [map]. rewrite E. reflexivity.
Qed.
