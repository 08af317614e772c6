(** Exact LDL' elimination solves the systems of equality-constrained quadratic programs (for C91). *)
From Coq Require Import ZArith Reals List Bool Arith Lia Lra.
From Verif Require Import Base ExprModel ExprReal ExprXR NumModel UtilModel UtilSpec FilterProofs LdltProofs SolverModel LinR XArith QuadSpec QuadProofs LdlModel LdlProofs SaddleSpec.
Import ListNotations.
Local Open Scope R_scope.

Lemma form_first n M : form (S n) M (fun i => if Nat.eqb i 0 then 1 else 0) = M 0%nat 0%nat.
Proof.
  unfold form. rewrite !sumn_shift. cbn [Nat.eqb]. rewrite (sumn_0 n (fun j => M 0%nat (S j) * 1 * 0)) by (intros; ring).
  rewrite (sumn_0 n (fun i => sumn (S n) (fun j => M (S i) j * 0 * (if Nat.eqb j 0 then 1 else 0)))); [ring|]. intros i _. apply sumn_0. intros; ring.
Qed.
Lemma pivots_negative n : forall M m, (forall i j, M i j = M j i) -> 0 < m -> (forall v, form n M v <= - m * norm_sq n v) -> exists D, pivots n M = Some D /\ forall x, In x D -> x <= - m.
Proof.
  induction n as [|n IH]; intros M m Sy Pm De; [exists []; split; [reflexivity|intros ? []]|]. cbn [pivots].
  assert (P0 : M 0%nat 0%nat <= - m).
  { rewrite <- (form_first n M). eapply Rle_trans; [apply De|]. unfold norm_sq. rewrite sumn_shift. cbn [Nat.eqb]. rewrite (sumn_0 n) by (intros; ring). lra. }
  destruct (Req_EM_T (M 0%nat 0%nat) 0) as [Z|Nz]; [lra|].
  destruct (IH (schur M) m (schur_sym M Sy) Pm) as (D & -> & HD).
  - intros v. set (s := sumn n (fun j => M 0%nat (S j) * v j)).
    pose (w := fun i => match i with O => - (s / M 0%nat 0%nat) | S i => v i end). specialize (De w). rewrite (form_S n M w Sy Nz) in De.
    change (sumn n (fun j => M 0%nat (S j) * w (S j))) with s in De. change (fun i => w (S i)) with v in De. change (w 0%nat) with (- (s / M 0%nat 0%nat)) in De.
    replace (- (s / M 0%nat 0%nat) + s / M 0%nat 0%nat) with 0 in De by ring. unfold norm_sq in De. rewrite sumn_shift in De. cbn [w] in De.
    change (sumn n (fun i => v i * v i)) with (norm_sq n v) in De. pose proof (Rle_0_sqr (- (s / M 0%nat 0%nat))) as P1. unfold Rsqr in *.
    assert (0 <= m * (- (s / M 0%nat 0%nat) * - (s / M 0%nat 0%nat))) by (apply Rmult_le_pos; lra). lra.
  - exists (M 0%nat 0%nat :: D). split; [reflexivity|]. intros x [<-|I]; auto.
Qed.
(** First positive, then negative pivots. *)
Lemma pivots_saddle n k : forall M m, (forall i j, M i j = M j i) -> 0 < m ->
  (forall u, (forall l, (l < k)%nat -> u (n + l)%nat = 0) -> m * norm_sq n u <= form (n + k) M u) ->
  (forall u, exists u', (forall l, (l < k)%nat -> u' (n + l)%nat = u (n + l)%nat) /\ form (n + k) M u' <= - m * norm_sq k (fun l => u (n + l)%nat)) ->
  exists D1 D2, pivots (n + k) M = Some (D1 ++ D2) /\ length D1 = n /\ length D2 = k /\ (forall x, In x D1 -> m <= x) /\ (forall x, In x D2 -> x <= - m).
Proof.
  induction n as [|n IH]; intros M m Sy Pm P1 P2.
  - cbn [Nat.add] in *. destruct (pivots_negative k M m Sy Pm) as (D & HD & B).
    + intros v. destruct (P2 v) as (u' & Eu & H). rewrite <- (form_ext k M u' v); [exact H|]. intros j Lj. apply Eu, Lj.
    + exists [], D. rewrite (pivots_length k M D HD). repeat split; auto. intros x [].
  - cbn [Nat.add pivots] in *.
    assert (P0 : m <= M 0%nat 0%nat).
    { rewrite <- (form_first (n + k) M). eapply Rle_trans; [|apply P1; intros l _; reflexivity]. unfold norm_sq. rewrite sumn_shift. cbn [Nat.eqb]. rewrite (sumn_0 n) by (intros; ring). lra. }
    destruct (Req_EM_T (M 0%nat 0%nat) 0) as [Z|Nz]; [lra|].
    destruct (IH (schur M) m (schur_sym M Sy) Pm) as (D1 & D2 & -> & L1 & L2 & B1 & B2).
    + intros v Hv. set (s := sumn (n + k) (fun j => M 0%nat (S j) * v j)).
      pose (w := fun i => match i with O => - (s / M 0%nat 0%nat) | S i => v i end). assert (Hw : forall l, (l < k)%nat -> w (S (n + l)) = 0) by (intros l Ll; exact (Hv l Ll)).
      specialize (P1 w Hw). rewrite (form_S (n + k) M w Sy Nz) in P1.
      change (sumn (n + k) (fun j => M 0%nat (S j) * w (S j))) with s in P1. change (fun i => w (S i)) with v in P1. change (w 0%nat) with (- (s / M 0%nat 0%nat)) in P1.
      replace (- (s / M 0%nat 0%nat) + s / M 0%nat 0%nat) with 0 in P1 by ring. unfold norm_sq in P1. rewrite sumn_shift in P1. cbn [w] in P1.
      change (sumn n (fun i => v i * v i)) with (norm_sq n v) in P1. pose proof (Rle_0_sqr (- (s / M 0%nat 0%nat))) as P3. unfold Rsqr in *.
      assert (0 <= m * (- (s / M 0%nat 0%nat) * - (s / M 0%nat 0%nat))) by (apply Rmult_le_pos; lra). lra.
    + intros v. destruct (P2 (fun i => match i with O => 0 | S i => v i end)) as (u' & Eu & H). exists (fun i => u' (S i)). split; [exact Eu|].
      rewrite (form_S (n + k) M u' Sy Nz) in H. match type of H with context [Rsqr ?q] => pose proof (Rle_0_sqr q) as Sq; assert (0 <= M 0%nat 0%nat * Rsqr q) by (apply Rmult_le_pos; lra) end. cbv beta iota in H. lra.
    + exists (M 0%nat 0%nat :: D1), D2. split; [reflexivity|]. cbn [length]. split; [congruence|]. split; [exact L2|]. split; [|exact B2]. intros x [<-|I]; auto.
Qed.
Lemma count_all (f : R -> bool) D : (forall x, In x D -> f x = true) -> count f D = length D.
Proof. unfold count. induction D as [|x D IH]; intros H; [reflexivity|]. cbn [filter]. rewrite (H x (or_introl eq_refl)). cbn [length]. f_equal. apply IH. intros y I. apply H. right. exact I. Qed.
Lemma count_none (f : R -> bool) D : (forall x, In x D -> f x = false) -> count f D = 0%nat.
Proof. unfold count. induction D as [|x D IH]; intros H; [reflexivity|]. cbn [filter]. rewrite (H x (or_introl eq_refl)). apply IH. intros y I. apply H. right. exact I. Qed.
Lemma count_app (f : R -> bool) D1 D2 : count f (D1 ++ D2) = (count f D1 + count f D2)%nat.
Proof. unfold count. rewrite filter_app, app_length. reflexivity. Qed.
Lemma signs_saddle n k D1 D2 m : tiny < m -> length D1 = n -> length D2 = k -> (forall x, In x D1 -> m <= x) -> (forall x, In x D2 -> x <= - m) -> signs n k (D1 ++ D2).
Proof.
  intros T L1 L2 B1 B2. pose proof tiny_pos. unfold signs. rewrite !count_app. split; [|split].
  - rewrite (count_all _ D1), (count_none _ D2); [lia| |]; intros x I; [apply R_ltb_false; specialize (B2 x I); lra|apply R_ltb_true; specialize (B1 x I); lra].
  - rewrite (count_none _ D1), (count_all _ D2); [lia| |]; intros x I; [apply R_ltb_true; specialize (B2 x I); lra|apply R_ltb_false; specialize (B1 x I); lra].
  - intros x I. apply in_app_or in I as [I|I]; [specialize (B1 x I); rewrite Rabs_pos_eq; lra|specialize (B2 x I); rewrite Rabs_left; lra].
Qed.
Lemma tiny_small : tiny < 1 / 10000.
Proof. unfold tiny. apply Rmult_lt_compat_l; [lra|]. apply Rinv_lt_contravar; [apply Rmult_lt_0_compat; apply IZR_lt; reflexivity|apply IZR_lt; reflexivity]. Qed.
Lemma saddle_unperturbed fuel n k M gmin prev D1 D2 : pivots (n + k) M = Some (D1 ++ D2) -> length D1 = n -> length D2 = k -> (forall x, In x D1 -> 1 / 10000 <= x) -> (forall x, In x D2 -> x <= - (1 / 10000)) ->
  ldlt_compute (S := Rn) fuel (fun d g => pivots (n + k) (regularized n M d g)) n k gmin prev = Ok (mkLd (S := Rn) true 0 0).
Proof.
  intros HD L1 L2 B1 B2. unfold ldlt_compute. rewrite (pivots_ext (n + k) _ M) by (intros; apply regularized_0). rewrite HD.
  replace (inertia_eqb (inertia_of (S := Rn) (D1 ++ D2)) (mkIn n k 0)) with true by (symmetry; apply ideal_signs; apply (signs_saddle n k D1 D2 _ tiny_small); assumption).
  replace (forallb _ (D1 ++ D2)) with true; [reflexivity|]. symmetry. apply forallb_forall. intros x I. apply R_leb_true. rewrite lit4. change (IZR (10 ^ 4)) with 10000. cbn [s_abs Rn].
  apply in_app_or in I as [I|I]; [specialize (B1 x I); rewrite Rabs_pos_eq; lra|specialize (B2 x I); rewrite Rabs_left; lra].
Qed.
(** The blocks of the matrix. *)
Lemma kkt_at_bl n k H A l j : length A = k -> (forall w, In w A -> length w = n) -> (l < k)%nat -> (j < n)%nat -> kkt_at n (mkKkt (S := Xn) H (map (map Fin) A)) (n + l) j = ent A l j.
Proof.
  intros LA W Ll Lj. unfold kkt_at, ent. cbn [k_bl]. rewrite Nat.max_l, Nat.min_r by lia. replace (Nat.ltb (n + l) n) with false by (symmetry; apply Nat.ltb_ge; lia).
  replace (Nat.ltb j n) with true by (symmetry; apply Nat.ltb_lt; exact Lj). replace (n + l - n)%nat with l by lia.
  change (real (@nth XR j (@nth (list XR) l (map (map Fin) A) []) (Fin 0)) = nth j (nth l A []) 0).
  rewrite (nth_map_lt (map Fin) A l [] []) by lia. rewrite (nth_map_lt Fin (nth l A []) j 0 (Fin 0)); [reflexivity|]. rewrite (W (nth l A [])) by (apply nth_In; lia). exact Lj.
Qed.
Lemma kkt_at_br n K i j : (n <= i)%nat -> (n <= j)%nat -> kkt_at n K i j = 0.
Proof. intros Li Lj. unfold kkt_at. replace (Nat.ltb (Nat.max i j) n) with false by (symmetry; apply Nat.ltb_ge; lia). replace (Nat.ltb (Nat.min i j) n) with false by (symmetry; apply Nat.ltb_ge; lia). reflexivity. Qed.

Lemma form_blocks n k M (u : nat -> R) : (forall i j, M i j = M j i) -> (forall i j, (n <= i)%nat -> (n <= j)%nat -> M i j = 0) ->
  form (n + k) M u = form n M u + 2 * sumn k (fun l => u (n + l)%nat * sumn n (fun j => M (n + l)%nat j * u j)).
Proof.
  intros Sy Z. unfold form. rewrite sumn_split.
  rewrite (sumn_ext n _ (fun i => sumn n (fun j => M i j * u i * u j) + sumn k (fun l => M i (n + l)%nat * u i * u (n + l)%nat))) by (intros i _; apply sumn_split).
  rewrite sumn_plus. rewrite (sumn_swap n k).
  assert (A : forall l, sumn n (fun i => M i (n + l)%nat * u i * u (n + l)%nat) = u (n + l)%nat * sumn n (fun j => M (n + l)%nat j * u j)).
  { intros l. rewrite <- sumn_scal. apply sumn_ext. intros i _. rewrite (Sy i). ring. }
  rewrite (sumn_ext k _ _ (fun l _ => A l)).
  rewrite (sumn_ext k (fun i => sumn (n + k) (fun j => M (n + i)%nat j * u (n + i)%nat * u j)) (fun l => u (n + l)%nat * sumn n (fun j => M (n + l)%nat j * u j))); [lra|].
  intros l _. rewrite sumn_split. rewrite (sumn_0 k) by (intros i _; rewrite Z by lia; ring). rewrite Rplus_0_r, <- sumn_scal. apply sumn_ext. intros; ring.
Qed.

Lemma ldl_saddle fuel E n k : exact_on_saddle (with_ldl fuel E) n k.
Proof.
  intros H A r LH WH LA WA Lr De In. cbn [with_ldl e_lin ldl_lin ls_new ls_compute ls_solve l_n l_m l_gmin l_prev]. set (M := kkt_at n _).
  assert (Sy : forall i j, M i j = M j i) by apply kkt_at_sym.
  assert (EH : forall i j, (i < n)%nat -> (j < n)%nat -> M i j = low H i j) by (intros; apply kkt_at_low; assumption).
  assert (EA : forall l j, (l < k)%nat -> (j < n)%nat -> M (n + l)%nat j = ent A l j) by (intros; apply (kkt_at_bl n k); assumption).
  assert (EZ : forall i j, (n <= i)%nat -> (n <= j)%nat -> M i j = 0) by (intros; apply kkt_at_br; assumption).
  assert (FH : forall u, form n M u = form n (low H) u). { intros u. apply sumn_ext. intros i Li. apply sumn_ext. intros j Lj. rewrite EH by assumption. reflexivity. }
  destruct (pivots_saddle n k M (1 / 10000) Sy ltac:(lra)) as (D1 & D2 & HD & L1 & L2 & B1 & B2).
  - intros u Hu. rewrite (form_blocks n k M u Sy EZ). rewrite (sumn_0 k) by (intros l Ll; rewrite Hu by exact Ll; ring). rewrite FH. specialize (De u). lra.
  - intros u. destruct (In (fun l => u (n + l)%nat)) as (v & Hv). exists (fun i => if Nat.ltb i n then v i else u i).
    assert (Eu : forall l, (if Nat.ltb (n + l) n then v (n + l)%nat else u (n + l)%nat) = u (n + l)%nat) by (intros l; replace (Nat.ltb (n + l) n) with false by (symmetry; apply Nat.ltb_ge; lia); reflexivity).
    split; [intros l _; apply Eu|]. rewrite (form_blocks n k M _ Sy EZ). rewrite FH. rewrite (form_ext n (low H) _ v) by (intros j Lj; replace (Nat.ltb j n) with true by (symmetry; apply Nat.ltb_lt; exact Lj); reflexivity).
    eapply Rle_trans; [|exact Hv]. apply Req_le. do 2 f_equal. apply sumn_ext. intros l Ll. rewrite Eu. f_equal. apply sumn_ext. intros j Lj. rewrite EA by assumption. replace (Nat.ltb j n) with true by (symmetry; apply Nat.ltb_lt; exact Lj). reflexivity.
  - rewrite (saddle_unperturbed fuel n k M _ _ D1 D2 HD L1 L2 B1 B2). cbn [ld_d ld_g ld_ok]. eexists. eexists. split; [reflexivity|]. cbn [l_M]. rewrite map_length, Lr. split; [reflexivity|]. split; [apply ldl_length|].
    rewrite (pivots_ext (n + k) M (regularized n M 0 0)) in HD by (intros; symmetry; apply regularized_0).
    assert (Ex : forall i, (i < n + k)%nat -> sumn (n + k) (fun j => M i j * (ldl_solve (n + k) (regularized n M 0 0) (fun i => real (@nth XR i (map Fin r) (Fin 0)))).[j]) = r.[i]).
    { intros i Li. pose proof (ldl_exact (n + k) _ (fun i => real (@nth XR i (map Fin r) (Fin 0))) _ HD i Li) as Ex. cbv beta in Ex. rewrite (nth_map_lt Fin r i 0 (Fin 0)) in Ex by lia. cbn [real] in Ex. rewrite <- Ex. apply sumn_ext. intros j _. rewrite regularized_0. reflexivity. }
    set (p := ldl_solve (n + k) _ _) in *. split.
    + intros i Li. rewrite <- (Ex i ltac:(lia)), sumn_split. f_equal; apply sumn_ext; intros j Lj; [rewrite EH by assumption; reflexivity|]. rewrite Sy, EA by assumption. reflexivity.
    + intros l Ll. rewrite <- (Ex (n + l)%nat ltac:(lia)), sumn_split. rewrite (sumn_0 k) by (intros i _; rewrite EZ by lia; ring). rewrite Rplus_0_r. apply sumn_ext. intros j Lj. rewrite EA by assumption. reflexivity.
Qed.
