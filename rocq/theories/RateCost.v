(** Derivatives of the cost along straight lines. *)
From Coq Require Import ZArith Reals List Bool Arith Lia Lra FunctionalExtensionality.
From Coquelicot Require Import Coquelicot.
From Verif Require Import Base ExprModel ExprReal ExprXR MathSpec MathProofs DiffSpec OpDeriv VarSpec SmoothSpec SmoothGraph SmoothOpen SmoothUser SmoothSym PathDeriv
  LinR ProblemModel ProblemSpec ProbSolveSpec LagrSpec FiniteUseSpec FiniteUse ProbEarly ConvexSpec ConvexUse QuadSpec QuadUse.
Import ListNotations.
Local Open Scope R_scope.

Definition cnum (sp : spec) (rho : nat -> R) : R := match sp_goal sp with None => 0 | Some (mx, x) => if mx then - num rho x else num rho x end.
Definition cdn (sp : spec) (rho u : nat -> R) : R := match sp_goal sp with None => 0 | Some (mx, x) => if mx then - dnum rho u x else dnum rho u x end.

Lemma cnum_is sp rho : goal_smooth sp rho -> cost_is sp rho (cnum sp rho).
Proof.
  unfold goal_smooth, cost_is, cnum. destruct (sp_goal sp) as [[mx x]|]; [|reflexivity]. intros (v & H). split; [exact (XSm_pow00 _ _ _ H)|]. exists v. split; [apply XSm_XEv, H|]. rewrite (XSm_num _ _ _ H). reflexivity.
Qed.
Lemma opp_derive (f : R -> R) t d : is_derive f t d -> is_derive (fun s => - f s) t (- d).
Proof. exact (is_derive_opp (K := R_AbsRing) (V := R_NormedModule) f t d). Qed.
Lemma cnum_derive sp rho : goal_smooth sp rho -> forall g t0 w, through g t0 rho w -> is_derive (fun t => cnum sp (g t)) t0 (cdn sp rho w).
Proof.
  unfold goal_smooth, cnum, cdn. destruct (sp_goal sp) as [[mx x]|]; [|intros; apply const_derive]. intros (v & H) g t0 w T. pose proof (num_derive rho x v H g t0 w T). destruct mx; [apply opp_derive|]; assumption.
Qed.
Lemma cdn_lin sp rho a u w : cdn sp rho (fun k => a * u k + w k) = a * cdn sp rho u + cdn sp rho w.
Proof. unfold cdn. destruct (sp_goal sp) as [[[] x]|]; rewrite ?dnum_lin; ring. Qed.
Lemma cdn_derive sp rho : goal_smooth sp rho -> exists M, bilinear M /\ forall g t0 u w, through g t0 rho w -> is_derive (fun t => cdn sp (g t) u) t0 (M u w).
Proof.
  unfold goal_smooth, cdn. destruct (sp_goal sp) as [[mx x]|]; [|intros _; exists (fun _ _ => 0); split; [split; intros; ring|intros; apply const_derive]]. intros (v & H). destruct (dnum_derive rho x v H) as (M & [B1 B2 Bs] & D).
  destruct mx; [|exists M; split; [split; assumption|exact D]]. exists (fun u w => - M u w). split; [split; [intros; rewrite ?B1; ring|intros; rewrite ?B2; ring|intros u w; rewrite (Bs u w); ring]|]. intros g t0 u w T. apply opp_derive, D, T.
Qed.
Lemma goal_open sp rho k : goal_smooth sp rho -> locally (rho k) (fun t => goal_smooth sp (upd rho k t)).
Proof. unfold goal_smooth. destruct (sp_goal sp) as [[mx x]|]; [|intros _; apply filter_forall; intros; exact I]. intros (v & H). exact (XSm_locally rho k x v H). Qed.
Lemma pd_cnum sp rho k : goal_smooth sp rho -> pd k (cost_is sp) rho (cdn sp rho (unit k)).
Proof.
  intros S. exists (fun t => cnum sp (upd rho k t)). split; [|exact (cnum_derive sp rho S _ _ _ (upd_through rho k))].
  eapply loc_mono; [|exact (goal_open sp rho k S)]. intros t H. apply cnum_is, H.
Qed.
Lemma pd_cnum2 sp rho a b M : goal_smooth sp rho -> (forall g t0 u w, through g t0 rho w -> is_derive (fun t => cdn sp (g t) u) t0 (M u w)) -> pd b (pd a (cost_is sp)) rho (M (unit a) (unit b)).
Proof.
  intros S H. exists (fun t => cdn sp (upd rho b t) (unit a)). split; [|apply H, upd_through]. eapply loc_mono; [|exact (goal_open sp rho b S)]. intros t G. apply pd_cnum, G.
Qed.

(** Placing values, as a linear operation. *)
Lemma place_lin (F : (nat -> R) -> R) : (forall a u w, F (fun k => a * u k + w k) = a * F u + F w) -> forall ks, NoDup ks -> forall w h, length h = length ks -> (forall k, In k ks -> w k = 0) ->
  F (place w ks h) = F w + sumn (length ks) (fun i => h.[i] * F (unit (nth i ks 0%nat))).
Proof.
  intros Lin. induction 1 as [|k ks N _ IH]; intros w h Lh Z; [cbn; destruct h; cbn; lra|]. destruct h as [|v h]; [discriminate|]. injection Lh as Lh. cbn [place]. rewrite IH; [|exact Lh|].
  - cbn [length]. rewrite (sumn_shift (length ks)). cbn [nth]. replace (upd w k v) with (fun j => v * unit k j + w j); [rewrite Lin; ring|].
    extensionality j. unfold upd, unit. destruct (Nat.eqb_spec j k) as [->|]; [rewrite Z by (left; reflexivity)|]; ring.
  - intros j Ij. unfold upd. destruct (Nat.eqb_spec j k) as [->|]; [contradiction|]. apply Z. right. exact Ij.
Qed.
Lemma place_derive ks : forall (g : R -> nat -> R) t0 w (y : R -> list R) h, (forall k, is_derive (fun t => g t k) t0 (w k)) -> (forall t, length (y t) = length ks) -> length h = length ks ->
  (forall i, (i < length ks)%nat -> is_derive (fun t => (y t).[i]) t0 (h.[i])) -> forall k, is_derive (fun t => place (g t) ks (y t) k) t0 (place w ks h k).
Proof.
  induction ks as [|a ks IH]; intros g t0 w y h Dg Ly Lh Dy k.
  - cbn. apply Dg.
  - destruct h as [|v h]; [discriminate|]. injection Lh as Lh. cbn [place].
    apply (is_derive_ext (fun t => place (upd (g t) a (y t).[0]) ks (tl (y t)) k)); [intros t; specialize (Ly t); destruct (y t); [discriminate|reflexivity]|].
    apply (IH (fun t => upd (g t) a (y t).[0]) t0 (upd w a v) (fun t => tl (y t)) h).
    + intros j. unfold upd. destruct (Nat.eqb_spec j a); [apply (Dy 0%nat); cbn; lia|apply Dg].
    + intros t. specialize (Ly t). destruct (y t); [discriminate|]. injection Ly as Ly. exact Ly.
    + exact Lh.
    + intros i Li. apply (is_derive_ext (fun t => (y t).[S i])); [intros t; specialize (Ly t); destruct (y t); [discriminate|reflexivity]|]. apply (Dy (S i)). cbn. lia.
Qed.
(** The point a fraction [t] of the way. *)
Definition between (y z : list R) (t : R) : list R := map (fun i => y.[i] + t * (z.[i] - y.[i])) (seq 0 (length y)).
Lemma between_len y z t : length (between y z t) = length y.
Proof. unfold between. rewrite map_length, seq_length. reflexivity. Qed.
Lemma between_nth y z t i : (i < length y)%nat -> (between y z t).[i] = y.[i] + t * (z.[i] - y.[i]).
Proof. intros L. unfold between. rewrite (nth_map_lt _ _ i 0%nat) by (rewrite seq_length; exact L). rewrite seq_nth by exact L. reflexivity. Qed.
Lemma list_eq (a b : list R) : length a = length b -> (forall i, (i < length a)%nat -> a.[i] = b.[i]) -> a = b.
Proof. intros L H. apply (nth_ext a b 0 0 L H). Qed.
Lemma between_0 y z : between y z 0 = y.
Proof. apply list_eq; [apply between_len|]. rewrite between_len. intros i L. rewrite between_nth by exact L. ring. Qed.
Lemma between_1 y z : length y = length z -> between y z 1 = z.
Proof. intros E. apply list_eq; [rewrite between_len; exact E|]. rewrite between_len. intros i L. rewrite between_nth by exact L. ring. Qed.

Section Line.
Variables (sp : spec).
Hypothesis Sm : smooth_everywhere sp.
Hypothesis Nd : NoDup (sp_dec sp).
Let n := size sp.
Let gs y (L : length y = n) : goal_smooth sp (point sp y) := proj1 (Sm y L).
Definition grad (y : list R) : list R := map (fun k => cdn sp (point sp y) (unit k)) (sp_dec sp).
Lemma grad_nth y i : (i < n)%nat -> (grad y).[i] = cdn sp (point sp y) (unit (nth i (sp_dec sp) 0%nat)).
Proof. intros L. unfold grad. rewrite (nth_map_lt _ _ i 0%nat) by exact L. reflexivity. Qed.
Definition direction (h : list R) : nat -> R := place (fun _ => 0) (sp_dec sp) h.
Lemma along y z t : length y = n -> length z = n -> through (fun s => point sp (between y z s)) t (point sp (between y z t)) (direction (map (fun i => z.[i] - y.[i]) (seq 0 n))).
Proof.
  intros Ly Lz. split; [reflexivity|]. intros k. unfold point, direction. apply (place_derive (sp_dec sp) (fun _ => se_val (sp_se sp)) t (fun _ => 0) (fun s => between y z s)).
  - intros j. apply const_derive.
  - intros s. rewrite between_len. exact Ly.
  - rewrite map_length, seq_length. reflexivity.
  - intros i Li. rewrite (nth_map_lt _ _ i 0%nat) by (rewrite seq_length; exact Li). rewrite seq_nth by exact Li. cbn [Nat.add].
    apply (is_derive_ext (fun s => y.[i] + s * (z.[i] - y.[i]))); [intros s; rewrite between_nth by (rewrite Ly; exact Li); reflexivity|]. auto_derive; [exact I|ring].
Qed.
Lemma cdn_direction rho h : length h = n -> cdn sp rho (direction h) = sumn n (fun i => h.[i] * cdn sp rho (unit (nth i (sp_dec sp) 0%nat))).
Proof.
  intros L. unfold direction. rewrite (place_lin (cdn sp rho) (cdn_lin sp rho) (sp_dec sp) Nd (fun _ => 0) h L (fun _ _ => eq_refl)).
  replace (cdn sp rho (fun _ => 0)) with 0; [unfold n, size; ring|]. pose proof (cdn_lin sp rho 1 (fun _ => 0) (fun _ => 0)) as K. cbv beta in K. replace (fun k : nat => 1 * 0 + 0) with (fun _ : nat => 0) in K by (extensionality k; ring). lra.
Qed.
Lemma form_direction M h : bilinear M -> length h = n -> M (direction h) (direction h) = form n (fun i j => M (unit (nth i (sp_dec sp) 0%nat)) (unit (nth j (sp_dec sp) 0%nat))) (fun i => h.[i]).
Proof.
  intros [B1 B2 _] L. unfold direction at 1.
  assert (Z1 : forall w, M (fun _ => 0) w = 0) by (intros w; pose proof (B1 1 (fun _ => 0) (fun _ => 0) w) as K; cbv beta in K; replace (fun k : nat => 1 * 0 + 0) with (fun _ : nat => 0) in K by (extensionality k; ring); lra).
  assert (Z2 : forall w, M w (fun _ => 0) = 0) by (intros w; pose proof (B2 1 w (fun _ => 0) (fun _ => 0)) as K; cbv beta in K; replace (fun k : nat => 1 * 0 + 0) with (fun _ : nat => 0) in K by (extensionality k; ring); lra).
  rewrite (place_lin (fun u => M u (direction h)) (fun a u w => B1 a u w (direction h)) (sp_dec sp) Nd (fun _ => 0) h L (fun _ _ => eq_refl)). rewrite Z1, Rplus_0_l. unfold form. apply sumn_ext. intros i Li.
  unfold direction. rewrite (place_lin (fun w => M (unit (nth i (sp_dec sp) 0%nat)) w) (fun a u w => B2 a _ u w) (sp_dec sp) Nd (fun _ => 0) h L (fun _ _ => eq_refl)). rewrite Z2, Rplus_0_l, <- sumn_scal. apply sumn_ext. intros j Lj. ring.
Qed.
(** Taylor's theorem along the line from y to z. *)
Lemma line_second y z : length y = n -> length z = n -> exists p2 : R -> R, let h := map (fun i => z.[i] - y.[i]) (seq 0 n) in
  (forall t, is_derive (fun s => cnum sp (point sp (between y z s))) t (cdn sp (point sp (between y z t)) (direction h))) /\
  (forall t, is_derive (fun s => cdn sp (point sp (between y z s)) (direction h)) t (p2 t)) /\
  forall t, exists Q, (forall i j, (i < n)%nat -> (j < n)%nat -> pd (nth j (sp_dec sp) 0%nat) (pd (nth i (sp_dec sp) 0%nat) (cost_is sp)) (point sp (between y z t)) (Q i j)) /\ p2 t = form n Q (fun i => h.[i]).
Proof.
  intros Ly Lz. set (h := map (fun i => z.[i] - y.[i]) (seq 0 n)). assert (Lh : length h = n) by (unfold h; rewrite map_length, seq_length; reflexivity).
  exists (fun t => Derive (fun s => cdn sp (point sp (between y z s)) (direction h)) t). cbv zeta.
  assert (Lb : forall t, length (between y z t) = n) by (intros t; rewrite between_len; exact Ly).
  split; [|split].
  - intros t. exact (cnum_derive sp _ (gs _ (Lb t)) _ _ _ (along y z t Ly Lz)).
  - intros t. apply Derive_correct. destruct (cdn_derive sp _ (gs _ (Lb t))) as (M & _ & D). eexists. exact (D _ _ (direction h) _ (along y z t Ly Lz)).
  - intros t. destruct (cdn_derive sp _ (gs _ (Lb t))) as (M & B & D). exists (fun i j => M (unit (nth i (sp_dec sp) 0%nat)) (unit (nth j (sp_dec sp) 0%nat))). split; [intros i j _ _; apply pd_cnum2; [apply gs, Lb|exact D]|].
    rewrite <- (form_direction M h B Lh). apply is_derive_unique. exact (D _ _ (direction h) _ (along y z t Ly Lz)).
Qed.
Lemma line_slope y z : length y = n -> length z = n -> cdn sp (point sp y) (direction (map (fun i => z.[i] - y.[i]) (seq 0 n))) = sumn n (fun i => (grad y).[i] * (z.[i] - y.[i])).
Proof.
  intros Ly Lz. rewrite cdn_direction by (rewrite map_length, seq_length; reflexivity). apply sumn_ext. intros i Li. rewrite grad_nth by exact Li. rewrite (nth_map_lt _ _ i 0%nat) by (rewrite seq_length; exact Li). rewrite seq_nth by exact Li. cbn [Nat.add]. ring.
Qed.
Lemma norm_line y z : norm_sq n (fun i => (map (fun i => z.[i] - y.[i]) (seq 0 n)).[i]) = norm_sq n (fun i => z.[i] - y.[i]).
Proof. unfold norm_sq. apply sumn_ext. intros i Li. rewrite (nth_map_lt _ _ i 0%nat) by (rewrite seq_length; exact Li). rewrite seq_nth by exact Li. reflexivity. Qed.
Lemma taylor_low m : (forall y Q, length y = n -> (forall i j, (i < n)%nat -> (j < n)%nat -> pd (nth j (sp_dec sp) 0%nat) (pd (nth i (sp_dec sp) 0%nat) (cost_is sp)) (point sp y) (Q i j)) -> definite n Q m) ->
  forall y z, length y = n -> length z = n -> cnum sp (point sp y) + sumn n (fun i => (grad y).[i] * (z.[i] - y.[i])) + m / 2 * norm_sq n (fun i => z.[i] - y.[i]) <= cnum sp (point sp z).
Proof.
  intros C y z Ly Lz. destruct (line_second y z Ly Lz) as (p2 & D1 & D2 & HQ). pose proof (taylor2 _ _ p2 (m * norm_sq n (fun i => z.[i] - y.[i])) D1 D2) as T.
  cbv beta in T. rewrite between_0, between_1, line_slope in T by (auto; congruence). eapply Rle_trans; [|apply T]; [lra|]. intros t. destruct (HQ t) as (Q & PQ & ->). rewrite <- (norm_line y z). apply (C (between y z t)); [rewrite between_len; exact Ly|exact PQ].
Qed.
Lemma taylor_high L : (forall y Q, length y = n -> (forall i j, (i < n)%nat -> (j < n)%nat -> pd (nth j (sp_dec sp) 0%nat) (pd (nth i (sp_dec sp) 0%nat) (cost_is sp)) (point sp y) (Q i j)) -> forall v, form n Q v <= L * norm_sq n v) ->
  forall y z, length y = n -> length z = n -> cnum sp (point sp z) <= cnum sp (point sp y) + sumn n (fun i => (grad y).[i] * (z.[i] - y.[i])) + L / 2 * norm_sq n (fun i => z.[i] - y.[i]).
Proof.
  intros C y z Ly Lz. destruct (line_second y z Ly Lz) as (p2 & D1 & D2 & HQ).
  pose proof (taylor2 (fun s => - cnum sp (point sp (between y z s))) (fun s => - cdn sp (point sp (between y z s)) (direction (map (fun i => z.[i] - y.[i]) (seq 0 n)))) (fun t => - p2 t) (- (L * norm_sq n (fun i => z.[i] - y.[i])))
    (fun t => opp_derive _ _ _ (D1 t)) (fun t => opp_derive _ _ _ (D2 t))) as T.
  cbv beta in T. rewrite between_0, between_1, line_slope in T by (auto; congruence). enough (forall t, - (L * norm_sq n (fun i => z.[i] - y.[i])) <= - p2 t) as K by (specialize (T K); lra).
  intros t. apply Ropp_le_contravar. destruct (HQ t) as (Q & PQ & ->). rewrite <- (norm_line y z). apply (C (between y z t)); [rewrite between_len; exact Ly|exact PQ].
Qed.
End Line.
