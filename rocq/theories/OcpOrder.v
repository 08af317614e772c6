(** Proofs for C60: what the Runge-Kutta step integrates exactly. *)
From Coq Require Import Reals List Bool Arith Lia Lra.
From Coquelicot Require Import Coquelicot.
From Verif Require Import Base ExprModel MathSpec VarModel ExprReal VarSpec HistProofs ProblemModel ProblemSpec ProblemProofs ProblemProofs4 OcpModel OcpSpec OcpProofs OcpRk4.
Import ListNotations.
Local Open Scope R_scope.

Lemma RInt_cubic p t h I : is_RInt (cub p) t (t + h) I <-> I = c0 p * h + c1 p * ((t + h) ^ 2 - t ^ 2) / 2 + c2 p * ((t + h) ^ 3 - t ^ 3) / 3 + c3 p * ((t + h) ^ 4 - t ^ 4) / 4.
Proof.
  set (A := fun s => c0 p * s + c1 p * (s ^ 2 / 2) + c2 p * (s ^ 3 / 3) + c3 p * (s ^ 4 / 4)).
  assert (K : is_RInt (cub p) t (t + h) (minus (A (t + h)) (A t))).
  { apply (is_RInt_derive A (cub p)).
    - intros s _. unfold A, cub. auto_derive; [auto|]. field.
    - intros s _. apply (ex_derive_continuous (cub p)). unfold cub. auto_derive. auto. }
  assert (E : minus (A (t + h)) (A t) = c0 p * h + c1 p * ((t + h) ^ 2 - t ^ 2) / 2 + c2 p * ((t + h) ^ 3 - t ^ 3) / 3 + c3 p * ((t + h) ^ 4 - t ^ 4) / 4).
  { unfold minus, plus, opp, A. cbn. field. }
  rewrite E in K. split.
  - intros H. pose proof (is_RInt_unique (V := R_CompleteNormedModule) (cub p) t (t + h) _ H) as H1. pose proof (is_RInt_unique (V := R_CompleteNormedModule) (cub p) t (t + h) _ K) as H2. congruence.
  - intros ->. exact K.
Qed.

Lemma rk4_cubics t u h : forall ps x, length x = length ps -> forall x', rk4_step (fun t _ _ _ y => y = map (fun p => cub p t) ps) t x u h x' <->
  length x' = length ps /\ forall i p a a', nth_error ps i = Some p -> nth_error x i = Some a -> nth_error x' i = Some a' -> is_RInt (cub p) t (t + h) (a' - a).
Proof.
  intros ps x Lx x'.
  assert (S : rk4_step (fun t _ _ _ y => y = map (fun p => cub p t) ps) t x u h x' <-> x' = map (fun q => fst q + h / 6 * (cub (snd q) t + 2 * cub (snd q) (t + h / 2) + 2 * cub (snd q) (t + h / 2) + cub (snd q) (t + h))) (combine x ps)).
  { assert (V : vadd x (vmul (h / 6) (vadd (vadd (vadd (map (fun p => cub p t) ps) (vmul 2 (map (fun p => cub p (t + h / 2)) ps))) (vmul 2 (map (fun p => cub p (t + h / 2)) ps))) (map (fun p => cub p (t + h)) ps))) =
      map (fun q => fst q + h / 6 * (cub (snd q) t + 2 * cub (snd q) (t + h / 2) + 2 * cub (snd q) (t + h / 2) + cub (snd q) (t + h))) (combine x ps)).
    { clear x'. revert x Lx. induction ps as [|p ps IH]; intros [|a x] Lx; try discriminate Lx; [reflexivity|]. injection Lx as Lx. specialize (IH x Lx). unfold vadd, vmul in *. cbn [map combine fst snd]. f_equal. exact IH. }
    unfold rk4_step. split.
    - intros (k1 & k2 & k3 & k4 & -> & -> & -> & -> & ->). exact V.
    - intros ->. do 4 eexists. do 4 (split; [reflexivity|]). symmetry. exact V. }
  rewrite S. clear S.
  assert (Q : forall p a, h / 6 * (cub p t + 2 * cub p (t + h / 2) + 2 * cub p (t + h / 2) + cub p (t + h)) = c0 p * h + c1 p * ((t + h) ^ 2 - t ^ 2) / 2 + c2 p * ((t + h) ^ 3 - t ^ 3) / 3 + c3 p * ((t + h) ^ 4 - t ^ 4) / 4 + 0 * a).
  { intros p a. unfold cub. field. }
  revert x x' Lx. induction ps as [|p ps IH]; intros [|a x] x' Lx; try discriminate Lx.
  - cbn. split; [intros ->; split; [reflexivity|intros [|i] ? ? ? H; discriminate H]|]. intros [H _]. destruct x'; [reflexivity|discriminate H].
  - injection Lx as Lx. cbn [combine map fst snd]. split.
    + intros ->. destruct (proj1 (IH x _ Lx) eq_refl) as [L K]. split; [cbn; rewrite L; reflexivity|]. intros [|i] q b b' H1 H2 H3; cbn in H1, H2, H3.
      * injection H1 as <-. injection H2 as <-. injection H3 as <-. apply RInt_cubic. rewrite (Q p 0). match goal with |- ?l = ?r => change (@eq R l r) end. ring.
      * exact (K i q b b' H1 H2 H3).
    + intros [L K]. destruct x' as [|a' x']; [discriminate L|]. injection L as L. f_equal.
      * specialize (K 0%nat p a a' eq_refl eq_refl eq_refl). apply RInt_cubic in K. rewrite (Q p 0). lra.
      * apply IH; [exact Lx|]. split; [exact L|]. intros i. exact (K (S i)).
Qed.


Lemma vadd_len x y : length x = length y -> length (vadd x y) = length y.
Proof. intros H. unfold vadd. rewrite map_length, combine_length. lia. Qed.
Lemma vmul_len c x : length (vmul c x) = length x. Proof. unfold vmul. apply map_length. Qed.

Lemma rk4_linear n L t u h x : linear n L -> length x = n -> forall x', rk4_step (fun _ x _ _ y => y = L x) t x u h x' <->
  x' = vadd x (vadd (vmul h (L x)) (vadd (vmul (h ^ 2 / 2) (L (L x))) (vadd (vmul (h ^ 3 / 6) (L (L (L x)))) (vmul (h ^ 4 / 24) (L (L (L (L x)))))))).
Proof.
  intros (Hl & Ha & Hm) Lx x'.
  set (y := L x). assert (Ly : length y = n) by (apply Hl, Lx). set (z := L y). assert (Lz : length z = n) by (apply Hl, Ly).
  set (w := L z). assert (Lw : length w = n) by (apply Hl, Lz). set (v := L w). assert (Lv : length v = n) by (apply Hl, Lw).
  assert (E2 : L (vadd x (vmul (h / 2) y)) = vadd y (vmul (h / 2) z)) by (rewrite Ha, Hm by (rewrite ?vmul_len; assumption); reflexivity).
  assert (E3 : L (vadd x (vmul (h / 2) (vadd y (vmul (h / 2) z)))) = vadd y (vmul (h / 2) (vadd z (vmul (h / 2) w)))).
  { rewrite Ha by (rewrite ?vmul_len, ?vadd_len; rewrite ?vmul_len; congruence). rewrite Hm by (rewrite ?vmul_len, ?vadd_len; rewrite ?vmul_len; congruence). rewrite Ha by (rewrite ?vmul_len; congruence). rewrite Hm by congruence. reflexivity. }
  assert (E4 : L (vadd x (vmul h (vadd y (vmul (h / 2) (vadd z (vmul (h / 2) w)))))) = vadd y (vmul h (vadd z (vmul (h / 2) (vadd w (vmul (h / 2) v)))))).
  { assert (L1 : length (vadd z (vmul (h / 2) w)) = n) by (rewrite vadd_len; rewrite ?vmul_len; congruence). assert (L2 : length (vadd y (vmul (h / 2) (vadd z (vmul (h / 2) w)))) = n) by (rewrite vadd_len; rewrite ?vmul_len; congruence).
    rewrite Ha by (rewrite ?vmul_len; congruence). rewrite Hm by exact L2. rewrite Ha by (rewrite ?vmul_len; congruence). rewrite Hm by exact L1. rewrite Ha by (rewrite ?vmul_len; congruence). rewrite Hm by congruence. reflexivity. }
  assert (V : vadd x (vmul (h / 6) (vadd (vadd (vadd y (vmul 2 (vadd y (vmul (h / 2) z)))) (vmul 2 (vadd y (vmul (h / 2) (vadd z (vmul (h / 2) w)))))) (vadd y (vmul h (vadd z (vmul (h / 2) (vadd w (vmul (h / 2) v)))))))) =
    vadd x (vadd (vmul h y) (vadd (vmul (h ^ 2 / 2) z) (vadd (vmul (h ^ 3 / 6) w) (vmul (h ^ 4 / 24) v))))).
  { clearbody y z w v. clear - Lx Ly Lz Lw Lv. revert x y z w v Lx Ly Lz Lw Lv. induction n as [|n IH]; intros [|a x] [|b y] [|c z] [|d w] [|e v] Lx Ly Lz Lw Lv; try discriminate; [reflexivity|].
    injection Lx as Lx. injection Ly as Ly. injection Lz as Lz. injection Lw as Lw. injection Lv as Lv. specialize (IH x y z w v Lx Ly Lz Lw Lv). unfold vadd, vmul in *. cbn [map combine fst snd]. f_equal; [field|exact IH]. }
  unfold rk4_step. split.
  - intros (k1 & k2 & k3 & k4 & -> & -> & -> & -> & ->). fold y. rewrite E2, E3, E4. exact V.
  - intros ->. do 4 eexists. do 4 (split; [reflexivity|]). fold y. rewrite E2, E3, E4. symmetry. exact V.
Qed.

Lemma linear_scale n a : linear n (vmul a).
Proof.
  split; [intros x H; rewrite vmul_len; exact H|]. split.
  - intros x. revert n. induction x as [|b x IH]; intros n [|c y] Lx Ly; cbn in *; try reflexivity. unfold vmul, vadd in *. cbn. f_equal; [ring|]. apply (IH (length x)); cbn in *; lia.
  - intros c x _. unfold vmul. rewrite !map_map. apply map_ext. intros b. ring.
Qed.
Lemma rk4_scale a t u h x x' : rk4_step (fun _ x _ _ y => y = vmul a x) t x u h x' <-> x' = vmul (1 + a * h + (a * h) ^ 2 / 2 + (a * h) ^ 3 / 6 + (a * h) ^ 4 / 24) x.
Proof.
  rewrite (rk4_linear (length x) (vmul a) t u h x (linear_scale _ a) eq_refl x').
  assert (E : vadd x (vadd (vmul h (vmul a x)) (vadd (vmul (h ^ 2 / 2) (vmul a (vmul a x))) (vadd (vmul (h ^ 3 / 6) (vmul a (vmul a (vmul a x)))) (vmul (h ^ 4 / 24) (vmul a (vmul a (vmul a (vmul a x)))))))) =
    vmul (1 + a * h + (a * h) ^ 2 / 2 + (a * h) ^ 3 / 6 + (a * h) ^ 4 / 24) x).
  { induction x as [|b x IH]; [reflexivity|]. unfold vadd, vmul in *. cbn [map combine fst snd]. f_equal; [field|exact IH]. }
  rewrite E. reflexivity.
Qed.

Section Code.
Context (ns ni : nat) (f : dyn) (F : dynamics) (C : computes ns ni f F).
Lemma code_rk4 sp g t x u h : sync g sp -> (t < length (se_exp (sp_se sp)))%nat -> vars_of sp x ns 1 -> vars_of sp u ni 1 -> (h < length (se_exp (sp_se sp)))%nat ->
  exists y g' sp', did (rk4 f x u t h) g sp y g' sp' /\ more sp sp' /\ vars_of sp' y ns 1 /\
    forall rho tv xv uv hv, has (sp_se sp) rho t tv -> shows (sp_se sp) rho (v_at x) xv -> shows (sp_se sp) rho (v_at u) uv -> has (sp_se sp) rho h hv ->
      forall yv, shows (sp_se sp') rho (v_at y) yv <-> rk4_step F tv xv uv hv yv.
Proof. intros Sy Ht Hx Hu Hh. destruct (T_rk4 ns ni f F C sp t x u h Ht Hx Hu Hh g Sy) as (y & g' & sp' & D & M & V & E). exists y, g', sp'. auto. Qed.
End Code.

Lemma code_cubics ni f ps : computes (length ps) ni f (fun t _ _ _ y => y = map (fun p => cub p t) ps) ->
  forall sp g t x u h, sync g sp -> (t < length (se_exp (sp_se sp)))%nat -> vars_of sp x (length ps) 1 -> vars_of sp u ni 1 -> (h < length (se_exp (sp_se sp)))%nat ->
  exists y g' sp', did (rk4 f x u t h) g sp y g' sp' /\ more sp sp' /\ vars_of sp' y (length ps) 1 /\
    forall rho tv xv uv hv, has (sp_se sp) rho t tv -> shows (sp_se sp) rho (v_at x) xv -> shows (sp_se sp) rho (v_at u) uv -> has (sp_se sp) rho h hv ->
      exists yv, shows (sp_se sp') rho (v_at y) yv /\ length yv = length ps /\
        forall i p a b, nth_error ps i = Some p -> nth_error xv i = Some a -> nth_error yv i = Some b -> is_RInt (cub p) tv (tv + hv) (b - a).
Proof.
  intros C sp g t x u h Sy Ht Vx Vu Hh. destruct (code_rk4 _ _ _ _ C sp g t x u h Sy Ht Vx Vu Hh) as (y & g' & sp' & D & M & V & E). exists y, g', sp'. split; [exact D|]. split; [exact M|]. split; [exact V|].
  intros rho tv xv uv hv H1 H2 H3 H4. specialize (E rho tv xv uv hv H1 H2 H3 H4).
  assert (Lx : length xv = length ps). { destruct Vx as (_ & L & _). pose proof (shows_len _ _ _ _ H2). lia. }
  assert (exists yv, rk4_step (fun t _ _ _ y => y = map (fun p => cub p t) ps) tv xv uv hv yv) as [yv Hy] by (do 5 eexists; do 4 (split; [reflexivity|]); reflexivity).
  exists yv. split; [apply E, Hy|]. apply (rk4_cubics tv uv hv ps xv Lx yv), Hy.
Qed.
Lemma code_linear ns ni f L : linear ns L -> computes ns ni f (fun _ x _ _ y => y = L x) ->
  forall sp g t x u h, sync g sp -> (t < length (se_exp (sp_se sp)))%nat -> vars_of sp x ns 1 -> vars_of sp u ni 1 -> (h < length (se_exp (sp_se sp)))%nat ->
  exists y g' sp', did (rk4 f x u t h) g sp y g' sp' /\ more sp sp' /\ vars_of sp' y ns 1 /\
    forall rho tv xv uv hv, has (sp_se sp) rho t tv -> shows (sp_se sp) rho (v_at x) xv -> shows (sp_se sp) rho (v_at u) uv -> has (sp_se sp) rho h hv ->
      forall yv, shows (sp_se sp') rho (v_at y) yv <->
        yv = vadd xv (vadd (vmul hv (L xv)) (vadd (vmul (hv ^ 2 / 2) (L (L xv))) (vadd (vmul (hv ^ 3 / 6) (L (L (L xv)))) (vmul (hv ^ 4 / 24) (L (L (L (L xv)))))))).
Proof.
  intros HL C sp g t x u h Sy Ht Vx Vu Hh. destruct (code_rk4 _ _ _ _ C sp g t x u h Sy Ht Vx Vu Hh) as (y & g' & sp' & D & M & V & E). exists y, g', sp'. split; [exact D|]. split; [exact M|]. split; [exact V|].
  intros rho tv xv uv hv H1 H2 H3 H4 yv. rewrite (E rho tv xv uv hv H1 H2 H3 H4 yv). apply (rk4_linear ns L tv uv hv xv HL). destruct Vx as (_ & Lx & _). pose proof (shows_len _ _ _ _ H2). lia.
Qed.
Lemma code_scale ns ni f a : computes ns ni f (fun _ x _ _ y => y = vmul a x) ->
  forall sp g t x u h, sync g sp -> (t < length (se_exp (sp_se sp)))%nat -> vars_of sp x ns 1 -> vars_of sp u ni 1 -> (h < length (se_exp (sp_se sp)))%nat ->
  exists y g' sp', did (rk4 f x u t h) g sp y g' sp' /\ more sp sp' /\ vars_of sp' y ns 1 /\
    forall rho tv xv uv hv, has (sp_se sp) rho t tv -> shows (sp_se sp) rho (v_at x) xv -> shows (sp_se sp) rho (v_at u) uv -> has (sp_se sp) rho h hv ->
      forall yv, shows (sp_se sp') rho (v_at y) yv <-> yv = vmul (1 + a * hv + (a * hv) ^ 2 / 2 + (a * hv) ^ 3 / 6 + (a * hv) ^ 4 / 24) xv.
Proof.
  intros C sp g t x u h Sy Ht Vx Vu Hh. destruct (code_rk4 _ _ _ _ C sp g t x u h Sy Ht Vx Vu Hh) as (y & g' & sp' & D & M & V & E). exists y, g', sp'. split; [exact D|]. split; [exact M|]. split; [exact V|].
  intros rho tv xv uv hv H1 H2 H3 H4 yv. rewrite (E rho tv xv uv hv H1 H2 H3 H4 yv). apply rk4_scale.
Qed.
