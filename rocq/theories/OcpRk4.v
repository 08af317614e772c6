(** Proofs for C58-C60: one step. *)
From Coq Require Import Reals List Bool Arith Lia Lra.
From Verif Require Import Base ExprModel MathSpec VarModel ExprReal VarSpec HistProofs ProblemModel ProblemSpec ProblemProofs ProblemProofs4 OcpModel OcpSpec OcpProofs.
Import ListNotations.
Local Open Scope nat_scope.

(** Code that makes a matrix whose values, where [args] gives the arguments' values, are [D]. *)
Lemma T_f {ns ni f F} : computes ns ni f F -> forall sp t x u h,
  t < len sp -> vars_of sp x ns 1 -> vars_of sp u ni 1 -> h < len sp ->
  T sp (f t x u h) (fun sp' y => more sp sp' /\ vars_of sp' y ns 1 /\
    forall rho tv xv uv hv, has (sp_se sp) rho t tv -> shows (sp_se sp) rho (v_at x) xv -> shows (sp_se sp) rho (v_at u) uv ->
      has (sp_se sp) rho h hv -> forall yv, shows (sp_se sp') rho (v_at y) yv <-> F tv xv uv hv yv).
Proof.
  intros C sp t x u h Ht Hx Hu Hh g Hg. destruct (C sp g t x u h Hg Ht Hx Hu Hh) as (y & g' & sp' & D & M & V & E). exists y, g', sp'. auto.
Qed.
Lemma f_bind {B ns ni f F} : computes ns ni f F -> forall sp t x u h (k : vmat -> G B) Q,
  t < len sp -> vars_of sp x ns 1 -> vars_of sp u ni 1 -> h < len sp ->
  (forall sp' y, more sp sp' -> vars_of sp' y ns 1 -> (forall rho tv xv uv hv, has (sp_se sp) rho t tv -> shows (sp_se sp) rho (v_at x) xv -> shows (sp_se sp) rho (v_at u) uv ->
      has (sp_se sp) rho h hv -> forall yv, shows (sp_se sp') rho (v_at y) yv <-> F tv xv uv hv yv) -> T sp' (k y) Q) -> T sp (gbind (f t x u h) k) Q.
Proof. intros C sp t x u h k Q Ht Hx Hu Hh K. eapply T_bind; [apply (T_f C); assumption|]. intros sp' y (M & V & E). apply K; assumption. Qed.

Lemma vmul_nil c x : length x = 0 -> vmul c x = []. Proof. destruct x; [reflexivity|discriminate]. Qed.

(** Values of old handles do not change. *)
Ltac lens := repeat match goal with M : more ?a ?b |- _ => lazymatch goal with _ : len a <= len b |- _ => fail | _ => pose proof (more_len a b M) end end; lia.
Ltac mtrans := first [assumption | apply more_refl | eapply more_trans; [eassumption|]; mtrans].

Lemma has_up a b rho i v : more a b -> has (sp_se a) rho i v -> has (sp_se b) rho i v.
Proof. intros M H. apply (more_has a b); [exact M|exact (has_lt _ _ _ _ H)|exact H]. Qed.
Lemma has_down a b rho i v : more a b -> i < len a -> has (sp_se b) rho i v -> has (sp_se a) rho i v.
Proof. intros M L H. apply (more_has a b); assumption. Qed.
Lemma shows_up a b rho l v : more a b -> shows (sp_se a) rho l v -> shows (sp_se b) rho l v.
Proof. intros M H. induction H; constructor; [eapply has_up; eauto|assumption]. Qed.
Lemma shows_down a b rho m r c v : more a b -> vars_of a m r c -> shows (sp_se b) rho (v_at m) v -> shows (sp_se a) rho (v_at m) v.
Proof. intros M V H. apply (more_shows a b); [exact M|exact (vars_bound _ _ _ _ V)|exact H]. Qed.

Lemma bin_val b x y v sp rho i j : math_bin b x y v -> has (sp_se sp) rho i x -> has (sp_se sp) rho j y ->
  exists x y, has (sp_se sp) rho i x /\ has (sp_se sp) rho j y /\ math_bin b x y v.
Proof. intros. exists x, y. auto. Qed.
Lemma scale_val (r c : nat) sp rho x k cv vs : has (sp_se sp) rho k cv -> length (v_at x) = r * c ->
  (exists xv, shows (sp_se sp) rho (v_at x) xv /\ exists cv, (r * c <> 0 -> has (sp_se sp) rho k cv) /\ vs = vmul cv xv) <->
  (exists xv, shows (sp_se sp) rho (v_at x) xv /\ vs = vmul cv xv).
Proof.
  intros Hk L. split; intros (xv & Hx & H).
  - exists xv. split; [exact Hx|]. destruct H as (cv' & Hc & ->). pose proof (shows_len _ _ _ _ Hx) as Lx. destruct (Nat.eq_dec (r * c) 0) as [Z|Z].
    + rewrite !vmul_nil by lia. reflexivity.
    + f_equal. eapply has_det; [apply Hc, Z|exact Hk].
  - exists xv. split; [exact Hx|]. exists cv. auto.
Qed.

Section Rk4.
Variables (ns ni : nat) (f : dyn) (F : dynamics).
Hypothesis C : computes ns ni f F.

Lemma T_rk4 sp t x u h : t < len sp -> vars_of sp x ns 1 -> vars_of sp u ni 1 -> h < len sp ->
  T sp (rk4 f x u t h) (fun sp' y => more sp sp' /\ vars_of sp' y ns 1 /\
    forall rho tv xv uv hv, has (sp_se sp) rho t tv -> shows (sp_se sp) rho (v_at x) xv -> shows (sp_se sp) rho (v_at u) uv ->
      has (sp_se sp) rho h hv -> forall yv, shows (sp_se sp') rho (v_at y) yv <-> rk4_step F tv xv uv hv yv).
Proof.
  intros Lt Vx Vu Lh. unfold rk4.
  eapply mk1_bind; [apply T_bin_num; lens|]. intros s1 half M1 L1 E1.
  apply (f_bind C); [lens|eapply more_vars; [|eassumption]; mtrans|eapply more_vars; [|eassumption]; mtrans|lens|]. intros s2 k1 M2 Vk1 Ek1.
  eapply mk1_bind; [apply T_bin; lens|]. intros s3 t1 M3 L3 E3.
  eapply mkm_bind; [apply T_vscale; [eapply more_vars; [|exact Vk1]; mtrans|lens]|]. intros s4 d1 M4 V4 E4.
  eapply mkm_bind; [apply T_vop; [left; reflexivity|eapply more_vars; [|exact Vx]; mtrans|exact V4]|]. intros s5 x1 M5 V5 E5.
  apply (f_bind C); [lens|exact V5|eapply more_vars; [|exact Vu]; mtrans|lens|]. intros s6 k2 M6 Vk2 Ek2.
  eapply mk1_bind; [apply T_bin; lens|]. intros s7 t2 M7 L7 E7.
  eapply mkm_bind; [apply T_vscale; [eapply more_vars; [|exact Vk2]; mtrans|lens]|]. intros s8 d2 M8 V8 E8.
  eapply mkm_bind; [apply T_vop; [left; reflexivity|eapply more_vars; [|exact Vx]; mtrans|exact V8]|]. intros s9 x2 M9 V9 E9.
  apply (f_bind C); [lens|exact V9|eapply more_vars; [|exact Vu]; mtrans|lens|]. intros s10 k3 M10 Vk3 Ek3.
  eapply mk1_bind; [apply T_bin; lens|]. intros s11 t3 M11 L11 E11.
  eapply mkm_bind; [apply T_vscale; [eapply more_vars; [|exact Vk3]; mtrans|lens]|]. intros s12 d3 M12 V12 E12.
  eapply mkm_bind; [apply T_vop; [left; reflexivity|eapply more_vars; [|exact Vx]; mtrans|exact V12]|]. intros s13 x3 M13 V13 E13.
  apply (f_bind C); [lens|exact V13|eapply more_vars; [|exact Vu]; mtrans|lens|]. intros s14 k4 M14 Vk4 Ek4.
  eapply mkm_bind; [apply T_vscale_num; eapply more_vars; [|exact Vk2]; mtrans|]. intros s15 a M15 V15 E15.
  eapply mkm_bind; [apply T_vop; [left; reflexivity|eapply more_vars; [|exact Vk1]; mtrans|exact V15]|]. intros s16 s M16 V16 E16.
  eapply mkm_bind; [apply T_vscale_num; eapply more_vars; [|exact Vk3]; mtrans|]. intros s17 b M17 V17 E17.
  eapply mkm_bind; [apply T_vop; [left; reflexivity|eapply more_vars; [|exact V16]; mtrans|exact V17]|]. intros s18 s' M18 V18 E18.
  eapply mkm_bind; [apply T_vop; [left; reflexivity|exact V18|eapply more_vars; [|exact Vk4]; mtrans]|]. intros s19 s'' M19 V19 E19.
  eapply mk1_bind; [apply T_bin_num; lens|]. intros s20 w M20 L20 E20.
  eapply mkm_bind; [apply T_vscale; [eapply more_vars; [|exact V19]; mtrans|lens]|]. intros s21 d M21 V21 E21.
  eapply T_conseq; [apply T_vop; [left; reflexivity|eapply more_vars; [|exact Vx]; mtrans|exact V21]|]. intros s22 y (M22 & V22 & E22).
  split; [mtrans|]. split; [exact V22|].
  intros rho tv xv uv hv Ht Hx Hu Hh yv.
  assert (Hhalf : has (sp_se s1) rho half (hv * (1 / 2))%R) by (apply E1; exists hv; split; [exact Hh|constructor]).
  assert (Ht1 : has (sp_se s3) rho t1 (tv + hv / 2)%R).
  { apply E3. exists tv, (hv * (1 / 2))%R. split; [eapply has_up; [|exact Ht]; mtrans|]. split; [eapply has_up; [|exact Hhalf]; mtrans|]. replace (tv + hv / 2)%R with (tv + hv * (1 / 2))%R by lra. constructor. }
  assert (Ht2 : has (sp_se s7) rho t2 (tv + hv / 2)%R).
  { apply E7. exists tv, (hv * (1 / 2))%R. split; [eapply has_up; [|exact Ht]; mtrans|]. split; [eapply has_up; [|exact Hhalf]; mtrans|]. replace (tv + hv / 2)%R with (tv + hv * (1 / 2))%R by lra. constructor. }
  assert (Ht3 : has (sp_se s11) rho t3 (tv + hv)%R).
  { apply E11. exists tv, hv. split; [eapply has_up; [|exact Ht]; mtrans|]. split; [eapply has_up; [|exact Hh]; mtrans|constructor]. }
  assert (Hw : has (sp_se s20) rho w (hv / 6)%R).
  { apply E20. exists hv. split; [eapply has_up; [|exact Hh]; mtrans|]. constructor. lra. }
  assert (Q1 : forall kv, shows (sp_se s2) rho (v_at k1) kv <-> F tv xv uv hv kv).
  { apply Ek1; [eapply has_up; [|exact Ht]; mtrans|eapply shows_up; [|exact Hx]; mtrans|eapply shows_up; [|exact Hu]; mtrans|eapply has_up; [|exact Hh]; mtrans]. }
  assert (X1 : forall kv, shows (sp_se s2) rho (v_at k1) kv -> shows (sp_se s5) rho (v_at x1) (vadd xv (vmul (hv / 2) kv))).
  { intros kv Hk. apply E5. exists xv, (vmul (hv / 2) kv). split; [eapply shows_up; [|exact Hx]; mtrans|]. split; [|reflexivity].
    apply E4. exists kv. split; [eapply shows_up; [|exact Hk]; mtrans|]. exists (hv * (1 / 2))%R. split; [intros _; eapply has_up; [|exact Hhalf]; mtrans|]. f_equal; lra. }
  assert (Q2 : forall kv, shows (sp_se s2) rho (v_at k1) kv -> forall k', shows (sp_se s6) rho (v_at k2) k' <-> F (tv + hv / 2)%R (vadd xv (vmul (hv / 2) kv)) uv hv k').
  { intros kv Hk. apply Ek2; [eapply has_up; [|exact Ht1]; mtrans|apply X1, Hk|eapply shows_up; [|exact Hu]; mtrans|eapply has_up; [|exact Hh]; mtrans]. }
  assert (X2 : forall kv, shows (sp_se s6) rho (v_at k2) kv -> shows (sp_se s9) rho (v_at x2) (vadd xv (vmul (hv / 2) kv))).
  { intros kv Hk. apply E9. exists xv, (vmul (hv / 2) kv). split; [eapply shows_up; [|exact Hx]; mtrans|]. split; [|reflexivity].
    apply E8. exists kv. split; [eapply shows_up; [|exact Hk]; mtrans|]. exists (hv * (1 / 2))%R. split; [intros _; eapply has_up; [|exact Hhalf]; mtrans|]. f_equal; lra. }
  assert (Q3 : forall kv, shows (sp_se s6) rho (v_at k2) kv -> forall k', shows (sp_se s10) rho (v_at k3) k' <-> F (tv + hv / 2)%R (vadd xv (vmul (hv / 2) kv)) uv hv k').
  { intros kv Hk. apply Ek3; [eapply has_up; [|exact Ht2]; mtrans|apply X2, Hk|eapply shows_up; [|exact Hu]; mtrans|eapply has_up; [|exact Hh]; mtrans]. }
  assert (X3 : forall kv, shows (sp_se s10) rho (v_at k3) kv -> shows (sp_se s13) rho (v_at x3) (vadd xv (vmul hv kv))).
  { intros kv Hk. apply E13. exists xv, (vmul hv kv). split; [eapply shows_up; [|exact Hx]; mtrans|]. split; [|reflexivity].
    apply E12. exists kv. split; [eapply shows_up; [|exact Hk]; mtrans|]. exists hv. split; [intros _; eapply has_up; [|exact Hh]; mtrans|reflexivity]. }
  assert (Q4 : forall kv, shows (sp_se s10) rho (v_at k3) kv -> forall k', shows (sp_se s14) rho (v_at k4) k' <-> F (tv + hv)%R (vadd xv (vmul hv kv)) uv hv k').
  { intros kv Hk. apply Ek4; [eapply has_up; [|exact Ht3]; mtrans|apply X3, Hk|eapply shows_up; [|exact Hu]; mtrans|eapply has_up; [|exact Hh]; mtrans]. }
  rewrite E22. split.
  - intros (xv' & dv & Hx' & Hd & ->). assert (xv' = xv) as -> by (eapply shows_det; [exact Hx'|eapply shows_up; [|exact Hx]; mtrans]).
    apply E21 in Hd. apply (scale_val ns 1 s20 rho s'' w (hv / 6)%R) in Hd; [|exact Hw|apply V19]. destruct Hd as (sv & Hs & ->).
    apply (shows_down s19 s20 rho s'' ns 1) in Hs; [|mtrans|exact V19]. apply E19 in Hs as (sv2 & v4 & Hs2 & H4 & ->).
    apply E18 in Hs2 as (sv1 & bv & Hs1 & Hb & ->). apply E17 in Hb as (v3 & H3 & ->).
    apply (shows_down s16 s17 rho s ns 1) in Hs1; [|mtrans|exact V16]. apply E16 in Hs1 as (v1 & av & H1 & Ha & ->). apply E15 in Ha as (v2 & H2 & ->).
    apply (shows_down s14 s18 rho k4 ns 1) in H4; [|mtrans|exact Vk4]. apply (shows_down s10 s16 rho k3 ns 1) in H3; [|mtrans|exact Vk3].
    apply (shows_down s2 s15 rho k1 ns 1) in H1; [|mtrans|exact Vk1]. apply (shows_down s6 s14 rho k2 ns 1) in H2; [|mtrans|exact Vk2].
    exists v1, v2, v3, v4. split; [apply Q1, H1|]. split; [apply (Q2 v1 H1), H2|]. split; [apply (Q3 v2 H2), H3|]. split; [apply (Q4 v3 H3), H4|reflexivity].
  - intros (v1 & v2 & v3 & v4 & H1 & H2 & H3 & H4 & ->). apply Q1 in H1. apply (Q2 v1 H1) in H2. apply (Q3 v2 H2) in H3. apply (Q4 v3 H3) in H4.
    eexists xv, _. split; [eapply shows_up; [|exact Hx]; mtrans|]. split; [|reflexivity].
    apply E21. eexists. split; [|exists (hv / 6)%R; split; [intros _; exact Hw|reflexivity]]. eapply shows_up; [exact M20|].
    apply E19. eexists _, v4. split; [|split; [eapply shows_up; [|exact H4]; mtrans|reflexivity]].
    apply E18. eexists _, _. split; [|split; [apply E17; exists v3; split; [eapply shows_up; [|exact H3]; mtrans|reflexivity]|reflexivity]]. eapply shows_up; [exact M17|].
    apply E16. eexists v1, _. split; [eapply shows_up; [|exact H1]; mtrans|]. split; [|reflexivity]. apply E15. exists v2. split; [eapply shows_up; [|exact H2]; mtrans|reflexivity].
Qed.

Lemma T_advance ty sp t x u h : t < len sp -> vars_of sp x ns 1 -> vars_of sp u ni 1 -> h < len sp ->
  T sp (advance ty f t x u h) (fun sp' y => more sp sp' /\ vars_of sp' y ns 1 /\
    forall rho tv xv uv hv, has (sp_se sp) rho t tv -> shows (sp_se sp) rho (v_at x) xv -> shows (sp_se sp) rho (v_at u) uv ->
      has (sp_se sp) rho h hv -> forall yv, shows (sp_se sp') rho (v_at y) yv <-> next_state ty F tv xv uv hv yv).
Proof. destruct ty; [apply T_rk4|apply (T_f C)]. Qed.

End Rk4.
