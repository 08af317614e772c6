(** Concrete dynamics for the theorems of OcpProps.v: a driven pendulum, an integrator, a linear system and a cubic. *)
From Coq Require Import Reals List Bool Arith Lia Lra.
From Verif Require Import Base ExprModel MathSpec VarModel ExprReal VarSpec HistProofs ProblemModel ProblemSpec ProblemProofs ProblemProofs4 OcpModel OcpSpec OcpProofs OcpRk4 OcpLoop OcpBody OcpUse.
Import ListNotations.
Local Open Scope nat_scope.

(** x0' = x1, x1' = u0 - sin x0. *)
Definition pendulum : dyn := fun t x u h =>
  gdo x0 <- vget x 0 0; gdo x1 <- vget x 1 0; gdo u0 <- vget u 0 0;
  gdo s <- gvar (HUn USin x0); gdo a <- gbin BSub u0 s; gret (mkM 2 1 [x1; a]).
Definition Pendulum : dynamics := fun _ x u _ y => match x, u with [x0; x1], [u0] => y = [x1; (u0 - sin x0)%R] | _, _ => False end.
(** x' = u: as a discrete update x + h u. *)
Definition integrator : dyn := fun t x u h =>
  gdo x0 <- vget x 0 0; gdo u0 <- vget u 0 0; gdo d <- gbin BMul h u0; gdo n <- gbin BAdd x0 d; gret (mkM 1 1 [n]).
Definition Integrator : dynamics := fun _ x u h y => match x, u with [x0], [u0] => y = [(x0 + h * u0)%R] | _, _ => False end.

Lemma entry_nth se rho x r i v k : shape x r 1 -> nth_error (v_at x) (i * 1 + 0) = Some k -> has se rho k v <-> entry se rho x i 0 v.
Proof. intros [_ C] E. unfold entry. rewrite C, E. split; [intros H; exists k; auto|intros (k' & [= <-] & H); exact H]. Qed.

Lemma T_computes ns ni f F : (forall sp t x u h, t < len sp -> vars_of sp x ns 1 -> vars_of sp u ni 1 -> h < len sp ->
  T sp (f t x u h) (fun sp' y => more sp sp' /\ vars_of sp' y ns 1 /\ forall rho tv xv uv hv, has (sp_se sp) rho t tv -> shows (sp_se sp) rho (v_at x) xv -> shows (sp_se sp) rho (v_at u) uv ->
        has (sp_se sp) rho h hv -> forall yv, shows (sp_se sp') rho (v_at y) yv <-> F tv xv uv hv yv)) -> computes ns ni f F.
Proof. intros H sp g t x u h Sy Ht Hx Hu Hh. destruct (H sp t x u h Ht Hx Hu Hh g Sy) as (y & g' & sp' & D & M & V & E). exists y, g', sp'. auto. Qed.

Lemma two x : forall n, length x = n * 1 -> n = 2 -> exists a b : nat, x = [a; b].
Proof. intros n H ->. destruct x as [|a [|b [|c x]]]; try discriminate H. eauto. Qed.
Lemma one x : forall n, length x = n * 1 -> n = 1 -> exists a : nat, x = [a].
Proof. intros n H ->. destruct x as [|a [|b x]]; try discriminate H. eauto. Qed.

Lemma pendulum_computes : computes 2 1 pendulum Pendulum.
Proof.
  apply T_computes. intros sp t x u h Ht Vx Vu Hh. destruct (Vx) as (Sx & Lx & Bx). destruct (Vu) as (Su & Lu & Bu).
  destruct (two _ _ Lx eq_refl) as (a & b & Ex). destruct (one _ _ Lu eq_refl) as (c & Eu). unfold pendulum.
  apply (get_bind sp x 0 0 2 1); [exact Vx|lia|lia|]. intros k0 L0 N0 _. apply (get_bind sp x 1 0 2 1); [exact Vx|lia|lia|]. intros k1 L1 N1 _. apply (get_bind sp u 0 0 1 1); [exact Vu|lia|lia|]. intros k2 L2 N2 _.
  rewrite Ex in N0, N1. rewrite Eu in N2. cbn in N0, N1, N2. injection N0 as <-. injection N1 as <-. injection N2 as <-.
  eapply mk1_bind; [apply T_un, L0|]. intros s1 k M1 Lk E1. pose proof (more_len _ _ M1). eapply mk1_bind; [apply T_bin; lia|]. intros s2 k2 M2 Lk2 E2. pose proof (more_len _ _ M2). apply T_ret.
  split; [eapply more_trans; eauto|]. split; [split; [split; reflexivity|]; split; [reflexivity|]; constructor; [unfold len in *; lia|constructor; [unfold len in *; lia|constructor]]|].
  intros rho tv xv uv hv _ Hx Hu _ yv. rewrite Ex in Hx. rewrite Eu in Hu. inversion Hx as [|? x0 ? ? Ha Hx']; subst. inversion Hx' as [|? x1 ? ? Hb Hx'']; subst. inversion Hx''; subst. inversion Hu as [|? u0 ? ? Hc Hu']; subst. inversion Hu'; subst.
  cbn [Pendulum v_at].
  assert (H2 : forall v, has (sp_se s2) rho k2 v <-> v = (u0 - sin x0)%R).
  { intros v. rewrite E2. split.
    - intros (p & q & Hp & Hq & Hm). apply E1 in Hq as (y & Hy & Hu0). apply (more_has sp s1) in Hp; [|exact M1|exact L2]. rewrite (has_det _ _ _ _ _ Hp Hc) in Hm. rewrite (has_det _ _ _ _ _ Hy Ha) in Hu0. inversion Hu0; subst. inversion Hm; subst. reflexivity.
    - intros ->. exists u0, (sin x0). split; [apply (more_has sp s1); assumption|]. split; [apply E1; exists x0; split; [exact Ha|constructor]|constructor]. }
  assert (H1 : forall v, has (sp_se s2) rho b v <-> v = x1).
  { intros v. split; [|intros ->].
    - intros Hv. apply (more_has s1 s2) in Hv; [|exact M2|lia]. apply (more_has sp s1) in Hv; [|exact M1|lia]. exact (has_det _ _ _ _ _ Hv Hb).
    - apply (more_has s1 s2); [exact M2|lia|]. apply (more_has sp s1); assumption. }
  split.
  - intros K. inversion K as [|? v1 ? ? Hv1 K1]; subst. inversion K1 as [|? v2 ? ? Hv2 K2]; subst. inversion K2; subst. apply H1 in Hv1. apply H2 in Hv2. congruence.
  - intros ->. constructor; [apply H1; reflexivity|]. constructor; [apply H2; reflexivity|constructor].
Qed.

Lemma integrator_computes : computes 1 1 integrator Integrator.
Proof.
  apply T_computes. intros sp t x u h Ht Vx Vu Hh. destruct (Vx) as (Sx & Lx & Bx). destruct (Vu) as (Su & Lu & Bu).
  destruct (one _ _ Lx eq_refl) as (a & Ex). destruct (one _ _ Lu eq_refl) as (c & Eu). unfold integrator.
  apply (get_bind sp x 0 0 1 1); [exact Vx|lia|lia|]. intros k0 L0 N0 _. apply (get_bind sp u 0 0 1 1); [exact Vu|lia|lia|]. intros k2 L2 N2 _.
  rewrite Ex in N0. rewrite Eu in N2. cbn in N0, N2. injection N0 as <-. injection N2 as <-.
  eapply mk1_bind; [apply T_bin; assumption|]. intros s1 k M1 Lk E1. pose proof (more_len _ _ M1). eapply mk1_bind; [apply T_bin; lia|]. intros s2 k2 M2 Lk2 E2. pose proof (more_len _ _ M2). apply T_ret.
  split; [eapply more_trans; eauto|]. split; [split; [split; reflexivity|]; split; [reflexivity|]; constructor; [unfold len in *; lia|constructor]|].
  intros rho tv xv uv hv _ Hx Hu Hhv yv. rewrite Ex in Hx. rewrite Eu in Hu. inversion Hx as [|? x0 ? ? Ha Hx']; subst. inversion Hx'; subst. inversion Hu as [|? u0 ? ? Hc Hu']; subst. inversion Hu'; subst.
  cbn [Integrator v_at].
  assert (H2 : forall v, has (sp_se s2) rho k2 v <-> v = (x0 + hv * u0)%R).
  { intros v. rewrite E2. split.
    - intros (p & q & Hp & Hq & Hm). apply E1 in Hq as (y & z & Hy & Hz & Hyz). apply (more_has sp s1) in Hp; [|exact M1|exact L0]. rewrite (has_det _ _ _ _ _ Hp Ha) in Hm. rewrite (has_det _ _ _ _ _ Hy Hhv), (has_det _ _ _ _ _ Hz Hc) in Hyz. inversion Hyz; subst. inversion Hm; subst. reflexivity.
    - intros ->. exists x0, (hv * u0)%R. split; [apply (more_has sp s1); assumption|]. split; [apply E1; exists hv, u0; split; [exact Hhv|]; split; [exact Hc|constructor]|constructor]. }
  split.
  - intros K. inversion K as [|? v2 ? ? Hv2 K2]; subst. inversion K2; subst. apply H2 in Hv2. congruence.
  - intros ->. constructor; [apply H2; reflexivity|constructor].
Qed.

(** x' = 3 x, and x' = 1 + 2 t + 3 t^2 + 4 t^3. *)
Definition growth : dyn := fun t x u h => gdo x0 <- vget x 0 0; gdo y <- gnum_bin BMul 3%R x0; gret (mkM 1 1 [y]).
Lemma growth_computes ni : computes 1 ni growth (fun _ x _ _ y => y = vmul 3 x).
Proof.
  apply T_computes. intros sp t x u h Ht Vx Vu Hh. destruct (Vx) as (Sx & Lx & Bx). destruct (one _ _ Lx eq_refl) as (a & Ex). unfold growth.
  apply (get_bind sp x 0 0 1 1); [exact Vx|lia|lia|]. intros k0 L0 N0 _. rewrite Ex in N0. cbn in N0. injection N0 as <-.
  eapply mk1_bind; [apply T_num_bin; assumption|]. intros s1 k M1 Lk E1. apply T_ret. split; [exact M1|]. split; [split; [split; reflexivity|]; split; [reflexivity|]; constructor; [exact Lk|constructor]|].
  intros rho tv xv uv hv _ Hx _ _ yv. rewrite Ex in Hx. inversion Hx as [|? x0 ? ? Ha Hx']; subst. inversion Hx'; subst. cbn [v_at vmul map].
  assert (H2 : forall v, has (sp_se s1) rho k v <-> v = (3 * x0)%R).
  { intros v. rewrite E1. split; [intros (y & Hy & Hm); rewrite (has_det _ _ _ _ _ Hy Ha) in Hm; inversion Hm; subst; reflexivity|intros ->; exists x0; split; [exact Ha|constructor]]. }
  split.
  - intros K. inversion K as [|? v2 ? ? Hv2 K2]; subst. inversion K2; subst. apply H2 in Hv2. congruence.
  - intros ->. constructor; [apply H2; reflexivity|constructor].
Qed.
Definition ramp : dyn := fun t x u h => gdo a <- gbin BMul t t; gdo b <- gbin BMul a t; gdo c <- gnum_bin BMul 4%R b; gret (mkM 1 1 [c]).
Lemma ramp_computes ni : computes 1 ni ramp (fun t _ _ _ y => y = map (fun p => cub p t) [mkCub 0 0 0 4]).
Proof.
  apply T_computes. intros sp t x u h Ht Vx Vu Hh. unfold ramp.
  eapply mk1_bind; [apply T_bin; assumption|]. intros s1 k M1 Lk E1. pose proof (more_len _ _ M1). eapply mk1_bind; [apply T_bin; lia|]. intros s2 k2 M2 Lk2 E2. pose proof (more_len _ _ M2).
  eapply mk1_bind; [apply T_num_bin; assumption|]. intros s3 k3 M3 Lk3 E3. apply T_ret. split; [eapply more_trans; [exact M1|eapply more_trans; eauto]|]. split; [split; [split; reflexivity|]; split; [reflexivity|]; constructor; [exact Lk3|constructor]|].
  intros rho tv xv uv hv Hv _ _ _ yv. cbn [v_at map].
  assert (H2 : forall v, has (sp_se s3) rho k3 v <-> v = cub (mkCub 0 0 0 4) tv).
  { assert (K1 : has (sp_se s1) rho k (tv * tv)%R) by (apply E1; exists tv, tv; split; [exact Hv|]; split; [exact Hv|constructor]).
    assert (K2 : has (sp_se s2) rho k2 (tv * tv * tv)%R) by (apply E2; exists (tv * tv)%R, tv; split; [exact K1|]; split; [apply (more_has sp s1); assumption|constructor]).
    assert (K3 : has (sp_se s3) rho k3 (4 * (tv * tv * tv))%R) by (apply E3; exists (tv * tv * tv)%R; split; [exact K2|constructor]).
    replace (cub (mkCub 0 0 0 4) tv) with (4 * (tv * tv * tv))%R by (unfold cub; cbn; ring). intros v. split; [intros Hh'; exact (has_det _ _ _ _ _ Hh' K3)|intros ->; exact K3]. }
  split.
  - intros K. inversion K as [|? v2 ? ? Hv2 K2]; subst. inversion K2; subst. apply H2 in Hv2. congruence.
  - intros ->. constructor; [apply H2; reflexivity|constructor].
Qed.

(** A callback: x0 <= 1 and u0 >= 0. *)
Definition fence : vmat -> vmat -> G unit := fun x u => gdo _ <- gsubject CLe (as_operand x) (ONum (S := R_ops) 1%R); gsubject CGe (as_operand u) (ONum (S := R_ops) 0%R).
Lemma shows_all (P : R -> Prop) sp rho x n : vars_of sp x n 1 -> forall xv, shows (sp_se sp) rho (v_at x) xv ->
  ((forall i j, i < n -> j < 1 -> exists a b, operand_is (sp_se sp) rho (as_operand x) i j a /\ b = 0%R /\ P a) <-> List.Forall P xv).
Proof.
  intros ((R1 & C1) & L & B) xv Hx. pose proof (shows_len _ _ _ _ Hx) as Lx. cbn [operand_is as_operand]. rewrite C1. split.
  - intros H. apply List.Forall_forall. intros a Ha. apply In_nth_error in Ha as (i & Hi). assert (Hn : i < n) by (apply nth_error_lt in Hi || (assert (nth_error xv i <> None) by congruence; apply nth_error_Some in H0; lia)).
    destruct (H i 0 Hn ltac:(lia)) as (a' & b & (k & Hk & Hv) & _ & HP). rewrite Nat.mul_1_r, Nat.add_0_r in Hk. destruct (F2_nth _ _ _ _ _ Hx Hk) as (c & Hc & Hkc). rewrite Hi in Hc. injection Hc as <-. rewrite (has_det _ _ _ _ _ Hkc Hv). exact HP.
  - intros H i j Hi Hj. replace j with 0 by lia. destruct (nth_error xv i) as [a|] eqn:E; [|apply nth_error_None in E; lia]. destruct (F2_nth_r _ _ _ _ _ Hx E) as (k & Hk & Hv). exists a, 0%R. split; [exists k; rewrite Nat.mul_1_r, Nat.add_0_r; auto|]. split; [reflexivity|].
    rewrite List.Forall_forall in H. apply H. eapply nth_error_In. exact E.
Qed.
Lemma fence_states ns ni : states_cb ns ni fence (fun x u => List.Forall (fun a => (a <= 1)%R) x /\ List.Forall (fun a => (a >= 0)%R) u).
Proof.
  intros sp g x u Sy Vx Vu.
  assert (F1 : fits (len sp) (ONum (S := R_ops) 1%R) ns 1) by (split; reflexivity || exact I).
  assert (K : T sp (fence x u) (fun sp' _ => exists is, wider sp sp' [] is /\ forall rho xv uv, shows (sp_se sp) rho (v_at x) xv -> shows (sp_se sp) rho (v_at u) uv -> (List.Forall (rel_holds rho) is <-> List.Forall (fun a => (a <= 1)%R) xv /\ List.Forall (fun a => (a >= 0)%R) uv))).
  { unfold fence. eapply T_bind; [apply (T_subject sp CLe (as_operand x) _ ns 1 (fits_vars _ _ _ _ Vx) F1 (common_vars _ _ _ _ _ Vx F1))|]. cbn [is_eq]. intros s1 y (rs & Es & W & L & E).
    pose proof (wider_vars _ _ _ _ _ _ _ W Vu) as Vu1. assert (F2 : fits (len s1) (ONum (S := R_ops) 0%R) ni 1) by (split; reflexivity || exact I).
    eapply T_conseq; [apply (T_subject s1 CGe (as_operand u) _ ni 1 (fits_vars _ _ _ _ Vu1) F2 (common_vars _ _ _ _ _ Vu1 F2))|]. cbn [is_eq]. intros s2 z (rs2 & Es2 & W2 & L2 & E2).
    exists (rs ++ rs2). split; [exact (wider_trans _ _ _ _ _ _ _ W W2)|]. intros rho xv uv Hx Hu. rewrite Forall_app, E, E2. rewrite Es.
    rewrite <- (shows_all (fun a => (a <= 1)%R) sp rho x ns Vx xv Hx), <- (shows_all (fun a => (a >= 0)%R) sp rho u ni Vu uv Hu). cbn [operand_is cmp_holds].
    split; intros [A B]; split; intros i j Hi Hj.
    - destruct (A i j Hi Hj) as (a & b & Ha & -> & Hc). exists a, 0%R. auto.
    - destruct (B i j Hi Hj) as (a & b & Ha & -> & Hc). exists a, 0%R. auto.
    - destruct (A i j Hi Hj) as (a & b & Ha & -> & Hc). exists a, 1%R. auto.
    - destruct (B i j Hi Hj) as (a & b & Ha & -> & Hc). exists a, 0%R. auto. }
  destruct (K g Sy) as ([] & g' & sp' & D & is & W & E). exists g', sp', [], is. split; [exact D|]. split; [apply wider_adds, W|]. intros rho xv uv Hx Hu. rewrite both_nil_l. apply E; assumption.
Qed.
