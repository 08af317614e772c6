(** Proofs for C58 and C59: the bodies of the constraint loops. *)
From Coq Require Import Reals List Bool Arith Lia Lra.
From Verif Require Import Base ExprModel MathSpec VarModel ExprReal VarSpec HistProofs ProblemModel ProblemSpec ProblemProofs ProblemProofs4 OcpModel OcpSpec OcpProofs OcpRk4 OcpLoop.
Import ListNotations.
Local Open Scope nat_scope.

Lemma wider_back a b c es is : more a b -> sp_se c = sp_se b -> wider b c es is -> wider a c es is.
Proof. intros M E W. pose proof (wider_trans _ _ _ _ _ _ _ (more_wider _ _ M) W) as K. exact K. Qed.
Lemma wider_more a b c es is : wider a b es is -> more b c -> wider a c es is.
Proof. intros W M. pose proof (wider_trans _ _ _ _ _ _ _ W (more_wider _ _ M)) as K. rewrite !app_nil_r in K. exact K. Qed.

Section Bodies.
Variables (ns ni : nat) (f : dyn) (F : dynamics).
Hypothesis C : computes ns ni f F.
Variables (N : nat) (X U DT : vmat).

Lemma transcription_body ty sp i time : mats ns ni N X U DT sp -> i < N -> time < len sp ->
  T sp (gdo x_begin <- vcol X i; gdo x_end <- vcol X (i + 1); gdo u <- vcol U i; gdo dt <- vget DT 0 i;
    gdo next <- advance ty f time x_begin u dt;
    gdo _ <- gsubject CEq (as_operand x_end) (as_operand next);
    gbin BAdd time dt) (fun sp' k => exists es, wider sp sp' es [] /\ length es = ns /\ k < len sp' /\
  forall rho xs us hs tv, shown N X U DT sp rho xs us hs -> has (sp_se sp) rho time tv -> has (sp_se sp') rho k (tv + hs i)%R /\
    (True -> (forall Pr, List.Forall (rel_sat Pr rho) es <-> next_state_upto (Pr CEq) ty F tv (xs i) (us i) (hs i) (xs (i + 1))))).
Proof.
  intros (VX & VU & VD) Hi Ht.
  apply (col_bind sp X i ns (N + 1)); [exact VX|lia|]. intros xb Vb Eb. apply (col_bind sp X (i + 1) ns (N + 1)); [exact VX|lia|]. intros xe Ve Ee.
  apply (col_bind sp U i ni (N + 1)); [exact VU|lia|]. intros u Vu Eu. apply (get_bind sp DT 0 i 1 (N + 1)); [exact VD|lia|lia|]. intros h Lh _ Eh.
  eapply T_bind; [apply (T_advance ns ni f F C ty sp time xb u h); assumption|]. intros s1 nx (M1 & V1 & E1).
  eapply T_bind; [apply (T_equal s1 xe nx ns); [eapply more_vars; [exact M1|exact Ve]|exact V1]|]. intros s2 _ (rs & Es & W2 & L2 & K2).
  pose proof (more_len _ _ M1) as Lm. assert (Lq : len s2 = len s1) by (unfold len; rewrite Es; reflexivity).
  eapply T_conseq; [apply T_bin; lia|]. intros s3 k (M3 & L3 & E3). exists rs.
  split; [eapply wider_more; [|exact M3]; exact (wider_back sp s1 s2 rs [] M1 Es W2)|]. split; [exact L2|]. split; [exact L3|].
  intros rho xs us hs tv Hs Hv. destruct (Hs i ltac:(lia)) as (Hx & Hu & Hh). destruct (Hs (i + 1) ltac:(lia)) as (Hx' & _ & _).
  apply Eh in Hh. apply Eb in Hx. apply Ee in Hx'. apply Eu in Hu. split.
  - apply E3. exists tv, (hs i). rewrite Es. split; [eapply has_up; eauto|]. split; [eapply has_up; eauto|constructor].
  - intros _ Pr. rewrite K2. specialize (E1 rho tv (xs i) (us i) (hs i) Hv Hx Hu Hh). pose proof (shows_up _ _ _ _ _ M1 Hx') as Hx1. split.
    + intros (vs & ws & A & B & Q). assert (vs = xs (i + 1)) as -> by exact (shows_det _ _ _ _ _ A Hx1). exists ws. split; [apply E1, B|exact Q].
    + intros (w & H & Q). exists (xs (i + 1)), w. split; [exact Hx1|]. split; [apply E1, H|exact Q].
Qed.

Lemma cubics (h : R) : h <> 0%R -> forall x x' k k', length x' = length x -> length k = length x -> length k' = length x ->
  exists ps, map (fun p => cub p 0) ps = x /\ map (fun p => cub p h) ps = x' /\ map (fun p => cub' p 0) ps = k /\ map (fun p => cub' p h) ps = k'.
Proof.
  intros Hh. induction x as [|a x IH]; intros [|a' x'] [|b k] [|b' k'] L1 L2 L3; try discriminate; [exists []; auto|].
  destruct (IH x' k k') as (ps & P1 & P2 & P3 & P4); try (cbn in *; lia).
  exists (mkCub a b ((3 * (a' - a) / h - 2 * b - b') / h) ((2 * (a - a') / h + b + b') / h ^ 2) :: ps). cbn [map]. rewrite P1, P2, P3, P4.
  repeat split; f_equal; unfold cub, cub'; cbn [c0 c1 c2 c3]; try ring; field; exact Hh.
Qed.

Lemma mid_slope (h : R) : h <> 0%R -> forall ps,
  vsub (vmul (-3 / (2 * h)) (vsub (map (fun p => cub p 0) ps) (map (fun p => cub p h) ps))) (vmul (1 / 4) (vadd (map (fun p => cub' p 0) ps) (map (fun p => cub' p h) ps))) =
  map (fun p => cub' p (h / 2)) ps.
Proof.
  intros Hh. induction ps as [|p ps IH]; [reflexivity|]. unfold vsub, vmul, vadd in *. cbn [map combine fst snd]. rewrite IH. f_equal. unfold cub, cub'. field. exact Hh.
Qed.
Lemma mid_state (h : R) : forall ps,
  vadd (vmul (1 / 2) (vadd (map (fun p => cub p 0) ps) (map (fun p => cub p h) ps))) (vmul (h / 8) (vsub (map (fun p => cub' p 0) ps) (map (fun p => cub' p h) ps))) =
  map (fun p => cub p (h / 2)) ps.
Proof.
  induction ps as [|p ps IH]; [reflexivity|]. unfold vsub, vmul, vadd in *. cbn [map combine fst snd]. rewrite IH. f_equal. unfold cub, cub'. field.
Qed.

Lemma collocation_body sp i time : mats ns ni N X U DT sp -> i < N -> time < len sp ->
  T sp (gdo h <- vget DT 0 i;
    gdo t_end <- gbin BAdd time h;
    gdo x_begin <- vcol X i; gdo x_end <- vcol X (i + 1);
    gdo u_begin <- vcol U i; gdo u_end <- vcol U (i + 1);
    gdo xdot_begin <- f time x_begin u_begin h;
    gdo xdot_end <- f t_end x_end u_end h;
    gdo h2 <- gnum_bin BMul 2%R h; gdo q <- gnum_bin BDiv (-3)%R h2;
    gdo dx <- vop BSub x_begin x_end; gdo a <- vscale dx q;
    gdo fs <- vop BAdd xdot_begin xdot_end; gdo b <- vscale_num fs (1 / 4)%R;
    gdo xdot_c <- vop BSub a b;
    gdo hh <- gnum_bin BMul (1 / 2)%R h; gdo t_c <- gbin BAdd time hh;
    gdo sx <- vop BAdd x_begin x_end; gdo mx <- vscale_num sx (1 / 2)%R;
    gdo h8 <- gbin_num BDiv h 8%R;
    gdo fd <- vop BSub xdot_begin xdot_end; gdo c <- vscale fd h8; gdo x_c <- vop BAdd mx c;
    gdo su <- vop BAdd u_begin u_end; gdo u_c <- vscale_num su (1 / 2)%R;
    gdo r <- f t_c x_c u_c h;
    gdo _ <- gsubject CEq (as_operand xdot_c) (as_operand r);
    gbin BAdd time h) (fun sp' k => exists es, wider sp sp' es [] /\ length es = ns /\ k < len sp' /\
  forall rho xs us hs tv, shown N X U DT sp rho xs us hs -> has (sp_se sp) rho time tv -> has (sp_se sp') rho k (tv + hs i)%R /\
    (hs i <> 0%R -> (forall Pr, List.Forall (rel_sat Pr rho) es <-> hermite_simpson_upto (Pr CEq) F tv (xs i) (xs (i + 1)) (us i) (us (i + 1)) (hs i)))).
Proof.
  intros (VX & VU & VD) Hi Ht.
  apply (get_bind sp DT 0 i 1 (N + 1)); [exact VD|lia|lia|]. intros h Lh _ Eh.
  eapply mk1_bind; [apply T_bin; lia|]. intros s1 te M1 L1 E1. pose proof (more_wider _ _ M1) as W1.
  apply (col_bind s1 X i ns (N + 1)); [eapply more_vars; eauto|lia|]. intros xb Vb Eb. apply (col_bind s1 X (i + 1) ns (N + 1)); [eapply more_vars; eauto|lia|]. intros xe Ve Ee.
  apply (col_bind s1 U i ni (N + 1)); [eapply more_vars; eauto|lia|]. intros ub Vub Eub. apply (col_bind s1 U (i + 1) ni (N + 1)); [eapply more_vars; eauto|lia|]. intros ue Vue Eue.
  apply (f_bind C); [lens|exact Vb|exact Vub|lens|]. intros s2 k0 M2 Vk0 Ek0.
  apply (f_bind C); [lens|eapply more_vars; [|exact Ve]; mtrans|eapply more_vars; [|exact Vue]; mtrans|lens|]. intros s3 k1 M3 Vk1 Ek1.
  eapply mk1_bind; [apply T_num_bin; lens|]. intros s4 h2 M4 L4 E4.
  eapply mk1_bind; [apply T_num_bin; lens|]. intros s5 q M5 L5 E5.
  eapply mkm_bind; [apply T_vop; [right; left; reflexivity|eapply more_vars; [|exact Vb]; mtrans|eapply more_vars; [|exact Ve]; mtrans]|]. intros s6 dx M6 V6 E6.
  eapply mkm_bind; [apply T_vscale; [exact V6|lens]|]. intros s7 a M7 V7 E7.
  eapply mkm_bind; [apply T_vop; [left; reflexivity|eapply more_vars; [|exact Vk0]; mtrans|eapply more_vars; [|exact Vk1]; mtrans]|]. intros s8 fs M8 V8 E8.
  eapply mkm_bind; [apply T_vscale_num; exact V8|]. intros s9 b M9 V9 E9.
  eapply mkm_bind; [apply T_vop; [right; left; reflexivity|eapply more_vars; [|exact V7]; mtrans|exact V9]|]. intros s10 xdc M10 V10 E10.
  eapply mk1_bind; [apply T_num_bin; lens|]. intros s11 hh M11 L11 E11.
  eapply mk1_bind; [apply T_bin; lens|]. intros s12 tc M12 L12 E12.
  eapply mkm_bind; [apply T_vop; [left; reflexivity|eapply more_vars; [|exact Vb]; mtrans|eapply more_vars; [|exact Ve]; mtrans]|]. intros s13 sx M13 V13 E13.
  eapply mkm_bind; [apply T_vscale_num; exact V13|]. intros s14 mx M14 V14 E14.
  eapply mk1_bind; [apply T_bin_num; lens|]. intros s15 h8 M15 L15 E15.
  eapply mkm_bind; [apply T_vop; [right; left; reflexivity|eapply more_vars; [|exact Vk0]; mtrans|eapply more_vars; [|exact Vk1]; mtrans]|]. intros s16 fd M16 V16 E16.
  eapply mkm_bind; [apply T_vscale; [exact V16|lens]|]. intros s17 c M17 V17 E17.
  eapply mkm_bind; [apply T_vop; [left; reflexivity|eapply more_vars; [|exact V14]; mtrans|exact V17]|]. intros s18 xc M18 V18 E18.
  eapply mkm_bind; [apply T_vop; [left; reflexivity|eapply more_vars; [|exact Vub]; mtrans|eapply more_vars; [|exact Vue]; mtrans]|]. intros s19 su M19 V19 E19.
  eapply mkm_bind; [apply T_vscale_num; exact V19|]. intros s20 uc M20 V20 E20.
  apply (f_bind C); [lens|eapply more_vars; [|exact V18]; mtrans|exact V20|lens|]. intros s21 r M21 Vr Er.
  eapply T_bind; [apply (T_equal s21 xdc r ns); [eapply more_vars; [|exact V10]; mtrans|exact Vr]|]. intros s22 _ (rs & Es & W22 & L22 & K22).
  assert (Lq : len s22 = len s21) by (unfold len; rewrite Es; reflexivity).
  eapply T_conseq; [apply T_bin; lens|]. intros s23 k (M23 & L23 & E23). exists rs. assert (Ma : more sp s21) by (clear - M1 M2 M3 M4 M5 M6 M7 M8 M9 M10 M11 M12 M13 M14 M15 M16 M17 M18 M19 M20 M21; mtrans).
  split; [eapply wider_more; [|exact M23]; exact (wider_back sp s21 s22 rs [] Ma Es W22)|]. split; [exact L22|]. split; [exact L23|].
  intros rho xs us hs tv Hs Hv. destruct (Hs i ltac:(lia)) as (Hx & Hu & Hh). destruct (Hs (i + 1) ltac:(lia)) as (Hx' & Hu' & _).
  apply Eh in Hh.
  apply (wider_column sp s1 [] [] X ns (N + 1) rho _ _ W1 VX) in Hx, Hx'. apply (wider_column sp s1 [] [] U ni (N + 1) rho _ _ W1 VU) in Hu, Hu'.
  apply Eb in Hx. apply Ee in Hx'. apply Eub in Hu. apply Eue in Hu'. split.
  { apply E23. exists tv, (hs i). rewrite Es. split; [eapply has_up; [exact Ma|exact Hv]|]. split; [eapply has_up; [exact Ma|exact Hh]|constructor]. }
  clear Ma. intros Hnz. set (hv := hs i) in *. set (x := xs i) in *. set (x' := xs (i + 1)) in *. set (u := us i) in *. set (u' := us (i + 1)) in *.
  assert (Hte : has (sp_se s1) rho te (tv + hv)%R) by (apply E1; exists tv, hv; split; [exact Hv|split; [exact Hh|constructor]]).
  assert (Q0 : forall kv, shows (sp_se s2) rho (v_at k0) kv <-> F tv x u hv kv).
  { apply Ek0; [eapply has_up; [|exact Hv]; mtrans|exact Hx|exact Hu|eapply has_up; [|exact Hh]; mtrans]. }
  assert (Q1 : forall kv, shows (sp_se s3) rho (v_at k1) kv <-> F (tv + hv)%R x' u' hv kv).
  { apply Ek1; [eapply has_up; [|exact Hte]; mtrans|eapply shows_up; [|exact Hx']; mtrans|eapply shows_up; [|exact Hu']; mtrans|eapply has_up; [|exact Hh]; mtrans]. }
  assert (Hq : has (sp_se s5) rho q (-3 / (2 * hv))%R).
  { apply E5. exists (2 * hv)%R. split; [apply E4; exists hv; split; [eapply has_up; [|exact Hh]; mtrans|constructor]|]. constructor. lra. }
  assert (Htc : has (sp_se s12) rho tc (tv + hv / 2)%R).
  { apply E12. exists tv, (1 / 2 * hv)%R. split; [eapply has_up; [|exact Hv]; mtrans|]. split; [apply E11; exists hv; split; [eapply has_up; [|exact Hh]; mtrans|constructor]|].
    replace (tv + hv / 2)%R with (tv + 1 / 2 * hv)%R by lra. constructor. }
  assert (H8 : has (sp_se s15) rho h8 (hv / 8)%R) by (apply E15; exists hv; split; [eapply has_up; [|exact Hh]; mtrans|constructor; lra]).
  assert (Huc : shows (sp_se s20) rho (v_at uc) (vmul (1 / 2) (vadd u u'))).
  { apply E20. eexists. split; [|reflexivity]. apply E19. exists u, u'. split; [eapply shows_up; [|exact Hu]; mtrans|]. split; [eapply shows_up; [|exact Hu']; mtrans|reflexivity]. }
  assert (Hxc : forall v0 v1, shows (sp_se s2) rho (v_at k0) v0 -> shows (sp_se s3) rho (v_at k1) v1 ->
    shows (sp_se s18) rho (v_at xc) (vadd (vmul (1 / 2) (vadd x x')) (vmul (hv / 8) (vsub v0 v1)))).
  { intros v0 v1 H0 H1. apply E18. eexists _, _. split; [|split; [|reflexivity]].
    - eapply shows_up; [|apply E14; eexists; split; [|reflexivity]; apply E13; exists x, x'; split; [eapply shows_up; [|exact Hx]; mtrans|split; [eapply shows_up; [|exact Hx']; mtrans|reflexivity]]]. mtrans.
    - apply E17. eexists. split; [apply E16; exists v0, v1; split; [eapply shows_up; [|exact H0]; mtrans|split; [eapply shows_up; [|exact H1]; mtrans|reflexivity]]|].
      exists (hv / 8)%R. split; [intros _; eapply has_up; [|exact H8]; mtrans|reflexivity]. }
  assert (Hxd : forall vs, shows (sp_se s10) rho (v_at xdc) vs <-> exists v0 v1, shows (sp_se s2) rho (v_at k0) v0 /\ shows (sp_se s3) rho (v_at k1) v1 /\
    vs = vsub (vmul (-3 / (2 * hv)) (vsub x x')) (vmul (1 / 4) (vadd v0 v1))).
  { intros vs. rewrite E10. split.
    - intros (av & bv & Ha & Hb & ->). apply E9 in Hb as (fv & Hf & ->). apply E8 in Hf as (v0 & v1 & H0 & H1 & ->).
      apply (shows_down s7 s9 rho a ns 1) in Ha; [|mtrans|exact V7]. apply E7 in Ha. apply (scale_val ns 1 s6 rho dx q (-3 / (2 * hv))%R) in Ha; [|eapply has_up; [|exact Hq]; mtrans|apply V6].
      destruct Ha as (dv & Hd & ->). apply E6 in Hd as (xv & xv' & A1 & A2 & ->).
      assert (xv = x) as -> by (eapply shows_det; [exact A1|eapply shows_up; [|exact Hx]; mtrans]). assert (xv' = x') as -> by (eapply shows_det; [exact A2|eapply shows_up; [|exact Hx']; mtrans]).
      exists v0, v1. split; [eapply (shows_down s2 s7); [mtrans|exact Vk0|exact H0]|]. split; [eapply (shows_down s3 s7); [mtrans|exact Vk1|exact H1]|reflexivity].
    - intros (v0 & v1 & H0 & H1 & ->). eexists _, _. split; [|split; [|reflexivity]].
      + eapply shows_up; [|apply E7; eexists; split; [apply E6; exists x, x'; split; [eapply shows_up; [|exact Hx]; mtrans|split; [eapply shows_up; [|exact Hx']; mtrans|reflexivity]]|]].
        * mtrans.
        * exists (-3 / (2 * hv))%R. split; [intros _; eapply has_up; [|exact Hq]; mtrans|reflexivity].
      + apply E9. eexists. split; [|reflexivity]. apply E8. exists v0, v1. split; [eapply shows_up; [|exact H0]; mtrans|]. split; [eapply shows_up; [|exact H1]; mtrans|reflexivity]. }
  assert (Qr : forall v0 v1, shows (sp_se s2) rho (v_at k0) v0 -> shows (sp_se s3) rho (v_at k1) v1 -> forall rv, shows (sp_se s21) rho (v_at r) rv <->
    F (tv + hv / 2)%R (vadd (vmul (1 / 2) (vadd x x')) (vmul (hv / 8) (vsub v0 v1))) (vmul (1 / 2) (vadd u u')) hv rv).
  { intros v0 v1 H0 H1. apply Er; [eapply has_up; [|exact Htc]; mtrans|eapply shows_up; [|apply (Hxc v0 v1 H0 H1)]; mtrans|exact Huc|eapply has_up; [|exact Hh]; mtrans]. }
  assert (Lx : length x = ns) by (rewrite (shows_len _ _ _ _ Hx), (proj1 (proj2 Vb)); lia).
  assert (Lx' : length x' = ns) by (rewrite (shows_len _ _ _ _ Hx'), (proj1 (proj2 Ve)); lia).
  intros Pr. rewrite K22. unfold hermite_simpson_upto. split.
  - intros (vs & ws & A & B & Q). apply (shows_down s10 s21 rho xdc ns 1) in A; [|mtrans|exact V10]. apply Hxd in A as (v0 & v1 & H0 & H1 & ->).
    assert (N0 : length v0 = ns) by (rewrite (shows_len _ _ _ _ H0), (proj1 (proj2 Vk0)); lia). assert (N1 : length v1 = ns) by (rewrite (shows_len _ _ _ _ H1), (proj1 (proj2 Vk1)); lia).
    destruct (cubics hv Hnz x x' v0 v1) as (ps & P1 & P2 & P3 & P4); try congruence. exists v0, v1, ps, ws. split; [apply Q0, H0|]. split; [apply Q1, H1|].
    split; [exact P1|]. split; [exact P2|]. split; [exact P3|]. split; [exact P4|]. rewrite <- (mid_state hv ps), <- (mid_slope hv Hnz ps), P1, P2, P3, P4. split; [apply (Qr v0 v1 H0 H1), B|exact Q].
  - intros (v0 & v1 & ps & m & H0 & H1 & P1 & P2 & P3 & P4 & H & Q). apply Q0 in H0. apply Q1 in H1. rewrite <- (mid_slope hv Hnz ps), P1, P2, P3, P4 in Q. rewrite <- (mid_state hv ps), P1, P2, P3, P4 in H.
    apply (Qr v0 v1 H0 H1) in H. eexists _, m. split; [|split; [exact H|exact Q]]. eapply shows_up; [|apply Hxd; exists v0, v1; auto]. mtrans.
Qed.
End Bodies.
