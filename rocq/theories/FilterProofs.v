(** Proofs for C44, C45. *)
From Coq Require Import ZArith Reals List Bool Lra Lia.
From Verif Require Import ExprModel ExprReal ExprXR NumModel FilterModel FilterSpec.
Import ListNotations.

Lemma R_leb_true a b : R_leb a b = true <-> (a <= b)%R.
Proof. unfold R_leb. destruct (Rle_dec a b); split; intros; auto; try discriminate; contradiction. Qed.
Lemma R_ltb_true a b : R_ltb a b = true <-> (a < b)%R.
Proof. unfold R_ltb. destruct (Rlt_dec a b); split; intros; auto; try discriminate; contradiction. Qed.
Lemma R_leb_false a b : R_leb a b = false <-> (b < a)%R.
Proof. unfold R_leb. destruct (Rle_dec a b); split; intros; try discriminate; try lra; auto. Qed.
Lemma R_ltb_false a b : R_ltb a b = false <-> (b <= a)%R.
Proof. unfold R_ltb. destruct (Rlt_dec a b); split; intros; try discriminate; try lra; auto. Qed.

Lemma R_eqb_true a b : R_eqb a b = true <-> a = b.
Proof. unfold R_eqb. destruct (Req_EM_T a b); split; intros; auto; discriminate. Qed.
Definition trans_leb (S : nops) := forall a b c : S, s_leb S a b = true -> s_leb S b c = true -> s_leb S a c = true.
Lemma Rn_trans : trans_leb Rn.
Proof. intros a b c H1 H2. apply R_leb_true in H1, H2. apply R_leb_true. cbn in *. lra. Qed.
Lemma X_leb_fin a b : X_leb (Fin a) (Fin b) = true <-> (a <= b)%R.
Proof.
  unfold X_leb. cbn. rewrite orb_true_iff, R_ltb_true, R_eqb_true. lra.
Qed.
Lemma Xn_trans : trans_leb Xn.
Proof.
  intros a b c. change (X_leb a b = true -> X_leb b c = true -> X_leb a c = true).
  destruct a, b, c; try (rewrite !X_leb_fin; lra); cbn; auto; try discriminate.
Qed.

Section Gen.
Context {S : nops}.

Lemma dominated_iff (a b : fentry S) : dominated_by a b = true <-> no_better a b.
Proof. unfold dominated_by, no_better. apply andb_true_iff. Qed.
Lemma no_better_trans (T : trans_leb S) (a b c : fentry S) : no_better a b -> no_better b c -> no_better a c.
Proof. intros [A B] [C D]. split; eapply T; eauto. Qed.
Lemma in_filter_iff (f : filter S) e : in_filter f e = true <-> exists x, In x (f_entries f) /\ no_better e x.
Proof. unfold in_filter. rewrite existsb_exists. setoid_rewrite dominated_iff. reflexivity. Qed.

(** What a call can do. *)
Lemma try_add_cases (f : filter S) cur trial d a f' b : try_add f cur trial d a = (f', b) ->
  (b = false /\ f_entries f' = f_entries f /\ f_max f' = f_max f /\ f_min f' = f_min f) \/
  (b = true /\ s_finite S (fe_cost trial) = true /\ s_ltb S (f_max f) (fe_viol trial) = false /\ in_filter f trial = false /\
   (s_leb S (fe_viol cur) (f_min f) && switching cur d a = true /\ armijo cur trial d a = true /\ f' = f \/
    (sufficient cur trial a = true /\ switching cur d a && armijo cur trial d a = true /\ f' = f) \/
    (sufficient cur trial a = true /\ f' = filter_add f (margin cur a)))).
Proof.
  unfold try_add. destruct (s_finite S (fe_cost trial)) eqn:E1; cbn [negb orb]; [|intros H; injection H as <- <-; left; auto].
  destruct (s_ltb S (f_max f) (fe_viol trial)) eqn:E2; [intros H; injection H as <- <-; left; auto|].
  destruct (s_leb S (fe_viol cur) (f_min f)), (switching cur d a), (armijo cur trial d a), (sufficient cur trial a);
    cbn [andb negb orb]; try (intros H; injection H as <- <-; left; cbn; auto; fail);
    (destruct (in_filter f trial) eqn:E3; intros H; injection H as <- <-; [left; cbn; auto|right]); repeat split; auto.
Qed.

Lemma try_add_accepts (f : filter S) cur trial d a f' : try_add f cur trial d a = (f', true) ->
  s_finite S (fe_cost trial) = true /\ s_ltb S (f_max f) (fe_viol trial) = false /\
  (forall e, In e (f_entries f) -> ~ no_better trial e) /\
  (sufficient cur trial a = true \/ (switching cur d a = true /\ armijo cur trial d a = true)).
Proof.
  intros H. destruct (try_add_cases _ _ _ _ _ _ _ H) as [(B & _)|(_ & H1 & H2 & H3 & H4)]; [discriminate|].
  repeat split; auto.
  - intros e He D. assert (in_filter f trial = true) by (apply in_filter_iff; eauto). congruence.
  - destruct H4 as [(A & B & _)|[(A & _)|(A & _)]]; auto. apply andb_true_iff in A. tauto.
Qed.
Lemma try_add_records (f : filter S) cur trial d a f' : try_add f cur trial d a = (f', true) ->
  switching cur d a && armijo cur trial d a = false -> In (margin cur a) (f_entries f').
Proof.
  intros H N. destruct (try_add_cases _ _ _ _ _ _ _ H) as [(B & _)|(_ & _ & _ & _ & H4)]; [discriminate|].
  destruct H4 as [(A & B & _)|[(_ & A & _)|(_ & ->)]].
  - apply andb_true_iff in A. destruct A as [_ A]. rewrite A, B in N. discriminate.
  - congruence.
  - cbn. apply in_or_app. right. left. reflexivity.
Qed.

(** Whatever was excluded stays excluded. *)
Definition excludes (f : filter S) (t : fentry S) : Prop := exists x, In x (f_entries f) /\ no_better t x.
Lemma add_excludes (T : trans_leb S) (f : filter S) e t : excludes f t -> excludes (filter_add f e) t.
Proof.
  intros (x & Hx & Ht). destruct (dominated_by x e) eqn:E.
  - exists e. split; [cbn; apply in_or_app; right; left; reflexivity|]. apply dominated_iff in E. eapply no_better_trans; eauto.
  - exists x. split; [|exact Ht]. cbn. apply in_or_app. left. apply filter_In. rewrite E. auto.
Qed.
Lemma step_excludes (T : trans_leb S) f o t : o <> FReset -> excludes f t -> excludes (fst (fstep f o)) t.
Proof.
  intros N H. destruct o as [|cur trial d a]; [congruence|]. cbn. destruct (try_add f cur trial d a) as [f' b] eqn:E. cbn.
  destruct (try_add_cases _ _ _ _ _ _ _ E) as [(_ & H1 & _)|(_ & _ & _ & _ & [(_ & _ & ->)|[(_ & _ & ->)|(_ & ->)]])]; auto.
  - unfold excludes in *. rewrite H1. exact H.
  - apply add_excludes; assumption.
Qed.
Lemma run_excludes (T : trans_leb S) ops : forall f t, ~ In FReset ops -> excludes f t -> excludes (frun f ops) t.
Proof.
  induction ops as [|o ops IH]; intros f t N H; cbn; [exact H|].
  apply IH; [intros X; apply N; right; exact X|]. apply step_excludes; [exact T|intros ->; apply N; left; reflexivity|exact H].
Qed.
Lemma c44_remembers (T : trans_leb S) (f : filter S) ops cur trial d a f' e : In e (f_entries f) -> ~ In FReset ops -> no_better trial e ->
  try_add (frun f ops) cur trial d a <> (f', true).
Proof.
  intros He N D E. assert (X : excludes (frun f ops) trial) by (apply run_excludes; [exact T|exact N|exists e; auto]).
  destruct X as (x & Hx & Hd). destruct (try_add_accepts _ _ _ _ _ _ E) as (_ & _ & H & _). exact (H x Hx Hd).
Qed.
End Gen.

(** Over the reals: progress, and recorded entries do not dominate each other. *)
Local Open Scope R_scope.
Lemma lit_R m k : lit (S := Rn) m k = IZR m / IZR (Z.pow 10 (Z.of_nat k)).
Proof. reflexivity. Qed.
Lemma R_pow_pos_base a p : 0 < a -> 0 < R_pow a p.
Proof.
  intros H. unfold R_pow. destruct (Req_EM_T _ _).
  - apply powerRZ_lt, H.
  - destruct (Req_EM_T a 0); [lra|]. unfold Rpower. apply exp_pos.
Qed.
Lemma Int_part_15 : IZR (Int_part (15 / 10)) <> 15 / 10.
Proof. intros E. assert (2 * IZR (Int_part (15 / 10)) = 3) by lra. rewrite <- (mult_IZR 2) in H. apply eq_IZR in H. lia. Qed.
Lemma phi_bounds a : 0 < a <= 1 -> 0 < R_pow a (15 / 10) <= 1.
Proof.
  intros [H1 H2]. split; [apply R_pow_pos_base, H1|]. unfold R_pow.
  destruct (Req_EM_T _ _) as [E|_]; [destruct (Int_part_15 E)|]. destruct (Req_EM_T a 0); [lra|].
  rewrite <- (Rpower_O 1) by lra. destruct (Req_dec a 1) as [->|N].
  - rewrite Rpower_O by lra. unfold Rpower. rewrite ln_1, Rmult_0_r, exp_0. lra.
  - rewrite Rpower_O by lra. unfold Rpower. rewrite <- exp_0. left. apply exp_increasing.
    assert (ln a < 0) by (rewrite <- ln_1; apply ln_increasing; lra). nra.
Qed.
Lemma margin_R (cur : fentry Rn) (a : R) : 0 < a <= 1 -> exists t u, 0 < t /\ 0 < u < 1 /\
  fe_cost (margin cur a) = fe_cost cur - t * fe_viol cur /\ fe_viol (margin cur a) = (1 - u) * fe_viol cur.
Proof.
  intros H. exists (R_pow a (15 / 10) * (1 / 100000000)), (R_pow a (15 / 10) * (1 / 100000)).
  pose proof (phi_bounds a H). split; [nra|]. split; [nra|]. split; reflexivity.
Qed.

Lemma c44_progress (f : filter Rn) (cur trial : fentry Rn) (d a : R) f' : 0 < a <= 1 -> 0 < fe_viol cur ->
  try_add f cur trial d a = (f', true) -> fe_cost trial < fe_cost cur \/ fe_viol trial < fe_viol cur.
Proof.
  intros Ha Hv E. destruct (try_add_accepts _ _ _ _ _ _ E) as (_ & _ & _ & [H|[H1 H2]]).
  - destruct (margin_R cur a Ha) as (t & u & Ht & Hu & Ec & Ev). unfold sufficient in H. apply orb_true_iff in H.
    destruct H as [H|H]; apply R_leb_true in H; [rewrite Ec in H; left|rewrite Ev in H; right]; cbn in *; nra.
  - left. unfold switching in H1. apply andb_true_iff in H1. destruct H1 as [H1 _]. apply R_ltb_true in H1.
    unfold armijo in H2. apply R_leb_true in H2. cbn in *. nra.
Qed.

(** The invariant of line search use. *)
Definition fresh (cur : fentry Rn) (f : filter Rn) : Prop :=
  forall e, In e (f_entries f) -> fe_cost cur <= fe_cost e \/ fe_viol cur <= fe_viol e.
Lemma linesearch_fresh (cur : fentry Rn) f : linesearch cur f -> 0 <= fe_viol cur /\ fresh cur f.
Proof.
  induction 1 as [cur v Hv Hc|cur f H [IH0 IH]|cur f trial d a f' H [IH0 IH] E|cur f trial d a f' H [IH0 IH] Ha Ht E].
  - split; [exact Hc|]. intros e [].
  - split; [exact IH0|]. intros e [].
  - split; [exact IH0|]. destruct (try_add_cases _ _ _ _ _ _ _ E) as [(_ & H1 & _)|(B & _)]; [|discriminate].
    unfold fresh. rewrite H1. exact IH.
  - split; [exact Ht|]. destruct (try_add_accepts _ _ _ _ _ _ E) as (_ & _ & N & _).
    assert (Old : fresh trial f).
    { intros e He. specialize (N e He). destruct (Rle_dec (fe_cost trial) (fe_cost e)); [left; assumption|right].
      apply Rnot_lt_le. intros L. apply N. split; apply R_leb_true; cbn in *; lra. }
    destruct (try_add_cases _ _ _ _ _ _ _ E) as [(B & _)|(_ & _ & _ & _ & [(_ & _ & ->)|[(_ & _ & ->)|(Su & ->)]])]; auto; try discriminate.
    intros e He. cbn in He. apply in_app_or in He. destruct He as [He|[<-|[]]].
    + apply filter_In in He. apply Old, He.
    + unfold sufficient in Su. apply orb_true_iff in Su. destruct Su as [Su|Su]; apply R_leb_true in Su; auto.
Qed.

(** No two entries of the filter are comparable (positions, so a duplicate counts as comparable). *)
Definition antichain (l : list (fentry Rn)) : Prop :=
  forall i j a b, i <> j -> nth_error l i = Some a -> nth_error l j = Some b -> ~ no_better a b.
Lemma antichain_filter p l : antichain l -> antichain (List.filter p l).
Proof.
  induction l as [|x l IH]; intros A; cbn; [exact A|].
  assert (Al : antichain l).
  { intros i j a b N Ha Hb. apply (A (Datatypes.S i) (Datatypes.S j)); auto. }
  destruct (p x); [|apply IH, Al]. intros i j a b N Ha Hb.
  destruct i as [|i], j as [|j]; [congruence| | |]; cbn in Ha, Hb.
  - injection Ha as ->. apply nth_error_In, filter_In in Hb. destruct Hb as [Hb _]. apply In_nth_error in Hb. destruct Hb as [k Hk].
    apply (A 0%nat (Datatypes.S k)); auto.
  - injection Hb as ->. apply nth_error_In, filter_In in Ha. destruct Ha as [Ha _]. apply In_nth_error in Ha. destruct Ha as [k Hk].
    apply (A (Datatypes.S k) 0%nat); auto.
  - apply (IH Al i j); auto.
Qed.
Lemma antichain_snoc l e : antichain l -> (forall x, In x l -> ~ no_better x e /\ ~ no_better e x) -> antichain (l ++ [e]).
Proof.
  intros A H i j a b N Ha Hb.
  assert (C : forall k y, nth_error (l ++ [e]) k = Some y -> nth_error l k = Some y \/ (k = length l /\ y = e)).
  { intros k y Hy. destruct (Nat.lt_ge_cases k (length l)) as [L|L]; [left; rewrite nth_error_app1 in Hy by lia; exact Hy|].
    rewrite nth_error_app2 in Hy by lia. right. destruct (k - length l)%nat as [|m] eqn:M; cbn in Hy.
    - injection Hy as ->. split; [lia|reflexivity].
    - destruct m; discriminate. }
  destruct (C _ _ Ha) as [Ha'|[Ei ->]], (C _ _ Hb) as [Hb'|[Ej ->]].
  - apply (A i j); auto.
  - apply H. eapply nth_error_In; eauto.
  - apply H. eapply nth_error_In; eauto.
  - lia.
Qed.

(** In line search use, every accepted step from a point with positive violation keeps the filter an antichain. *)
Lemma c44_antichain (cur : fentry Rn) f trial (d a : R) f' : linesearch cur f -> 0 < a <= 1 -> 0 < fe_viol cur ->
  antichain (f_entries f) -> try_add f cur trial d a = (f', true) -> antichain (f_entries f').
Proof.
  intros L Ha Hv A E. destruct (linesearch_fresh _ _ L) as [_ F].
  destruct (try_add_cases _ _ _ _ _ _ _ E) as [(B & _)|(_ & _ & _ & _ & [(_ & _ & ->)|[(_ & _ & ->)|(_ & ->)]])]; auto; try discriminate.
  cbn. apply antichain_snoc; [apply antichain_filter, A|]. intros x Hx. apply filter_In in Hx. destruct Hx as [Hx D]. split.
  - intros N. apply dominated_iff in N. rewrite N in D. discriminate.
  - intros [N1 N2]. apply R_leb_true in N1, N2. destruct (margin_R cur a Ha) as (t & u & Ht & Hu & Ec & Ev).
    rewrite Ec in N1. rewrite Ev in N2. destruct (F x Hx) as [G|G]; cbn in *; nra.
Qed.

(** Whole line search runs whose current points all have positive violation. *)
Inductive lspos : fentry Rn -> filter Rn -> Prop :=
| lp_new (cur : fentry Rn) (v : R) : 0 <= v -> 0 < fe_viol cur -> lspos cur (filter_new (S := Rn) v)
| lp_reset cur f : lspos cur f -> lspos cur (filter_reset f)
| lp_reject cur f trial (d a : R) f' : lspos cur f -> try_add f cur trial d a = (f', false) -> lspos cur f'
| lp_accept cur f (trial : fentry Rn) (d a : R) f' : lspos cur f -> 0 < a <= 1 -> 0 < fe_viol trial ->
    try_add f cur trial d a = (f', true) -> lspos trial f'.
Lemma lspos_ls (cur : fentry Rn) f : lspos cur f -> linesearch cur f /\ 0 < fe_viol cur.
Proof.
  induction 1 as [cur v Hv Hc|cur f H [IH P]|cur f trial d a f' H [IH P] E|cur f trial d a f' H [IH P] Ha Ht E].
  - split; [constructor; lra|assumption].
  - split; [constructor; assumption|assumption].
  - split; [eapply ls_reject; eauto|assumption].
  - split; [eapply ls_accept; eauto; lra|assumption].
Qed.
Lemma c44_entries cur f : lspos cur f -> antichain (f_entries f).
Proof.
  assert (Nil : antichain []) by (intros i j x y N Hx; destruct i; discriminate).
  induction 1 as [cur v Hv Hc|cur f H IH|cur f trial d a f' H IH E|cur f trial d a f' H IH Ha Ht E].
  - exact Nil.
  - exact Nil.
  - destruct (try_add_cases _ _ _ _ _ _ _ E) as [(_ & H1 & _)|(B & _)]; [|discriminate]. rewrite H1. exact IH.
  - destruct (lspos_ls _ _ H) as [L P]. eapply c44_antichain; eauto.
Qed.

(** At a feasible point with a non-descent direction an increase in cost is accepted, and the entry recorded
    dominates the accepted point. *)
Lemma c44_ref : exists (f : filter Rn) (cur trial : fentry Rn) (d a : R) f' f'' e1 e2, linesearch cur f /\
  try_add f cur trial d a = (f', true) /\ fe_cost cur < fe_cost trial /\ fe_viol cur = fe_viol trial /\
  try_add f' trial (mkFE (S := Rn) (-1) 0) d a = (f'', true) /\ f_entries f'' = [e1; e2] /\ no_better e2 e1.
Proof.
  set (c0 := mkFE (S := Rn) 0 0). set (c1 := mkFE (S := Rn) 5 0).
  assert (P1 : R_pow 1 (15 / 10) = 1).
  { unfold R_pow. destruct (Req_EM_T _ _) as [E|_]; [destruct (Int_part_15 E)|]. destruct (Req_EM_T 1 0); [lra|].
    unfold Rpower. rewrite ln_1, Rmult_0_r, exp_0. reflexivity. }
  assert (D0 : forall x, R_ltb 1 0 && x = false) by (intros x; replace (R_ltb 1 0) with false; [reflexivity|symmetry; apply R_ltb_false; lra]).
  exists (filter_new (S := Rn) 0), c0, c1, 1, 1.
  exists (mkF (S := Rn) (f_min (filter_new (S := Rn) 0)) (f_max (filter_new (S := Rn) 0)) [mkFE (S := Rn) (0 - R_pow 1 (15 / 10) * (1 / 100000000) * 0) ((1 - R_pow 1 (15 / 10) * (1 / 100000)) * 0)] false).
  set (m1 := mkFE (S := Rn) (0 - R_pow 1 (15 / 10) * (1 / 100000000) * 0) ((1 - R_pow 1 (15 / 10) * (1 / 100000)) * 0)).
  set (m2 := mkFE (S := Rn) (5 - R_pow 1 (15 / 10) * (1 / 100000000) * 0) ((1 - R_pow 1 (15 / 10) * (1 / 100000)) * 0)).
  exists (mkF (S := Rn) (f_min (filter_new (S := Rn) 0)) (f_max (filter_new (S := Rn) 0)) [m1; m2] false), m1, m2.
  assert (M1 : margin (S := Rn) c0 1 = m1) by reflexivity. assert (M2 : margin (S := Rn) c1 1 = m2) by reflexivity.
  assert (Sw : forall c : fentry Rn, switching (S := Rn) c 1 1 = false) by (intros c; unfold switching; apply D0).
  assert (Mx : f_max (filter_new (S := Rn) 0) = 10000).
  { cbn. unfold smax. cbn. replace (R_ltb 1 0) with false; [lra|symmetry; apply R_ltb_false; lra]. }
  split; [apply ls_new; cbn; lra|]. split.
  { unfold try_add. rewrite Sw, M1. cbn [s_finite Rn negb orb andb]. rewrite andb_false_r. cbn [andb negb].
    replace (s_ltb Rn (f_max (filter_new (S := Rn) 0)) (fe_viol c1)) with false by (symmetry; rewrite Mx; apply R_ltb_false; cbn; lra).
    replace (sufficient c0 c1 1) with true.
    2:{ symmetry. unfold sufficient. rewrite M1. apply orb_true_iff. right. apply R_leb_true. cbn. lra. }
    reflexivity. }
  split; [cbn; lra|]. split; [reflexivity|]. split.
  { unfold try_add. cbn [f_max f_min f_entries]. rewrite Sw, M2. cbn [s_finite Rn negb orb andb]. rewrite andb_false_r. cbn [andb negb].
    replace (s_ltb Rn (f_max (filter_new (S := Rn) 0)) (fe_viol (mkFE (S := Rn) (-1) 0))) with false by (symmetry; rewrite Mx; apply R_ltb_false; cbn; lra).
    replace (sufficient c1 (mkFE (S := Rn) (-1) 0) 1) with true.
    2:{ symmetry. unfold sufficient. rewrite M2. apply orb_true_iff. right. apply R_leb_true. cbn. lra. }
    replace (in_filter _ _) with false.
    2:{ symmetry. unfold in_filter. cbn. rewrite orb_false_r. unfold dominated_by. cbn. replace (R_leb _ (-1)) with false; [reflexivity|].
        symmetry. apply R_leb_false. lra. }
    unfold filter_add. cbn [f_min f_max f_entries f_flag List.filter].
    replace (dominated_by m1 m2) with false; [reflexivity|]. symmetry. unfold dominated_by. cbn.
    replace (R_leb _ _) with false; [reflexivity|]. symmetry. apply R_leb_false. lra. }
  split; [reflexivity|]. split; apply R_leb_true; cbn; lra.
Qed.

(** C45: over scalars with NaN and infinities. *)
Lemma c45 (f : filter Xn) (cur trial : fentry Xn) (d a : XR) f' : try_add f cur trial d a = (f', true) ->
  (exists r, fe_cost trial = Fin r) /\ ((exists m, f_max f = Fin m) -> fe_viol trial <> PInf).
Proof.
  intros E. destruct (try_add_accepts _ _ _ _ _ _ E) as (H1 & H2 & _). split.
  - cbn in H1. destruct (fe_cost trial); try discriminate. eauto.
  - intros [m Hm] Hv. rewrite Hm, Hv in H2. discriminate.
Qed.
Lemma c45_ref : exists (f : filter Xn) (cur trial : fentry Xn) (d a : XR) f', f = filter_new (S := Xn) (Fin 0) /\
  fe_viol trial = NaN /\ try_add f cur trial d a = (f', true).
Proof.
  exists (filter_new (S := Xn) (Fin 0)), (mkFE (S := Xn) (Fin 0) (Fin 0)), (mkFE (S := Xn) (Fin (-1)) NaN), (Fin 1), (Fin 1).
  eexists. split; [reflexivity|]. split; [reflexivity|].
  set (c0 := mkFE (S := Xn) (Fin 0) (Fin 0)). set (t := mkFE (S := Xn) (Fin (-1)) NaN).
  assert (Sw : switching (S := Xn) c0 (Fin 1) (Fin 1) = false).
  { unfold switching. replace (s_ltb Xn (Fin 1) (s_ofZ Xn 0)) with false; [reflexivity|]. symmetry. apply R_ltb_false. lra. }
  assert (Su : sufficient (S := Xn) c0 t (Fin 1) = true).
  { assert (Lx : forall m k, lit (S := Xn) m k = Fin (IZR m / IZR (10 ^ Z.of_nat k))).
    { intros m k. unfold lit. cbn [Xn nbase X_ops s_div s_ofZ X_div]. destruct (Req_EM_T _ 0) as [E|_]; [|reflexivity].
      apply eq_IZR in E. pose proof (Z.pow_pos_nonneg 10 (Z.of_nat k)). lia. }
    assert (P : exists p, s_pow Xn (Fin 1) (lit 15 1) = Fin p).
    { rewrite Lx. cbn [Xn nbase X_ops s_pow]. unfold X_pow.
      repeat match goal with |- exists p, (if ?c then _ else _) = _ => destruct c; [eexists; reflexivity|]
                           | |- exists p, (if ?c then _ else _) = _ => destruct c end; try (eexists; reflexivity); lra. }
    destruct P as [p P]. unfold sufficient. apply orb_true_iff. left. unfold margin. rewrite P. cbn [fe_cost c0 t fe_viol].
    unfold g_cost. rewrite Lx. change (X_leb (Fin (-1)) (Fin (0 + - (p * (1 / IZR (10 ^ Z.of_nat 8)) * 0))) = true).
    apply X_leb_fin. lra. }
  unfold try_add. rewrite Sw, Su. rewrite andb_false_r. cbn [andb negb orb]. 
  replace (negb (s_finite Xn (fe_cost t)) || s_ltb Xn (f_max (filter_new (S := Xn) (Fin 0))) (fe_viol t)) with false.
  - reflexivity.
  - symmetry. cbn [t fe_cost fe_viol s_finite Xn negb orb]. cbn [Xn nbase X_ops s_ltb]. destruct (f_max _); reflexivity.
Qed.

Lemma c44_ex : exists (f' : filter Rn), lspos (mkFE (S := Rn) 1 1) (filter_new (S := Rn) 1) /\
  try_add (filter_new (S := Rn) 1) (mkFE (S := Rn) 1 1) (mkFE (S := Rn) 0 (1/2)) (1 : Rn) (1 : Rn) = (f', true).
Proof.
  eexists. split; [constructor; cbn; lra|].
  assert (Mx : f_max (filter_new (S := Rn) 1) = 10000).
  { cbn. unfold smax. cbn. replace (R_ltb 1 1) with false; [lra|symmetry; apply R_ltb_false; lra]. }
  unfold try_add.
  replace (switching (S := Rn) _ 1 1) with false.
  2:{ symmetry. unfold switching. replace (s_ltb Rn 1 _) with false; [reflexivity|]. symmetry. apply R_ltb_false. cbn. lra. }
  rewrite andb_false_r. cbn [s_finite Rn negb orb andb].
  replace (s_ltb Rn (f_max (filter_new (S := Rn) 1)) _) with false by (symmetry; rewrite Mx; apply R_ltb_false; cbn; lra).
  replace (sufficient _ _ _) with true.
  2:{ symmetry. unfold sufficient. apply orb_true_iff. left. apply R_leb_true.
      assert (H1 : 0 < 1 <= 1) by lra. pose proof (phi_bounds 1 H1). cbn. change (IZR (Z.pow_pos 10 1)) with 10. lra. }
  reflexivity.
Qed.
