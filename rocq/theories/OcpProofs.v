(** Proofs for C58-C62: what generated statements mean. *)
From Coq Require Import Reals List Bool Arith Lia Lra.
From Verif Require Import Base ExprModel MathSpec VarModel ExprReal VarSpec HistProofs ProblemModel ProblemSpec ProblemProofs ProblemProofs4 OcpModel OcpSpec.
Import ListNotations.
Local Open Scope nat_scope.

Definition len (sp : spec) := length (se_exp (sp_se sp)).

Lemma spec_run_app l1 l2 sp sp1 q1 sp2 q2 : spec_run l1 sp = Some (sp1, q1) -> spec_run l2 sp1 = Some (sp2, q2) -> spec_run (l1 ++ l2) sp = Some (sp2, q1 ++ q2).
Proof.
  revert sp q1. induction l1 as [|o l1 IH]; intros sp q1 H1 H2; cbn in *.
  - injection H1 as <- <-. exact H2.
  - destruct (spec_step o sp) as [[sp' q]|]; [|discriminate]. destruct (spec_run l1 sp') as [[sp'' q']|] eqn:E; [|discriminate]. injection H1 as <- <-.
    rewrite (IH _ _ E H2). now rewrite app_assoc.
Qed.

Lemma did_ret {A} (a : A) g sp : sync g sp -> did (gret a) g sp a g sp.
Proof. intros H. split; [reflexivity|]. split; [exact H|]. exists []. split; [symmetry; apply app_nil_r|reflexivity]. Qed.
Lemma did_bind {A B} (m : G A) (f : A -> G B) g sp a g1 sp1 b g2 sp2 : did m g sp a g1 sp1 -> did (f a) g1 sp1 b g2 sp2 -> did (gbind m f) g sp b g2 sp2.
Proof.
  intros (H1 & _ & c1 & C1 & R1) (H2 & S2 & c2 & C2 & R2). split; [unfold gbind; rewrite H1; exact H2|]. split; [exact S2|].
  exists (c1 ++ c2). split; [rewrite C2, C1, app_assoc; reflexivity|]. change (@nil pquery) with (@nil pquery ++ []). eapply spec_run_app; eauto.
Qed.

(** [T sp m Q]: from any program that means [sp], [m] runs and leads to a program and a result in [Q]. *)
Definition T {A} (sp : spec) (m : G A) (Q : spec -> A -> Prop) : Prop :=
  forall g, sync g sp -> exists a g' sp', did m g sp a g' sp' /\ Q sp' a.

Lemma T_ret {A} sp (a : A) (Q : spec -> A -> Prop) : Q sp a -> T sp (gret a) Q.
Proof. intros H g Hg. exists a, g, sp. split; [apply did_ret, Hg|exact H]. Qed.
Lemma T_bind {A B} sp (m : G A) (f : A -> G B) Q (Q' : spec -> B -> Prop) : T sp m Q -> (forall sp' a, Q sp' a -> T sp' (f a) Q') -> T sp (gbind m f) Q'.
Proof.
  intros H1 H2 g Hg. destruct (H1 g Hg) as (a & g1 & sp1 & D1 & q1). destruct (H2 _ _ q1 g1 (proj1 (proj2 D1))) as (b & g2 & sp2 & D2 & q2).
  exists b, g2, sp2. split; [eapply did_bind; eauto|exact q2].
Qed.
Lemma T_conseq {A} sp (m : G A) (Q Q' : spec -> A -> Prop) : T sp m Q -> (forall sp' a, Q sp' a -> Q' sp' a) -> T sp m Q'.
Proof. intros H K g Hg. destruct (H g Hg) as (a & g' & sp' & D & q). exists a, g', sp'. auto. Qed.
Lemma T_assert {A} sp b (m : G A) Q : b = true -> T sp m Q -> T sp (gassert b m) Q.
Proof. intros -> H. exact H. Qed.

(** *** Growing programs *)
Lemma more_refl sp : more sp sp.
Proof. exists []. rewrite app_nil_r. destruct sp as [[e n v] c d g q i]. reflexivity. Qed.
Lemma more_trans a b c : more a b -> more b c -> more a c.
Proof. intros (l & ->) (l' & ->). exists (l ++ l'). destruct a as [[e n v] ? ? ? ? ?]. cbn. now rewrite app_assoc. Qed.
Lemma more_len a b : more a b -> len a <= len b.
Proof. intros (l & ->). unfold len. cbn. rewrite app_length. lia. Qed.
Lemma more_nth a b i : more a b -> i < len a -> nth_error (se_exp (sp_se b)) i = nth_error (se_exp (sp_se a)) i.
Proof. intros (l & ->) H. cbn. apply nth_error_app1. exact H. Qed.
Lemma more_has a b rho i v : more a b -> i < len a -> has (sp_se b) rho i v <-> has (sp_se a) rho i v.
Proof. intros M H. unfold has. rewrite (more_nth a b i M H). reflexivity. Qed.
Lemma more_shows a b rho l vs : more a b -> List.Forall (fun i => i < len a) l -> shows (sp_se b) rho l vs <-> shows (sp_se a) rho l vs.
Proof.
  intros M H. revert vs. induction H as [|i l Hi Hl IH]; intros vs.
  - split; intros K; inversion K; constructor.
  - split; intros K; inversion K; subst; (constructor; [apply (more_has a b); assumption|apply IH; assumption]).
Qed.
Lemma more_vars a b m r c : more a b -> vars_of a m r c -> vars_of b m r c.
Proof. intros M (S1 & L & H). split; [exact S1|]. split; [exact L|]. eapply Forall_impl; [|exact H]. intros i Hi. pose proof (more_len a b M). unfold len in *. lia. Qed.

Lemma has_det se rho i v w : has se rho i v -> has se rho i w -> v = w.
Proof. intros (e & H1 & H2) (e' & H3 & H4). assert (e' = e) by congruence. subst. eapply XEv_det; eauto. Qed.
Lemma shows_det se rho l v w : shows se rho l v -> shows se rho l w -> v = w.
Proof. intros H. revert w. induction H; intros w K; inversion K; subst; [reflexivity|]. f_equal; [eapply has_det; eauto|auto]. Qed.
Lemma shows_len se rho l v : shows se rho l v -> length v = length l.
Proof. intros H. symmetry. induction H; cbn; congruence. Qed.
Lemma has_lt se rho i v : has se rho i v -> i < length (se_exp se).
Proof. intros (e & H & _). apply nth_error_Some. congruence. Qed.

(** *** Scalar statements *)
Definition plus (sp : spec) (x : uexp) : spec := set_se sp (mkSE (se_exp (sp_se sp) ++ [x]) (se_n (sp_se sp)) (se_val (sp_se sp))).
Lemma plus_more sp x : more sp (plus sp x). Proof. exists [x]. reflexivity. Qed.
Lemma plus_len sp x : len (plus sp x) = S (len sp). Proof. unfold len. cbn. rewrite app_length. cbn. lia. Qed.
Lemma plus_new sp x : nth_error (se_exp (sp_se (plus sp x))) (len sp) = Some x.
Proof. cbn. rewrite nth_error_app2 by (unfold len; lia). now rewrite Nat.sub_diag. Qed.
Lemma plus_has sp x rho v : has (sp_se (plus sp x)) rho (len sp) v <-> XEv rho x v.
Proof. unfold has. rewrite plus_new. split; [intros (e & [= <-] & H); exact H|intros H; exists x; auto]. Qed.

Lemma T_gvar sp o x : spec_step (PH o) sp = Some (plus sp x, []) -> T sp (gvar o) (fun sp' k => sp' = plus sp x /\ k = len sp).
Proof.
  intros H g [Hv Hc]. exists (g_vars g), (mkGen (S (g_vars g)) (g_cons g) (g_code g ++ [PH o])), (plus sp x). split.
  - split; [reflexivity|]. split.
    + split; cbn; [rewrite app_length; cbn; lia|exact Hc].
    + exists [PH o]. split; [reflexivity|]. cbn [spec_run]. rewrite H. reflexivity.
  - split; [reflexivity|exact Hv].
Qed.

Definition mk1 (sp : spec) (D : (nat -> R) -> R -> Prop) : spec -> nat -> Prop := fun sp' k =>
  more sp sp' /\ k < len sp' /\ forall rho v, has (sp_se sp') rho k v <-> D rho v.

Lemma T_const sp c : T sp (gvar (HConst (S := R_ops) c)) (mk1 sp (fun _ v => v = c)).
Proof.
  eapply T_conseq; [apply (T_gvar sp _ (XConst c)); reflexivity|]. intros sp' k [-> ->]. split; [apply plus_more|]. split; [rewrite plus_len; lia|].
  intros rho v. rewrite plus_has. split; [intros H; inversion H; reflexivity|intros ->; constructor].
Qed.
Lemma nth_lt sp i : i < len sp -> exists e, nth_error (se_exp (sp_se sp)) i = Some e.
Proof. intros H. destruct (nth_error (se_exp (sp_se sp)) i) eqn:E; [eauto|]. apply nth_error_None in E. unfold len in H. lia. Qed.
Lemma T_bin sp b i j : i < len sp -> j < len sp ->
  T sp (gbin b i j) (mk1 sp (fun rho v => exists x y, has (sp_se sp) rho i x /\ has (sp_se sp) rho j y /\ math_bin b x y v)).
Proof.
  intros Hi Hj. destruct (nth_lt _ _ Hi) as (e & Ei). destruct (nth_lt _ _ Hj) as (e' & Ej).
  eapply T_conseq; [apply (T_gvar sp _ (XBin b e e')); cbn; rewrite Ei, Ej; reflexivity|]. intros sp' k [-> ->]. split; [apply plus_more|]. split; [rewrite plus_len; lia|].
  intros rho v. rewrite plus_has. unfold has. rewrite Ei, Ej. split.
  - intros H. inversion H; subst. eexists _, _. split; [exists e; split; [reflexivity|eassumption]|]. split; [exists e'; split; [reflexivity|eassumption]|assumption].
  - intros (x & y & (a & [= <-] & Ha) & (b' & [= <-] & Hb) & M). econstructor; eauto.
Qed.
Lemma T_un sp u i : i < len sp -> T sp (gvar (HUn u i)) (mk1 sp (fun rho v => exists x, has (sp_se sp) rho i x /\ math_un u x v)).
Proof.
  intros Hi. destruct (nth_lt _ _ Hi) as (e & Ei).
  eapply T_conseq; [apply (T_gvar sp _ (XUn u e)); cbn; rewrite Ei; reflexivity|]. intros sp' k [-> ->]. split; [apply plus_more|]. split; [rewrite plus_len; lia|].
  intros rho v. rewrite plus_has. unfold has. rewrite Ei. split.
  - intros H. inversion H; subst. eexists. split; [exists e; split; [reflexivity|eassumption]|assumption].
  - intros (x & (a & [= <-] & Ha) & M). econstructor; eauto.
Qed.

Lemma mk1_bind {B} sp D (m : G nat) (f : nat -> G B) (Q : spec -> B -> Prop) : T sp m (mk1 sp D) ->
  (forall sp' k, more sp sp' -> k < len sp' -> (forall rho v, has (sp_se sp') rho k v <-> D rho v) -> T sp' (f k) Q) -> T sp (gbind m f) Q.
Proof. intros H K. eapply T_bind; [exact H|]. intros sp' k (M & L & E). apply K; assumption. Qed.

Lemma T_bin_num sp b i c : i < len sp ->
  T sp (gbin_num b i c) (mk1 sp (fun rho v => exists x, has (sp_se sp) rho i x /\ math_bin b x c v)).
Proof.
  intros Hi. unfold gbin_num. eapply mk1_bind; [apply T_const|]. intros sp1 k M L E. pose proof (more_len _ _ M).
  eapply T_conseq; [apply T_bin; lia|]. intros sp2 r (M2 & L2 & E2). split; [eapply more_trans; eauto|]. split; [exact L2|]. intros rho v. rewrite E2. split.
  - intros (x & y & Hx & Hy & Hm). apply E in Hy. subst. exists x. split; [apply (more_has sp sp1); assumption|exact Hm].
  - intros (x & Hx & Hm). exists x, c. split; [apply (more_has sp sp1); assumption|]. split; [apply E; reflexivity|exact Hm].
Qed.
Lemma T_num_bin sp b i c : i < len sp ->
  T sp (gnum_bin b c i) (mk1 sp (fun rho v => exists x, has (sp_se sp) rho i x /\ math_bin b c x v)).
Proof.
  intros Hi. unfold gnum_bin. eapply mk1_bind; [apply T_const|]. intros sp1 k M L E. pose proof (more_len _ _ M).
  eapply T_conseq; [apply T_bin; lia|]. intros sp2 r (M2 & L2 & E2). split; [eapply more_trans; eauto|]. split; [exact L2|]. intros rho v. rewrite E2. split.
  - intros (y & x & Hy & Hx & Hm). apply E in Hy. subst. exists x. split; [apply (more_has sp sp1); assumption|exact Hm].
  - intros (x & Hx & Hm). exists c, x. split; [apply E; reflexivity|]. split; [apply (more_has sp sp1); assumption|exact Hm].
Qed.

(** *** Matrix statements *)
Definition mkl {A} (sp : spec) (l : list A) (D : A -> (nat -> R) -> R -> Prop) : spec -> list nat -> Prop := fun sp' ks =>
  more sp sp' /\ length ks = length l /\ List.Forall (fun i => i < len sp') ks /\ forall rho vs, shows (sp_se sp') rho ks vs <-> Forall2 (fun a v => D a rho v) l vs.

Lemma T_gmap {A} (f : A -> G nat) D (l : list A) sp :
  (forall sp' a, In a l -> more sp sp' -> T sp' (f a) (mk1 sp' (D a))) -> T sp (gmap f l) (mkl sp l D).
Proof.
  assert (K : forall sp0, more sp sp0 -> (forall sp' a, In a l -> more sp sp' -> T sp' (f a) (mk1 sp' (D a))) -> T sp0 (gmap f l) (mkl sp0 l D));
    [|intros H; apply K; [apply more_refl|exact H]].
  induction l as [|a l IH]; intros sp0 M0 H; cbn [gmap].
  - apply T_ret. split; [apply more_refl|]. split; [reflexivity|]. split; [constructor|]. intros rho vs. split; intros K; inversion K; constructor.
  - eapply mk1_bind; [apply H; [left; reflexivity|exact M0]|]. intros sp1 k M1 L1 E1.
    eapply T_bind; [apply IH; [eapply more_trans; eauto|intros sp' b Hb; apply H; right; exact Hb]|].
    intros sp2 ks (M2 & N2 & L2 & E2). apply T_ret. split; [eapply more_trans; eauto|]. split; [cbn; lia|]. split.
    { constructor; [|exact L2]. pose proof (more_len _ _ M2). lia. }
    intros rho vs. split; intros K; inversion K; subst.
    + constructor; [apply E1; apply (more_has sp1 sp2); assumption|apply E2; assumption].
    + constructor; [apply (more_has sp1 sp2); [assumption|assumption|apply E1; assumption]|apply E2; assumption].
Qed.

(** A new matrix and its values. *)
Definition mkm (sp : spec) (r c : nat) (D : (nat -> R) -> list R -> Prop) : spec -> vmat -> Prop := fun sp' m =>
  more sp sp' /\ vars_of sp' m r c /\ forall rho vs, shows (sp_se sp') rho (v_at m) vs <-> D rho vs.
Lemma mkm_bind {B} sp r c D (m : G vmat) (f : vmat -> G B) (Q : spec -> B -> Prop) : T sp m (mkm sp r c D) ->
  (forall sp' k, more sp sp' -> vars_of sp' k r c -> (forall rho vs, shows (sp_se sp') rho (v_at k) vs <-> D rho vs) -> T sp' (f k) Q) -> T sp (gbind m f) Q.
Proof. intros H K. eapply T_bind; [exact H|]. intros sp' k (M & L & E). apply K; assumption. Qed.

Definition fop (b : bop) : R -> R -> R := match b with BAdd => Rplus | BSub => Rminus | BMul => Rmult | _ => fun _ _ => 0%R end.
Definition simple (b : bop) : Prop := b = BAdd \/ b = BSub \/ b = BMul.
Lemma simple_bin b x y v : simple b -> math_bin b x y v <-> v = fop b x y.
Proof. intros [->| [->| ->]]; (split; [intros H; inversion H; reflexivity|intros ->; constructor]). Qed.

Lemma F2_combine (H : nat -> R -> Prop) (o : R -> R -> R) : forall la lb, length la = length lb -> forall vs,
  Forall2 (fun (p : nat * nat) v => exists x y, H (fst p) x /\ H (snd p) y /\ v = o x y) (combine la lb) vs <->
  exists xs ys, Forall2 H la xs /\ Forall2 H lb ys /\ vs = map (fun p => o (fst p) (snd p)) (combine xs ys).
Proof.
  induction la as [|a la IH]; intros [|b lb] L vs; try discriminate; cbn [combine].
  - split; [intros K; inversion K; exists [], []; repeat constructor|]. intros (xs & ys & A & B & ->). inversion A. inversion B. constructor.
  - split.
    + intros K. inversion K as [|? ? ? ? (x & y & Hx & Hy & ->) K']; subst. apply IH in K' as (xs & ys & A & B & ->); [|cbn in L; lia].
      exists (x :: xs), (y :: ys). split; [constructor; assumption|]. split; [constructor; assumption|reflexivity].
    + intros (xs & ys & A & B & ->). inversion A; subst. inversion B; subst. cbn. constructor; [eexists _, _; eauto|]. apply IH; [cbn in L; lia|]. eexists _, _. eauto.
Qed.
Lemma F2_map (H : nat -> R -> Prop) (o : R -> R) : forall la vs,
  Forall2 (fun a v => exists x, H a x /\ v = o x) la vs <-> exists xs, Forall2 H la xs /\ vs = map o xs.
Proof.
  induction la as [|a la IH]; intros vs.
  - split; [intros K; inversion K; exists []; repeat constructor|]. intros (xs & A & ->). inversion A. constructor.
  - split.
    + intros K. inversion K as [|? ? ? ? (x & Hx & ->) K']; subst. apply IH in K' as (xs & A & ->). exists (x :: xs). split; [constructor; assumption|reflexivity].
    + intros (xs & A & ->). inversion A; subst. cbn. constructor; [eauto|]. apply IH. eauto.
Qed.
Lemma Forall2_iff {A B} (P Q : A -> B -> Prop) l m : (forall a b, In a l -> P a b <-> Q a b) -> Forall2 P l m <-> Forall2 Q l m.
Proof.
  revert m. induction l as [|a l IH]; intros m H; split; intros K; inversion K; subst; constructor; try (apply H; [left; reflexivity|assumption]); apply IH; auto; intros; apply H; right; assumption.
Qed.

Lemma vars_bound sp m r c : vars_of sp m r c -> List.Forall (fun i => i < len sp) (v_at m).
Proof. intros (_ & _ & H). exact H. Qed.

Lemma T_vop sp b x y r c : simple b -> vars_of sp x r c -> vars_of sp y r c ->
  T sp (vop b x y) (mkm sp r c (fun rho vs => exists xv yv, shows (sp_se sp) rho (v_at x) xv /\ shows (sp_se sp) rho (v_at y) yv /\
    vs = map (fun p => fop b (fst p) (snd p)) (combine xv yv))).
Proof.
  intros Sb ((R1 & C1) & L1 & B1) ((R2 & C2) & L2 & B2). unfold vop. apply T_assert; [rewrite R1, R2, C1, C2, !Nat.eqb_refl; reflexivity|].
  eapply T_bind.
  { apply (T_gmap _ (fun p rho v => exists a b', has (sp_se sp) rho (fst p) a /\ has (sp_se sp) rho (snd p) b' /\ v = fop b a b')).
    intros sp' [i j] Hin M. apply in_combine_l in Hin as Hi. apply in_combine_r in Hin as Hj. rewrite List.Forall_forall in B1, B2. specialize (B1 _ Hi). specialize (B2 _ Hj). cbn [fst snd].
    pose proof (more_len _ _ M). eapply T_conseq; [apply T_bin; unfold len in *; lia|]. intros sp2 k (M2 & K2 & E2). split; [exact M2|]. split; [exact K2|]. intros rho v. rewrite E2.
    split; intros (u & w & Hu & Hw & Hm); exists u, w; (split; [apply (more_has sp sp'); assumption|split; [apply (more_has sp sp'); assumption|apply simple_bin; assumption]]). }
  intros sp' ks (M & L & B & E). apply T_ret. split; [exact M|]. split.
  { split; [split; cbn; assumption|]. split; [cbn; rewrite L, combine_length; lia|exact B]. }
  intros rho vs. cbn [v_at]. rewrite E. apply F2_combine. lia.
Qed.
Lemma T_vscale sp x k r c : vars_of sp x r c -> k < len sp ->
  T sp (vscale x k) (mkm sp r c (fun rho vs => exists xv, shows (sp_se sp) rho (v_at x) xv /\ exists cv, (r * c <> 0 -> has (sp_se sp) rho k cv) /\ vs = vmul cv xv)).
Proof.
  intros ((R1 & C1) & L1 & B1) Hk. unfold vscale. eapply T_bind.
  { apply (T_gmap _ (fun i rho v => exists a b', has (sp_se sp) rho i a /\ has (sp_se sp) rho k b' /\ v = (b' * a)%R)).
    intros sp' i Hi M. rewrite List.Forall_forall in B1. specialize (B1 _ Hi).
    pose proof (more_len _ _ M). eapply T_conseq; [apply T_bin; unfold len in *; lia|]. intros sp2 q (M2 & K2 & E2). split; [exact M2|]. split; [exact K2|]. intros rho v. rewrite E2.
    split; intros (u & w & Hu & Hw & Hm); exists u, w; (split; [apply (more_has sp sp'); assumption|split; [apply (more_has sp sp'); assumption|]]).
    - inversion Hm; subst. ring.
    - subst. rewrite Rmult_comm. constructor. }
  intros sp' ks (M & L & B & E). apply T_ret. split; [exact M|]. split.
  { split; [split; cbn; assumption|]. split; [cbn; lia|exact B]. }
  intros rho vs. cbn [v_at]. rewrite E. split.
  - intros F. destruct (v_at x) as [|i l] eqn:Ex.
    + inversion F. subst. exists []. split; [constructor|]. exists 0%R. split; [cbn in L1; lia|reflexivity].
    + inversion F as [|? ? ? ? (a & b & Ha & Hb & ->) F']; subst.
      assert (F2 : Forall2 (fun i v => exists a, has (sp_se sp) rho i a /\ v = (b * a)%R) (i :: l) ((b * a)%R :: l')).
      { constructor; [eauto|]. eapply Forall2_iff; [|exact F']. intros j w _. split; [intros (u & Hu & ->); exists u, b; auto|intros (u & b' & Hu & Hb' & ->)]. exists u. split; [exact Hu|]. f_equal. eapply has_det; eauto. }
      apply F2_map in F2 as (xs & F2 & ->). exists xs. split; [exact F2|]. exists b. split; [intros _; exact Hb|reflexivity].
  - intros (xv & Hx & cv & Hc & ->). destruct (v_at x) as [|i l] eqn:Ex; [inversion Hx; subst; constructor|].
    assert (Hc' : has (sp_se sp) rho k cv) by (apply Hc; cbn in L1; lia). apply (Forall2_iff (fun i v => exists a, has (sp_se sp) rho i a /\ v = (cv * a)%R)).
    { intros j w _. split; [intros (u & Hu & ->); exists u, cv; auto|intros (u & b' & Hu & Hb' & ->)]. exists u. split; [exact Hu|]. f_equal. eapply has_det; eauto. }
    apply F2_map. exists xv. split; [exact Hx|reflexivity].
Qed.
Lemma T_vscale_num sp x k r c : vars_of sp x r c ->
  T sp (vscale_num x k) (mkm sp r c (fun rho vs => exists xv, shows (sp_se sp) rho (v_at x) xv /\ vs = vmul k xv)).
Proof.
  intros ((R1 & C1) & L1 & B1). unfold vscale_num. eapply T_bind.
  { apply (T_gmap _ (fun i rho v => exists a, has (sp_se sp) rho i a /\ v = (k * a)%R)).
    intros sp' i Hi M. rewrite List.Forall_forall in B1. specialize (B1 _ Hi).
    pose proof (more_len _ _ M). eapply T_conseq; [apply T_bin_num; unfold len in *; lia|]. intros sp2 q (M2 & K2 & E2). split; [exact M2|]. split; [exact K2|]. intros rho v. rewrite E2.
    split; intros (u & Hu & Hm); exists u; (split; [apply (more_has sp sp'); assumption|]).
    - inversion Hm; subst. ring.
    - subst. rewrite Rmult_comm. constructor. }
  intros sp' ks (M & L & B & E). apply T_ret. split; [exact M|]. split.
  { split; [split; cbn; assumption|]. split; [cbn; lia|exact B]. }
  intros rho vs. cbn [v_at]. rewrite E. apply F2_map.
Qed.
