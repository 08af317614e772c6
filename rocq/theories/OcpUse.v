(** Proofs for C61 and C62: the functions that use an OCP. *)
From Coq Require Import Reals List Bool Arith Lia Lra.
From Verif Require Import Base ExprModel MathSpec VarModel ExprReal VarSpec HistProofs ProblemModel ProblemSpec ProblemProofs ProblemProofs4 OcpModel OcpSpec OcpProofs OcpRk4 OcpLoop OcpBody OcpMake OcpCtor OcpTrans OcpShoot.
Import ListNotations.
Local Open Scope nat_scope.

Lemma wider_adds a b es is : wider a b es is <-> adds a b es is.
Proof.
  split.
  - intros []. split; [|auto]. constructor; auto.
    + intros v _. congruence. + rewrite app_nil_r. assumption. + split; [constructor|intros v []].
  - intros ([] & E1 & E2). rewrite app_nil_r in *. constructor; auto.
Qed.

(** *** for_each_step *)
Lemma vcol_run m j r c : shape m r c -> length (v_at m) = r * c -> j < c -> exists x, is_col m j x /\ forall g, vcol m j g = Ok (x, g).
Proof.
  intros (Rm & Cm) L Hj. unfold vcol. rewrite Cm, Rm. unfold gassert. rewrite (proj2 (Nat.ltb_lt _ _) Hj). cbn [oassert].
  destruct (look_some (v_at m) (map (fun i => i * c + j) (seq 0 r))) as (xs & E & F).
  { intros k Hk. apply in_map_iff in Hk as (i & <- & Hi). apply in_seq in Hi. rewrite L. nia. }
  assert (Lx : length xs = r). { apply Forall2_length in F. rewrite map_length, seq_length in F. symmetry. exact F. }
  exists (mkM r 1 xs). split.
  - split; [split; cbn; congruence|]. split; [cbn; congruence|]. intros i Hi. cbn [v_at]. rewrite Rm in Hi. destruct (F2_nth _ _ _ _ _ F (nth_cells r c j i Hi)) as (b & E1 & E2). rewrite Cm. congruence.
  - intros g. rewrite E. reflexivity.
Qed.

Lemma each_step_calls o ns ni N : o_steps o = N -> shape (o_X o) ns (N + 1) -> length (v_at (o_X o)) = ns * (N + 1) -> shape (o_U o) ni (N + 1) -> length (v_at (o_U o)) = ni * (N + 1) ->
  exists l, length l = N + 1 /\ (forall k x u, nth_error l k = Some (x, u) -> is_col (o_X o) k x /\ is_col (o_U o) k u) /\ forall cb g, for_each_step o cb g = calls cb l g.
Proof.
  intros HN SX LX SU LU. unfold for_each_step. rewrite HN.
  assert (K : forall n i, i + n <= N + 1 -> exists l, length l = n /\ (forall k x u, nth_error l k = Some (x, u) -> is_col (o_X o) (i + k) x /\ is_col (o_U o) (i + k) u) /\
    forall cb g, gfor n i (fun i _ => gdo x <- vcol (o_X o) i; gdo u <- vcol (o_U o) i; cb x u) tt g = calls cb l g).
  { induction n as [|n IH]; intros i Hi.
    - exists []. split; [reflexivity|]. split; [intros [|k] ? ? H; discriminate H|reflexivity].
    - destruct (IH (S i) ltac:(lia)) as (l & Ll & Hl & El). destruct (vcol_run (o_X o) i ns (N + 1) SX LX ltac:(lia)) as (x & Cx & Ex). destruct (vcol_run (o_U o) i ni (N + 1) SU LU ltac:(lia)) as (u & Cu & Eu).
      exists ((x, u) :: l). split; [cbn; lia|]. split.
      + intros [|k] x' u' H; cbn in H; [injection H as <- <-; rewrite Nat.add_0_r; auto|]. replace (i + S k) with (S i + k) by lia. apply Hl, H.
      + intros cb g. cbn [gfor calls]. unfold gbind at 1 2 3. rewrite Ex. cbn [obind]. rewrite Eu. cbn [obind]. unfold gbind. destruct (cb x u g) as [[[] g1]| | |]; cbn [obind]; [apply El|reflexivity..]. }
  destruct (K (N + 1) 0 ltac:(lia)) as (l & Ll & Hl & El). exists l. auto.
Qed.

(** *** A loop over the steps that adds constraints *)
Section Each.
Variables (ns ni N : nat) (o : ocp).
Hypothesis HN : o_steps o = N.
Definition omats (sp : spec) : Prop := mats ns ni N (o_X o) (o_U o) (o_DT o) sp.
Lemma matrices_omats sp : matrices sp o ns ni N -> omats sp. Proof. intros (_ & H). exact H. Qed.


(** The loop without time. *)
Lemma T_each (body : nat -> G unit) (ok : spec -> Prop) (D : spec -> (nat -> R) -> Prop) (P : spec -> (nat -> R) -> nat -> Prop) :
  (forall a b es is, wider a b es is -> ok a -> ok b) -> (forall a b es is rho, wider a b es is -> ok a -> D a rho -> D b rho) ->
  (forall a b es is rho k, wider a b es is -> ok a -> k <= N -> P b rho k <-> P a rho k) ->
  (forall sp i, ok sp -> i <= N -> T sp (body i) (fun sp' _ => exists es is, wider sp sp' es is /\ forall rho, D sp rho -> (both rho es is <-> P sp rho i))) ->
  forall n i sp, ok sp -> i + n <= N + 1 -> T sp (gfor n i (fun i _ => body i) tt) (fun sp' _ => exists es is, wider sp sp' es is /\ forall rho, D sp rho -> (both rho es is <-> forall k, i <= k < i + n -> P sp rho k)).
Proof.
  intros Hok HD HP HB. induction n as [|n IH]; intros i sp Ho Hi; cbn [gfor].
  - apply T_ret. exists [], []. split; [apply wider_refl|]. intros rho _. split; [intros _ k Hk; lia|intros _; split; constructor].
  - eapply T_bind; [apply (HB sp i Ho); lia|]. intros s1 [] (es & is & W & E). eapply T_conseq; [apply (IH (S i) s1 (Hok _ _ _ _ W Ho)); lia|].
    intros s2 z (es2 & is2 & W2 & E2). exists (es ++ es2), (is ++ is2). split; [exact (wider_trans _ _ _ _ _ _ _ W W2)|]. intros rho Dr. specialize (E rho Dr). specialize (E2 rho (HD _ _ _ _ rho W Ho Dr)). unfold both in *. rewrite !Forall_app. split.
    + intros [[A1 A2] [B1 B2]] k Hk. destruct (Nat.eq_dec k i) as [->|]; [apply E; auto|]. apply (HP _ _ _ _ rho k W Ho); [lia|]. apply E2; [auto|lia].
    + intros H. assert (K1 : P sp rho i) by (apply H; lia). apply E in K1. assert (K2 : forall k, S i <= k < S i + n -> P s1 rho k) by (intros k Hk; apply (HP _ _ _ _ rho k W Ho); [lia|apply H; lia]). apply E2 in K2. tauto.
Qed.

(** Loops that add the same number of constraints each time. *)
Lemma both_nil_r rho es : both rho es [] <-> List.Forall (rel_holds rho) es. Proof. unfold both. split; [tauto|]. intros H. split; [exact H|constructor]. Qed.
Lemma both_nil_l rho is : both rho [] is <-> List.Forall (rel_holds rho) is. Proof. unfold both. split; [tauto|]. intros H. split; [constructor|exact H]. Qed.

Lemma each_step_states cb P sp g : states_cb ns ni cb P -> sync g sp -> matrices sp o ns ni N ->
  exists g' sp' es is, did (for_each_step o cb) g sp tt g' sp' /\ adds sp sp' es is /\
    forall rho xs us, (forall k, k <= N -> column (sp_se sp) rho (o_X o) k (xs k) /\ column (sp_se sp) rho (o_U o) k (us k)) -> (both rho es is <-> forall k, k <= N -> P (xs k) (us k)).
Proof.
  intros Hcb Sy HM. pose proof (matrices_omats sp HM) as HO.
  set (D := fun (s : spec) (rho : nat -> R) => forall k, k <= N -> (exists x, column (sp_se s) rho (o_X o) k x) /\ (exists u, column (sp_se s) rho (o_U o) k u)).
  set (Q := fun (s : spec) (rho : nat -> R) k => exists x u, column (sp_se s) rho (o_X o) k x /\ column (sp_se s) rho (o_U o) k u /\ P x u).
  assert (Wc : forall a b es is rho k v, wider a b es is -> omats a -> (column (sp_se b) rho (o_X o) k v <-> column (sp_se a) rho (o_X o) k v) /\ (column (sp_se b) rho (o_U o) k v <-> column (sp_se a) rho (o_U o) k v)).
  { intros a b es is rho k v W (V1 & V2 & V3). split; eapply wider_column; eauto. }
  destruct (T_each (fun i => gdo x <- vcol (o_X o) i; gdo u <- vcol (o_U o) i; cb x u) omats D Q) with (n := N + 1) (i := 0) (sp := sp) (g := g) as ([] & g' & sp' & Dd & es & is & W & E); try assumption; try lia.
  - intros a b es is W. apply (mats_wider ns ni N (o_X o) (o_U o) (o_DT o) _ _ _ _ W).
  - intros a b es is rho W Ha Da k Hk. destruct (Da k Hk) as [[x Hx] [u Hu]]. split; [exists x; apply (Wc _ _ _ _ rho k x W Ha), Hx|exists u; apply (Wc _ _ _ _ rho k u W Ha), Hu].
  - intros a b es is rho k W Ha Hk. split; intros (x & u & Hx & Hu & HP); exists x, u; (split; [apply (Wc _ _ _ _ rho k x W Ha), Hx|split; [apply (Wc _ _ _ _ rho k u W Ha), Hu|exact HP]]).
  - intros s i Ho Hi. destruct (Ho) as (VX & VU & VD). apply (col_bind s (o_X o) i ns (N + 1)); [exact VX|lia|]. intros x Vx Ex. apply (col_bind s (o_U o) i ni (N + 1)); [exact VU|lia|]. intros u Vu Eu.
    intros g0 Sy0. destruct (Hcb s g0 x u Sy0 Vx Vu) as (g1 & s1 & es & is & D1 & A1 & E1). exists tt, g1, s1. split; [exact D1|]. exists es, is. split; [apply wider_adds, A1|].
    intros rho Dr. destruct (Dr i Hi) as [[xv Hx] [uv Hu]]. rewrite (E1 rho xv uv (proj2 (Ex _ _) Hx) (proj2 (Eu _ _) Hu)). split.
    + intros HP. exists xv, uv. auto.
    + intros (x' & u' & Hx' & Hu' & HP). apply Ex in Hx, Hx'. apply Eu in Hu, Hu'. rewrite (shows_det _ _ _ _ _ Hx Hx'), (shows_det _ _ _ _ _ Hu Hu'). exact HP.
  - exists g', sp', es, is. split; [unfold for_each_step; rewrite HN; exact Dd|]. split; [apply wider_adds, W|]. intros rho xs us Hs. rewrite E; [|intros k Hk; destruct (Hs k Hk) as [A B]; split; eexists; eauto].
    assert (Cd : forall m r k v w, vars_of sp m r (N + 1) -> k <= N -> column (sp_se sp) rho m k v -> column (sp_se sp) rho m k w -> v = w).
    { intros m r k v w Vm Hk Hv Hw. destruct (vcol_run m k r (N + 1)) as (c & Cc & _); [apply Vm|apply Vm|lia|]. apply (col_of_column _ _ _ _ c _ Cc) in Hv, Hw. exact (shows_det _ _ _ _ _ Hv Hw). }
    destruct HO as (VX & VU & VD). split.
    + intros H k Hk. destruct (H k ltac:(lia)) as (x & u & Hx & Hu & HP). destruct (Hs k Hk) as [A B]. rewrite (Cd _ _ k _ _ VX Hk A Hx), (Cd _ _ k _ _ VU Hk B Hu). exact HP.
    + intros H k Hk. exists (xs k), (us k). destruct (Hs k ltac:(lia)) as [A B]. split; [exact A|]. split; [exact B|]. apply H. lia.
Qed.

(** The loop with time. *)
Lemma each_step_states_t cb P sp g : states_cb_t ns ni cb P -> sync g sp -> matrices sp o ns ni N ->
  exists g' sp' es is, did (for_each_step_t o cb) g sp tt g' sp' /\ adds sp sp' es is /\
    forall rho xs us hs, shows_inputs (sp_se sp) rho o us hs -> shows_states (sp_se sp) rho o xs -> (both rho es is <-> forall k, k <= N -> P (time_at hs k) (xs k) (us k) (hs k)).
Proof.
  intros Hcb Sy HM. pose proof (matrices_omats sp HM) as HO.
  set (body := fun i time => gdo x <- vcol (o_X o) i; gdo u <- vcol (o_U o) i; gdo dt <- vget (o_DT o) 0 i; gdo _ <- cb time x u dt; gbin BAdd time dt).
  assert (K : forall n i s time, omats s -> i + n <= N + 1 -> time < len s -> T s (gfor n i body time) (fun s' _ => exists es is, wider s s' es is /\
    forall rho xs us hs tv, shown N (o_X o) (o_U o) (o_DT o) s rho xs us hs -> has (sp_se s) rho time tv ->
      (both rho es is <-> forall k, k < n -> P (tv + time_at (fun j => hs (i + j)%nat) k)%R (xs (i + k)) (us (i + k)) (hs (i + k))))).
  { induction n as [|n IH]; intros i s time Ho Hi Ht; cbn [gfor].
    - apply T_ret. exists [], []. split; [apply wider_refl|]. intros. split; [intros _ k Hk; lia|intros _; split; constructor].
    - eapply T_bind with (Q := fun s1 t1 => exists es is, wider s s1 es is /\ t1 < len s1 /\ forall rho xs us hs tv, shown N (o_X o) (o_U o) (o_DT o) s rho xs us hs -> has (sp_se s) rho time tv ->
        has (sp_se s1) rho t1 (tv + hs i)%R /\ (both rho es is <-> P tv (xs i) (us i) (hs i))).
      { destruct (Ho) as (VX & VU & VD). unfold body. apply (col_bind s (o_X o) i ns (N + 1)); [exact VX|lia|]. intros x Vx Ex. apply (col_bind s (o_U o) i ni (N + 1)); [exact VU|lia|]. intros u Vu Eu.
        apply (get_bind s (o_DT o) 0 i 1 (N + 1)); [exact VD|lia|lia|]. intros h Lh _ Eh.
        eapply T_bind with (Q := fun s1 _ => exists es is, wider s s1 es is /\ forall rho tv xv uv hv, has (sp_se s) rho time tv -> shows (sp_se s) rho (v_at x) xv -> shows (sp_se s) rho (v_at u) uv -> has (sp_se s) rho h hv -> (both rho es is <-> P tv xv uv hv)).
        { intros g0 Sy0. destruct (Hcb s g0 time x u h Sy0 Ht Vx Vu Lh) as (g1 & s1 & es & is & D1 & A1 & E1). exists tt, g1, s1. split; [exact D1|]. exists es, is. split; [apply wider_adds, A1|exact E1]. }
        intros s1 _ (es & is & W & E). pose proof (wider_len _ _ _ _ W) as Lw. eapply T_conseq; [apply T_bin; lia|]. intros s2 k (M2 & L2 & E2).
        exists es, is. split; [exact (wider_more _ _ _ _ _ W M2)|]. split; [exact L2|]. intros rho xs us hs tv Hs Hv. destruct (Hs i ltac:(lia)) as (Hx & Hu & Hh). apply Ex in Hx. apply Eu in Hu. apply Eh in Hh. split.
        - apply E2. exists tv, (hs i). split; [apply (wider_has s s1 es is); assumption|]. split; [apply (wider_has s s1 es is); assumption|constructor].
        - apply E; assumption. }
      intros s1 t1 (es & is & W & Lt & E). eapply T_conseq; [apply (IH (S i) s1 t1 (mats_wider ns ni N _ _ _ _ _ _ _ W Ho)); [lia|exact Lt]|]. intros s2 t2 (es2 & is2 & W2 & E2).
      exists (es ++ es2), (is ++ is2). split; [exact (wider_trans _ _ _ _ _ _ _ W W2)|]. intros rho xs us hs tv Hs Hv. destruct (E rho xs us hs tv Hs Hv) as [Ht1 He].
      specialize (E2 rho xs us hs _ (proj1 (shown_wider ns ni N _ _ _ _ _ _ _ _ _ _ _ W Ho) Hs) Ht1). 
      assert (Tm : forall j, time_at (fun m => hs (i + m)) (S j) = (hs i + time_at (fun m => hs (S i + m)%nat) j)%R).
      { induction j as [|j IHj]; [cbn; rewrite Nat.add_0_r; lra|]. cbn [time_at] in IHj |- *. rewrite IHj. replace (i + S j) with (S i + j) by lia. lra. }
      assert (Bo : both rho (es ++ es2) (is ++ is2) <-> both rho es is /\ both rho es2 is2) by (unfold both; rewrite !Forall_app; tauto). rewrite Bo, He, E2. split.
      + intros [H1 H2] [|j] Hj; [cbn [time_at]; rewrite Rplus_0_r, Nat.add_0_r; exact H1|]. rewrite Tm. specialize (H2 j ltac:(lia)).
        replace (tv + (hs i + time_at (fun m => hs (S i + m)%nat) j))%R with (tv + hs i + time_at (fun m => hs (S i + m)%nat) j)%R by lra. replace (i + S j) with (S i + j) by lia. exact H2.
      + intros H. split.
        * specialize (H 0 ltac:(lia)). cbn [time_at] in H. rewrite Rplus_0_r, Nat.add_0_r in H. exact H.
        * intros j Hj. specialize (H (S j) ltac:(lia)). rewrite Tm in H. replace (tv + hs i + time_at (fun m => hs (S i + m)%nat) j)%R with (tv + (hs i + time_at (fun m => hs (S i + m)%nat) j))%R by lra.
          replace (S i + j) with (i + S j) by lia. exact H. }
  assert (KT : T sp (for_each_step_t o cb) (fun sp' _ => exists es is, wider sp sp' es is /\ forall rho xs us hs, shown N (o_X o) (o_U o) (o_DT o) sp rho xs us hs -> (both rho es is <-> forall k, k <= N -> P (time_at hs k) (xs k) (us k) (hs k)))).
  { unfold for_each_step_t. rewrite HN. eapply T_bind; [apply T_const|]. intros s1 t (M1 & Lt & Et). pose proof (more_wider _ _ M1) as W1. pose proof (mats_wider ns ni N _ _ _ _ _ _ _ W1 HO) as HO1.
    eapply T_bind; [apply (K (N + 1) 0 s1 t HO1); [lia|exact Lt]|]. intros s2 t2 (es & is & W & E). apply T_ret. exists es, is. split; [exact (wider_trans _ _ _ _ _ _ _ W1 W)|].
    intros rho xs us hs Hs. rewrite (E rho xs us hs 0%R (proj1 (shown_wider ns ni N _ _ _ _ _ _ _ _ _ _ _ W1 HO) Hs) (proj2 (Et rho 0%R) eq_refl)).
    split; intros H k Hk; specialize (H k ltac:(lia)); rewrite Rplus_0_l in *; exact H. }
  destruct (KT g Sy) as ([] & g' & sp' & Dd & es & is & W & E). exists g', sp', es, is. split; [exact Dd|]. split; [apply wider_adds, W|]. intros rho xs us hs H1 H2. apply E. intros k Hk. rewrite <- HN in Hk. destruct (H1 k Hk). split; [apply H2, Hk|auto].
Qed.

(** *** The helpers *)
Lemma common_vars n x v r c : vars_of n x r c -> fits (len n) v r c -> common_shape (as_operand x) v = Some (r, c).
Proof. intros ((R1 & C1) & _) [_ H]. unfold common_shape. cbn [as_operand oshape]. rewrite R1, C1. destruct (oshape v) as [[? ?]|]; [injection H as -> ->; cbn; rewrite !Nat.eqb_refl; reflexivity|reflexivity]. Qed.

Lemma operand_wider a b es is v r c rho i j x : wider a b es is -> fits (len a) v r c -> operand_is (sp_se b) rho v i j x <-> operand_is (sp_se a) rho v i j x.
Proof.
  intros W [Hw _]. destruct v as [k|y|rows cols l|rows cols l]; cbn in *.
  - apply (wider_has a b es is); [exact W|]. apply Nat.ltb_lt, Hw.
  - reflexivity.
  - apply andb_prop in Hw as [_ Hw]. rewrite forallb_forall in Hw. split; intros (k & Hk & H); exists k; (split; [exact Hk|]); apply (wider_has a b es is); auto; apply Nat.ltb_lt, Hw, (nth_error_In _ _ Hk).
  - reflexivity.
Qed.
Lemma fits_wider a b es is v r c : wider a b es is -> fits (len a) v r c -> fits (len b) v r c.
Proof.
  intros W [Hw Hs]. pose proof (wider_len _ _ _ _ W) as L. split; [|exact Hs]. destruct v as [k|y|rows cols l|rows cols l]; cbn in *; auto.
  - apply Nat.ltb_lt in Hw. apply Nat.ltb_lt. lia.
  - apply andb_prop in Hw as [H1 H2]. rewrite H1. cbn. rewrite forallb_forall in *. intros k Hk. specialize (H2 k Hk). apply Nat.ltb_lt in H2. apply Nat.ltb_lt. lia.
Qed.

Lemma T_column_cmp sp m j r c k v : vars_of sp m r c -> j < c -> fits (len sp) v r 1 ->
  T sp (gdo x <- vcol m j; gsubject k (as_operand x) v) (fun sp' _ => exists rs, wider sp sp' (if is_eq k then rs else []) (if is_eq k then [] else rs) /\ length rs = r /\
    forall Pr rho, List.Forall (rel_sat Pr rho) rs <-> forall i, i < r -> exists x y, entry (sp_se sp) rho m i j x /\ operand_is (sp_se sp) rho v i 0 y /\ Pr k x y).
Proof.
  intros V Hj Fv. eapply T_bind; [apply (T_vcol_of sp m j r c V Hj)|]. intros s x (-> & Vx & Cx).
  eapply T_conseq; [apply (T_subject_q sp k (as_operand x) v r 1); [apply (fits_vars _ _ _ _ Vx)|exact Fv|apply (common_vars _ _ _ _ _ Vx Fv)]|]. intros s' y (rs & Es & W & L & E).
  exists rs. split; [exact W|]. split; [lia|]. intros Pr rho. rewrite E. destruct (Cx) as ((Sx1 & Sx2) & Lx & Nx). destruct (V) as ((Rm & Cm) & _). rewrite Rm, Cm in *.
  assert (En : forall i a, i < r -> operand_is (sp_se sp) rho (as_operand x) i 0 a <-> entry (sp_se sp) rho m i j a).
  { intros i a Hi. unfold operand_is, as_operand, entry. rewrite Sx2, Cm. rewrite Nat.mul_1_r, Nat.add_0_r. rewrite (Nx i Hi). reflexivity. }
  split.
  - intros H i Hi. destruct (H i 0 Hi ltac:(lia)) as (a & b & Ha & Hb & Hc). exists a, b. split; [apply En; assumption|]. auto.
  - intros H i j0 Hi Hj0. replace j0 with 0 by lia. destruct (H i Hi) as (a & b & Ha & Hb & Hc). exists a, b. split; [apply En; assumption|]. auto.
Qed.

Lemma initial_state_adds_q sp g v : sync g sp -> matrices sp o ns ni N -> fits (len sp) v ns 1 ->
  exists g' sp' es, did (constrain_initial_state o v) g sp tt g' sp' /\ adds sp sp' es [] /\ length es = ns /\
    forall Pr rho, List.Forall (rel_sat Pr rho) es <-> forall i, i < ns -> exists x y, entry (sp_se sp) rho (o_X o) i 0 x /\ operand_is (sp_se sp) rho v i 0 y /\ Pr CEq x y.
Proof.
  intros Sy (_ & VX & _) Fv. destruct (T_column_cmp sp (o_X o) 0 ns (N + 1) CEq v VX ltac:(lia) Fv g Sy) as ([] & g' & sp' & D & rs & W & L & E).
  exists g', sp', rs. split; [exact D|]. split; [apply wider_adds, W|]. split; [exact L|exact E].
Qed.
Lemma initial_state_adds sp g v : sync g sp -> matrices sp o ns ni N -> fits (len sp) v ns 1 ->
  exists g' sp' es, did (constrain_initial_state o v) g sp tt g' sp' /\ adds sp sp' es [] /\ length es = ns /\
    forall rho, List.Forall (rel_holds rho) es <-> forall i, i < ns -> exists x y, entry (sp_se sp) rho (o_X o) i 0 x /\ operand_is (sp_se sp) rho v i 0 y /\ x = y.
Proof.
  intros Sy HM Fv. destruct (initial_state_adds_q sp g v Sy HM Fv) as (g' & sp' & es & D & A & L & E). exists g', sp', es. split; [exact D|]. split; [exact A|]. split; [exact L|exact (E cmp_holds)].
Qed.
Lemma final_state_adds_q sp g v : sync g sp -> matrices sp o ns ni N -> fits (len sp) v ns 1 ->
  exists g' sp' es, did (constrain_final_state o v) g sp tt g' sp' /\ adds sp sp' es [] /\ length es = ns /\
    forall Pr rho, List.Forall (rel_sat Pr rho) es <-> forall i, i < ns -> exists x y, entry (sp_se sp) rho (o_X o) i N x /\ operand_is (sp_se sp) rho v i 0 y /\ Pr CEq x y.
Proof.
  intros Sy (_ & VX & _) Fv. destruct (T_column_cmp sp (o_X o) N ns (N + 1) CEq v VX ltac:(lia) Fv g Sy) as ([] & g' & sp' & D & rs & W & L & E).
  exists g', sp', rs. split; [unfold constrain_final_state; rewrite HN; exact D|]. split; [apply wider_adds, W|]. split; [exact L|exact E].
Qed.
Lemma final_state_adds sp g v : sync g sp -> matrices sp o ns ni N -> fits (len sp) v ns 1 ->
  exists g' sp' es, did (constrain_final_state o v) g sp tt g' sp' /\ adds sp sp' es [] /\ length es = ns /\
    forall rho, List.Forall (rel_holds rho) es <-> forall i, i < ns -> exists x y, entry (sp_se sp) rho (o_X o) i N x /\ operand_is (sp_se sp) rho v i 0 y /\ x = y.
Proof.
  intros Sy HM Fv. destruct (final_state_adds_q sp g v Sy HM Fv) as (g' & sp' & es & D & A & L & E). exists g', sp', es. split; [exact D|]. split; [exact A|]. split; [exact L|exact (E cmp_holds)].
Qed.

Lemma T_bounds c v : is_eq c = false -> forall n i sp, omats sp -> fits (len sp) v ni 1 -> i + n <= N + 1 ->
  T sp (gfor n i (fun i _ => gdo u <- vcol (o_U o) i; gsubject c (as_operand u) v) tt) (fun sp' _ => exists is, wider sp sp' [] is /\ length is = n * ni /\
    forall Pr rho, List.Forall (rel_sat Pr rho) is <-> forall k j, k < n -> j < ni -> exists x y, entry (sp_se sp) rho (o_U o) j (i + k) x /\ operand_is (sp_se sp) rho v j 0 y /\ Pr c x y).
Proof.
  intros Hc. induction n as [|n IH]; intros i sp HO Fv Hi; cbn [gfor].
  - apply T_ret. exists []. split; [apply wider_refl|]. split; [reflexivity|]. intros Pr rho. split; [intros _ k j Hk; lia|constructor].
  - destruct (HO) as (VX & VU & VD). eapply T_bind; [apply (T_column_cmp sp (o_U o) i ni (N + 1) c v VU); [lia|exact Fv]|]. rewrite Hc. intros s1 [] (rs & W & L & E).
    eapply T_conseq; [apply (IH (S i) s1 (mats_wider ns ni N _ _ _ _ _ _ _ W HO) (fits_wider _ _ _ _ _ _ _ W Fv)); lia|]. intros s2 y (is & W2 & L2 & E2).
    exists (rs ++ is). split; [exact (wider_trans _ _ _ _ _ _ _ W W2)|]. split; [rewrite app_length; cbn; lia|]. intros Pr rho. rewrite Forall_app, E, E2. split.
    + intros [H1 H2] [|k] j Hk Hj; [rewrite Nat.add_0_r; apply H1, Hj|]. destruct (H2 k j ltac:(lia) Hj) as (a & b & Ha & Hb & Hab). replace (i + S k) with (S i + k) by lia. exists a, b.
      split; [apply (wider_entry sp s1 [] rs (o_U o) ni (N + 1) rho j (S i + k) a W VU), Ha|]. split; [apply (operand_wider sp s1 [] rs v ni 1 rho j 0 b W Fv), Hb|exact Hab].
    + intros H. split; [intros j Hj; specialize (H 0 j ltac:(lia) Hj); rewrite Nat.add_0_r in H; exact H|]. intros k j Hk Hj. destruct (H (S k) j ltac:(lia) Hj) as (a & b & Ha & Hb & Hab). replace (i + S k) with (S i + k) in Ha by lia. exists a, b.
      split; [apply (wider_entry sp s1 [] rs (o_U o) ni (N + 1) rho j (S i + k) a W VU), Ha|]. split; [apply (operand_wider sp s1 [] rs v ni 1 rho j 0 b W Fv), Hb|exact Hab].
Qed.

Lemma input_bound_adds_q (lower : bool) sp g v : sync g sp -> matrices sp o ns ni N -> fits (len sp) v ni 1 ->
  exists g' sp' is, did ((if lower then set_lower_input_bound else set_upper_input_bound) o v) g sp tt g' sp' /\ adds sp sp' [] is /\ length is = (N + 1) * ni /\
    forall Pr rho, List.Forall (rel_sat Pr rho) is <-> forall k j, k <= N -> j < ni -> exists x y, entry (sp_se sp) rho (o_U o) j k x /\ operand_is (sp_se sp) rho v j 0 y /\ Pr (if lower then CGe else CLe) x y.
Proof.
  intros Sy HM Fv. pose proof (matrices_omats sp HM) as HO. destruct lower.
  - destruct (T_bounds CGe v eq_refl (N + 1) 0 sp HO Fv ltac:(lia) g Sy) as ([] & g' & sp' & D & is & W & L & E). exists g', sp', is. split; [unfold set_lower_input_bound; rewrite HN; exact D|]. split; [apply wider_adds, W|]. split; [exact L|].
    intros Pr rho. rewrite E. split; intros H k j Hk Hj; apply H; lia.
  - destruct (T_bounds CLe v eq_refl (N + 1) 0 sp HO Fv ltac:(lia) g Sy) as ([] & g' & sp' & D & is & W & L & E). exists g', sp', is. split; [unfold set_upper_input_bound; rewrite HN; exact D|]. split; [apply wider_adds, W|]. split; [exact L|].
    intros Pr rho. rewrite E. split; intros H k j Hk Hj; apply H; lia.
Qed.
Lemma input_bound_adds (lower : bool) sp g v : sync g sp -> matrices sp o ns ni N -> fits (len sp) v ni 1 ->
  exists g' sp' is, did ((if lower then set_lower_input_bound else set_upper_input_bound) o v) g sp tt g' sp' /\ adds sp sp' [] is /\ length is = (N + 1) * ni /\
    forall rho, List.Forall (rel_holds rho) is <-> forall k j, k <= N -> j < ni -> exists x y, entry (sp_se sp) rho (o_U o) j k x /\ operand_is (sp_se sp) rho v j 0 y /\ (if lower then x >= y else x <= y)%R.
Proof.
  intros Sy HM Fv. destruct (input_bound_adds_q lower sp g v Sy HM Fv) as (g' & sp' & is & D & A & L & E). exists g', sp', is. split; [exact D|]. split; [exact A|]. split; [exact L|].
  destruct lower; exact (E cmp_holds).
Qed.

Lemma timestep_adds_q (lower : bool) sp g h : sync g sp -> matrices sp o ns ni N ->
  exists g' sp' is, did ((if lower then set_min_timestep else set_max_timestep) o h) g sp tt g' sp' /\ adds sp sp' [] is /\ length is = N + 1 /\
    forall Pr rho, List.Forall (rel_sat Pr rho) is <-> forall k, k <= N -> exists x, entry (sp_se sp) rho (o_DT o) 0 k x /\ Pr (if lower then CGe else CLe) x h.
Proof.
  intros Sy (_ & _ & _ & VD).
  assert (K : forall c, is_eq c = false -> exists g' sp' is, did (gsubject c (as_operand (o_DT o)) (ONum (S := R_ops) h)) g sp tt g' sp' /\ adds sp sp' [] is /\ length is = N + 1 /\
    forall Pr rho, List.Forall (rel_sat Pr rho) is <-> forall k, k <= N -> exists x, entry (sp_se sp) rho (o_DT o) 0 k x /\ Pr c x h).
  { intros c Hc. assert (Fv : fits (len sp) (ONum (S := R_ops) h) 1 (N + 1)) by (split; reflexivity || exact I).
    destruct (T_subject_q sp c (as_operand (o_DT o)) (ONum (S := R_ops) h) 1 (N + 1) (fits_vars _ _ _ _ VD) Fv (common_vars _ _ _ _ _ VD Fv) g Sy) as ([] & g' & sp' & D & rs & Es & W & L & E). rewrite Hc in W.
    exists g', sp', rs. split; [exact D|]. split; [apply wider_adds, W|]. split; [lia|]. intros Pr rho. rewrite E. destruct (VD) as ((R1 & C1) & _). unfold entry. cbn [operand_is as_operand]. split.
    - intros H k Hk. destruct (H 0 k ltac:(lia) ltac:(lia)) as (x & y & Hx & -> & Hc'). exists x. auto.
    - intros H i j Hi Hj. replace i with 0 by lia. destruct (H j ltac:(lia)) as (x & Hx & Hc'). exists x, h. auto. }
  destruct lower; [apply (K CGe)|apply (K CLe)]; reflexivity.
Qed.
Lemma timestep_adds (lower : bool) sp g h : sync g sp -> matrices sp o ns ni N ->
  exists g' sp' is, did ((if lower then set_min_timestep else set_max_timestep) o h) g sp tt g' sp' /\ adds sp sp' [] is /\ length is = N + 1 /\
    forall rho, List.Forall (rel_holds rho) is <-> forall k, k <= N -> exists x, entry (sp_se sp) rho (o_DT o) 0 k x /\ (if lower then x >= h else x <= h)%R.
Proof.
  intros Sy HM. destruct (timestep_adds_q lower sp g h Sy HM) as (g' & sp' & is & D & A & L & E). exists g', sp', is. split; [exact D|]. split; [exact A|]. split; [exact L|].
  destruct lower; exact (E cmp_holds).
Qed.
End Each.

(** *** C62 *)
Lemma adds_has a b es is rho i v : adds a b es is -> i < len a -> has (sp_se b) rho i v <-> has (sp_se a) rho i v.
Proof. intros H. apply wider_adds in H. apply (wider_has a b es is rho i v H). Qed.

Lemma shooting_initial ns ni f F (C : computes ns ni f F) dt N tm ty sp g v : sync g sp -> length v = ns -> v <> repeat 0%R ns ->
  exists o g' sp' ds, did (ocp_make ns ni dt N f ty tm SINGLE_SHOOTING) g sp o g' sp' /\ extends sp sp' ds [] [] /\
    exists g2 sp2 es, did (constrain_initial_state o (ONums (S := R_ops) ns 1 v)) g' sp' tt g2 sp2 /\ extends sp' sp2 [] es [] /\
      forall rho, moves_only sp2 ds rho -> ~ List.Forall (rel_holds rho) es.
Proof.
  intros Sy Lv Hv. destruct (shooting_makes ns ni f F C dt N tm ty sp g Sy) as (o & g' & sp' & ds & D & Ex & _ & HM & _ & _ & _ & Z & _). exists o, g', sp', ds. split; [exact D|]. split; [exact Ex|].
  destruct (HM) as (HN & _). destruct D as (_ & Sy' & _).
  assert (Fv : fits (len sp') (ONums (S := R_ops) ns 1 v) ns 1) by (split; [cbn; rewrite Nat.mul_1_r, Lv; apply Nat.eqb_refl|reflexivity]).
  destruct (initial_state_adds ns ni N o HN sp' g' _ Sy' HM Fv) as (g2 & sp2 & es & D2 & A2 & L2 & E2). exists g2, sp2, es. split; [exact D2|]. split; [exact (proj1 A2)|].
  intros rho Hm K. apply Hv. pose proof (proj1 (E2 rho) K) as K2. assert (Hm' : moves_only sp' ds rho) by (intros w Hw; rewrite (Hm w Hw); destruct A2 as (_ & -> & _); reflexivity).
  destruct (Z rho Hm') as [_ Hz]. apply nth_ext with (d := 0%R) (d' := 0%R); [rewrite repeat_length; exact Lv|]. intros i Hi. rewrite Lv in Hi.
  destruct (K2 i Hi) as (x & y & Hx & Hy & ->). cbn in Hy. rewrite Nat.mul_1_r, Nat.add_0_r in Hy. rewrite (nth_error_nth _ _ _ Hy).
  assert (E0 : nth_error (repeat 0%R ns) i = Some 0%R) by (apply nth_error_repeat; exact Hi). rewrite (nth_error_nth _ _ _ E0). specialize (Hz i 0%R E0).
  destruct Hx as (k & Hk & Hxk). destruct Hz as (k' & Hk' & Hzk). rewrite Hk in Hk'. injection Hk' as <-. exact (has_det _ _ _ _ _ Hxk Hzk).
Qed.

(** With the direct methods the initial state can be any v. *)
Lemma free_initial ns ni dt N tm sp o ds v : free sp o ns ni tm dt N ds -> o_steps o = N -> length v = ns ->
  exists rho, moves_only sp ds rho /\ column (sp_se sp) rho (o_X o) 0 v.
Proof.
  intros Fr HN Lv. destruct (Fr (fun _ => v) (fun _ => repeat 0%R ni) (fun _ => dt)) as (rho & Hm & _ & Hs); [auto|intros; apply repeat_length|destruct tm; cbn; auto|].
  exists rho. split; [exact Hm|]. apply (Hs 0). lia.
Qed.
Lemma initial_column ns ni N o sp g (v : list R) : sync g sp -> matrices sp o ns ni N -> length v = ns ->
  exists g2 sp2 es, did (constrain_initial_state o (ONums (S := R_ops) ns 1 v)) g sp tt g2 sp2 /\ adds sp sp2 es [] /\ length es = ns /\
    forall rho, List.Forall (rel_holds rho) es <-> column (sp_se sp2) rho (o_X o) 0 v.
Proof.
  intros Sy HM Lv. assert (Fv : fits (len sp) (ONums (S := R_ops) ns 1 v) ns 1) by (split; [cbn; rewrite Nat.mul_1_r, Lv; apply Nat.eqb_refl|reflexivity]).
  destruct (HM) as (HN & VX & _). destruct (initial_state_adds ns ni N o HN sp g _ Sy HM Fv) as (g2 & sp2 & es & D2 & A2 & L2 & E2). exists g2, sp2, es. split; [exact D2|]. split; [exact A2|]. split; [exact L2|].
  intros rho. rewrite E2. apply wider_adds in A2. rewrite (wider_column sp sp2 es [] (o_X o) ns (N + 1) rho 0 v A2 VX). destruct (VX) as ((RX & CX) & LX & _). unfold column. rewrite RX. split.
  - intros H. split; [exact Lv|]. intros i x Hx. assert (Hi : i < ns) by (rewrite <- Lv; apply nth_error_Some; congruence). destruct (H i Hi) as (a & b & Ha & Hb & ->). cbn in Hb. rewrite Nat.mul_1_r, Nat.add_0_r in Hb. congruence.
  - intros [_ H] i Hi. destruct (nth_error v i) as [x|] eqn:Ex; [|apply nth_error_None in Ex; lia]. exists x, x. split; [apply H, Ex|]. split; [cbn; rewrite Nat.mul_1_r, Nat.add_0_r; exact Ex|reflexivity].
Qed.

(** Whatever the method, the constraint fixes the first state; with a direct method the decision variables reach it. *)
Lemma initial_any ns ni f F (C : computes ns ni f F) dt N tm ty tr sp g (v : list R) : sync g sp -> length v = ns -> (tr = DIRECT_COLLOCATION -> ty = EXPLICIT_ODE) ->
  exists o g' sp' ds es, did (ocp_make ns ni dt N f ty tm tr) g sp o g' sp' /\ extends sp sp' ds es [] /\
    exists g2 sp2 es2, did (constrain_initial_state o (ONums (S := R_ops) ns 1 v)) g' sp' tt g2 sp2 /\ adds sp' sp2 es2 [] /\ length es2 = ns /\
      (forall rho, List.Forall (rel_holds rho) es2 <-> column (sp_se sp2) rho (o_X o) 0 v) /\
      (tr <> SINGLE_SHOOTING -> exists rho, moves_only sp2 ds rho /\ List.Forall (rel_holds rho) es2).
Proof.
  intros Sy Lv Htr.
  assert (K : exists o g' sp' ds es, did (ocp_make ns ni dt N f ty tm tr) g sp o g' sp' /\ extends sp sp' ds es [] /\ matrices sp' o ns ni N /\ (tr <> SINGLE_SHOOTING -> free sp' o ns ni tm dt N ds)).
  { destruct tr.
    - destruct (transcription_makes ns ni f F C dt N tm ty sp g Sy) as (o & g' & sp' & ds & es & D & Ex & _ & _ & HM & _ & Fr & _). exists o, g', sp', ds, es. auto.
    - rewrite (Htr eq_refl). destruct (collocation_makes ns ni f F C dt N tm sp g Sy) as (o & g' & sp' & ds & es & D & Ex & _ & _ & HM & _ & Fr & _). exists o, g', sp', ds, es. auto.
    - destruct (shooting_makes ns ni f F C dt N tm ty sp g Sy) as (o & g' & sp' & ds & D & Ex & _ & HM & _). exists o, g', sp', ds, []. split; [exact D|]. split; [exact Ex|]. split; [exact HM|]. intros H. contradiction H. reflexivity. }
  destruct K as (o & g' & sp' & ds & es & D & Ex & HM & Fr). exists o, g', sp', ds, es. split; [exact D|]. split; [exact Ex|]. destruct D as (_ & Sy' & _).
  destruct (initial_column ns ni N o sp' g' v Sy' HM Lv) as (g2 & sp2 & es2 & D2 & A2 & L2 & E2). exists g2, sp2, es2. split; [exact D2|]. split; [exact A2|]. split; [exact L2|]. split; [exact E2|].
  intros Hn. destruct HM as (HN & VX & _). destruct (free_initial ns ni dt N tm sp' o ds v (Fr Hn) HN Lv) as (rho & Hm & Hc). exists rho. split.
  - intros w Hw. rewrite (Hm w Hw). destruct A2 as (_ & -> & _). reflexivity.
  - apply E2. apply wider_adds in A2. apply (wider_column sp' sp2 es2 [] (o_X o) ns (N + 1) rho 0 v A2 VX), Hc.
Qed.
