(** Proofs for C58, C59 and C61: comparisons, columns and the constraint loops. *)
From Coq Require Import Reals List Bool Arith Lia Lra.
From Verif Require Import Base ExprModel MathSpec VarModel ExprReal VarSpec HistProofs ProblemModel ProblemSpec ProblemProofs ProblemProofs4 OcpModel OcpSpec OcpProofs OcpRk4.
Import ListNotations.
Local Open Scope nat_scope.

(** *** Comparisons *)
Lemma all_opt_total {A B} (f : A -> option B) l : (forall a, In a l -> exists b, f a = Some b) -> exists bs, all_opt (map f l) = Some bs.
Proof.
  induction l as [|a l IH]; intros H; [eexists; reflexivity|]. destruct (H a (or_introl eq_refl)) as (b & E). destruct IH as (bs & E'); [intros; apply H; right; assumption|].
  cbn. rewrite E, E'. eexists; reflexivity.
Qed.
Lemma oexp_total se o rows cols i j : fits (length (se_exp se)) o rows cols -> i < rows -> j < cols -> exists e, oexp se o i j = Some e.
Proof.
  intros [W Sh] Hi Hj. destruct o as [k|c|r c l|r c l]; cbn in *.
  - apply Nat.ltb_lt in W. destruct (nth_error (se_exp se) k) eqn:E; [eauto|]. apply nth_error_None in E. lia.
  - eauto.
  - injection Sh as -> ->. apply andb_true_iff in W as [W1 W2]. apply Nat.eqb_eq in W1. rewrite forallb_forall in W2.
    destruct (nth_error l (i * cols + j)) eqn:E; [|apply nth_error_None in E; nia]. apply nth_error_In in E. apply W2, Nat.ltb_lt in E.
    destruct (nth_error (se_exp se) n) eqn:E2; [eauto|]. apply nth_error_None in E2. lia.
  - injection Sh as -> ->. apply Nat.eqb_eq in W. destruct (nth_error l (i * cols + j)) eqn:E; [eauto|apply nth_error_None in E; nia].
Qed.
Lemma oexp_is se o i j e : oexp se o i j = Some e -> forall rho v, operand_is se rho o i j v <-> XEv rho e v.
Proof.
  intros H rho v. destruct o as [k|c|r c l|r c l]; cbn in *.
  - unfold has. rewrite H. split; [intros (e' & [= <-] & K); exact K|eauto].
  - injection H as <-. split; [intros ->; constructor|intros K; inversion K; reflexivity].
  - destruct (nth_error l (i * c + j)) as [k|]; [|discriminate]. unfold has. split.
    + intros (k' & [= <-] & e' & H' & K). assert (e' = e) by congruence. subst. exact K.
    + intros K. exists k. split; [reflexivity|]. exists e. auto.
  - destruct (nth_error l (i * c + j)) as [k|]; [|discriminate]. injection H as <-. split; [intros [= ->]; constructor|intros K; inversion K; reflexivity].
Qed.

(** A relation read with any meaning of its comparison. *)
Definition rel_sat (Pr : cmp -> R -> R -> Prop) (rho : nat -> R) (r : urel) : Prop :=
  exists a b, XEv rho (r_l r) a /\ XEv rho (r_r r) b /\ Pr (r_cmp r) a b.
Lemma rels_total se c a b rows cols : fits (length (se_exp se)) a rows cols -> fits (length (se_exp se)) b rows cols ->
  common_shape a b = Some (rows, cols) -> exists rs, rels se c a b = Some rs /\ length rs = rows * cols /\
    forall Pr rho, List.Forall (rel_sat Pr rho) rs <->
      forall i j, i < rows -> j < cols -> exists x y, operand_is se rho a i j x /\ operand_is se rho b i j y /\ Pr c x y.
Proof.
  intros Fa Fb Sh.
  assert (Tot : forall k, k < rows * cols -> k / cols < rows /\ k mod cols < cols).
  { intros k Hk. assert (cols <> 0) by nia. split; [apply Nat.div_lt_upper_bound; lia|apply Nat.mod_upper_bound; assumption]. }
  destruct (all_opt_total (fun k => rel_at se c a b (k / cols) (k mod cols)) (seq 0 (rows * cols))) as (rs & Hrs).
  { intros k Hk. apply in_seq in Hk. destruct (Tot k) as [T1 T2]; [lia|]. destruct (oexp_total se a rows cols _ _ Fa T1 T2) as (ea & Ea). destruct (oexp_total se b rows cols _ _ Fb T1 T2) as (eb & Eb).
    unfold rel_at. rewrite Ea, Eb. eauto. }
  assert (Hr : rels se c a b = Some rs). { unfold rels. rewrite (proj1 Fa), (proj1 Fb), Sh. exact Hrs. }
  destruct (rels_nth se c a b rs rows cols Hr Sh) as [L N]. exists rs. split; [exact Hr|]. split; [exact L|].
  intros Pr rho. rewrite List.Forall_forall. split.
  - intros H i j Hi Hj. pose proof (N i j Hi Hj) as E. destruct (oexp_total se a rows cols i j Fa Hi Hj) as (ea & Ea). destruct (oexp_total se b rows cols i j Fb Hi Hj) as (eb & Eb).
    unfold rel_at in E. rewrite Ea, Eb in E. apply nth_error_In in E. destruct (H _ E) as (x & y & Hx & Hy & K). exists x, y.
    split; [apply (oexp_is _ _ _ _ _ Ea), Hx|]. split; [apply (oexp_is _ _ _ _ _ Eb), Hy|exact K].
  - intros H r Hin. apply In_nth_error in Hin as (k & E). assert (Hk : k < rows * cols) by (rewrite <- L; apply nth_error_Some; congruence).
    destruct (Tot k Hk) as [T1 T2]. pose proof (N _ _ T1 T2) as E'. replace (k / cols * cols + k mod cols) with k in E' by (rewrite Nat.mul_comm; apply Nat.div_mod; nia).
    rewrite E in E'. destruct (oexp_total se a rows cols _ _ Fa T1 T2) as (ea & Ea). destruct (oexp_total se b rows cols _ _ Fb T1 T2) as (eb & Eb).
    unfold rel_at in E'. rewrite Ea, Eb in E'. injection E' as ->. destruct (H _ _ T1 T2) as (x & y & Hx & Hy & K). exists x, y. cbn.
    split; [apply (oexp_is _ _ _ _ _ Ea), Hx|]. split; [apply (oexp_is _ _ _ _ _ Eb), Hy|exact K].
Qed.

(** *** Programs that gain Variables and constraints *)
Record wider (sp sp' : spec) (es is : list urel) : Prop := mkW {
  w_exp : exists l, se_exp (sp_se sp') = se_exp (sp_se sp) ++ l;
  w_n : se_n (sp_se sp') = se_n (sp_se sp); w_val : se_val (sp_se sp') = se_val (sp_se sp);
  w_dec : sp_dec sp' = sp_dec sp; w_goal : sp_goal sp' = sp_goal sp;
  w_eqs : sp_eqs sp' = sp_eqs sp ++ es; w_ineqs : sp_ineqs sp' = sp_ineqs sp ++ is }.
Lemma more_wider a b : more a b -> wider a b [] [].
Proof. intros (l & ->). constructor; cbn; rewrite ?app_nil_r; eauto. Qed.
Lemma wider_refl a : wider a a [] []. Proof. apply more_wider, more_refl. Qed.
Lemma wider_trans a b c e1 e2 i1 i2 : wider a b e1 i1 -> wider b c e2 i2 -> wider a c (e1 ++ e2) (i1 ++ i2).
Proof.
  intros [(l & H1) H2 H3 H4 H5 H6 H7] [(l' & K1) K2 K3 K4 K5 K6 K7]. constructor; try congruence.
  - exists (l ++ l'). rewrite K1, H1. now rewrite app_assoc.
  - rewrite K6, H6. now rewrite app_assoc.
  - rewrite K7, H7. now rewrite app_assoc.
Qed.
Lemma wider_len a b e i : wider a b e i -> len a <= len b.
Proof. intros [(l & H) _ _ _ _ _ _]. unfold len. rewrite H, app_length. lia. Qed.
Lemma wider_nth a b es is i : wider a b es is -> i < len a -> nth_error (se_exp (sp_se b)) i = nth_error (se_exp (sp_se a)) i.
Proof. intros [(l & H) _ _ _ _ _ _] L. rewrite H. apply nth_error_app1. exact L. Qed.
Lemma wider_has a b es is rho i v : wider a b es is -> i < len a -> has (sp_se b) rho i v <-> has (sp_se a) rho i v.
Proof. intros M H. unfold has. rewrite (wider_nth a b es is i M H). reflexivity. Qed.
Lemma wider_vars a b es is m r c : wider a b es is -> vars_of a m r c -> vars_of b m r c.
Proof. intros M (S1 & L & H). split; [exact S1|]. split; [exact L|]. eapply Forall_impl; [|exact H]. intros i Hi. pose proof (wider_len a b _ _ M). unfold len in *. lia. Qed.
Lemma wider_entry a b es is m r c rho i j v : wider a b es is -> vars_of a m r c -> entry (sp_se b) rho m i j v <-> entry (sp_se a) rho m i j v.
Proof.
  intros W (_ & _ & B). unfold entry. rewrite List.Forall_forall in B.
  split; intros (k & E & H); exists k; (split; [exact E|]); apply (wider_has a b es is); auto; apply (B k), (nth_error_In _ _ E).
Qed.
Lemma wider_column a b es is m r c rho j v : wider a b es is -> vars_of a m r c -> column (sp_se b) rho m j v <-> column (sp_se a) rho m j v.
Proof. intros W V. unfold column. split; intros [L H]; (split; [exact L|]); intros i x E; apply (wider_entry a b es is m r c rho i j x W V), H, E. Qed.

Lemma fits_vars sp m r c : vars_of sp m r c -> fits (len sp) (as_operand m) r c.
Proof.
  intros ((R1 & C1) & L & B). split; cbn; [|rewrite R1, C1; reflexivity]. rewrite R1, C1, L, Nat.eqb_refl. cbn. apply forallb_forall. intros i Hi. rewrite List.Forall_forall in B. apply Nat.ltb_lt, B, Hi.
Qed.

Lemma T_subject_q sp c a b rows cols : fits (len sp) a rows cols -> fits (len sp) b rows cols -> common_shape a b = Some (rows, cols) ->
  T sp (gsubject c a b) (fun sp' _ => exists rs, sp_se sp' = sp_se sp /\ wider sp sp' (if is_eq c then rs else []) (if is_eq c then [] else rs) /\ length rs = rows * cols /\
    forall Pr rho, List.Forall (rel_sat Pr rho) rs <->
      forall i j, i < rows -> j < cols -> exists x y, operand_is (sp_se sp) rho a i j x /\ operand_is (sp_se sp) rho b i j y /\ Pr c x y).
Proof.
  intros Fa Fb Sh g [Hv Hc]. destruct (rels_total (sp_se sp) c a b rows cols Fa Fb Sh) as (rs & Hr & L & K).
  set (sp' := impose (new_cons sp (is_eq c) rs) (is_eq c) rs). eexists tt, _, sp'. split.
  - split; [reflexivity|]. split.
    + split; cbn; [exact Hv|rewrite app_length; cbn; lia].
    + eexists. split; [reflexivity|]. cbn [spec_run spec_step]. rewrite Hr. cbn [new_cons sp_cons]. rewrite nth_error_app2 by lia. rewrite Hc, Nat.sub_diag. reflexivity.
  - exists rs. split; [reflexivity|]. split; [|split; [exact L|exact K]].
    constructor; cbn; try reflexivity; [exists []; now rewrite app_nil_r| |]; destruct (is_eq c); now rewrite ?app_nil_r.
Qed.
Lemma T_subject sp c a b rows cols : fits (len sp) a rows cols -> fits (len sp) b rows cols -> common_shape a b = Some (rows, cols) ->
  T sp (gsubject c a b) (fun sp' _ => exists rs, sp_se sp' = sp_se sp /\ wider sp sp' (if is_eq c then rs else []) (if is_eq c then [] else rs) /\ length rs = rows * cols /\
    forall rho, List.Forall (rel_holds rho) rs <->
      forall i j, i < rows -> j < cols -> exists x y, operand_is (sp_se sp) rho a i j x /\ operand_is (sp_se sp) rho b i j y /\ cmp_holds c x y).
Proof.
  intros Fa Fb Sh. eapply T_conseq; [apply (T_subject_q sp c a b rows cols Fa Fb Sh)|]. intros sp' u (rs & E & W & L & K). exists rs. split; [exact E|]. split; [exact W|]. split; [exact L|]. exact (K cmp_holds).
Qed.

(** Two columns compared for equality. *)
Lemma pair_columns (H : nat -> R -> Prop) (Q : R -> R -> Prop) : forall la lb, length la = length lb ->
  (forall i, i < length la -> exists x y, (exists k, nth_error la i = Some k /\ H k x) /\ (exists k, nth_error lb i = Some k /\ H k y) /\ Q x y) <->
  exists vs ws, Forall2 H la vs /\ Forall2 H lb ws /\ Forall2 Q vs ws.
Proof.
  induction la as [|a la IH]; intros [|b lb] L; try discriminate.
  - split; [intros _; exists [], []; repeat constructor|intros _ i Hi; cbn in Hi; lia].
  - split.
    + intros K. destruct (K 0) as (x & y & (k & E & Hx) & (k' & E' & Hy) & HQ); [cbn; lia|]. cbn in E, E'. injection E as <-. injection E' as <-.
      destruct (proj1 (IH lb ltac:(cbn in L; lia))) as (vs & ws & A & B & D). { intros i Hi. apply (K (S i)). cbn. lia. }
      exists (x :: vs), (y :: ws). split; [|split]; constructor; assumption.
    + intros (vs & ws & A & B & D) i Hi. inversion A; subst. inversion B; subst. inversion D; subst. destruct i as [|i].
      * exists y, y0. split; [exists a; auto|]. split; [exists b; auto|assumption].
      * apply (proj2 (IH lb ltac:(cbn in L; lia))); [eexists _, _; eauto|cbn in Hi; lia].
Qed.
Lemma F2_eq (l m : list R) : Forall2 eq l m <-> l = m.
Proof. split; [induction 1; congruence|]. intros ->. induction m; constructor; auto. Qed.
Lemma T_equal sp a b n : vars_of sp a n 1 -> vars_of sp b n 1 ->
  T sp (gsubject CEq (as_operand a) (as_operand b)) (fun sp' _ => exists rs, sp_se sp' = sp_se sp /\ wider sp sp' rs [] /\ length rs = n /\
    forall Pr rho, List.Forall (rel_sat Pr rho) rs <-> exists vs ws, shows (sp_se sp) rho (v_at a) vs /\ shows (sp_se sp) rho (v_at b) ws /\ Forall2 (Pr CEq) vs ws).
Proof.
  intros Va Vb. pose proof (fits_vars _ _ _ _ Va) as Fa. pose proof (fits_vars _ _ _ _ Vb) as Fb.
  destruct Va as ((Ra & Ca) & La & _). destruct Vb as ((Rb & Cb) & Lb & _).
  eapply T_conseq; [apply (T_subject_q sp CEq _ _ n 1 Fa Fb); cbn; rewrite Ra, Ca, Rb, Cb, !Nat.eqb_refl; reflexivity|].
  intros sp' _ (rs & E & W & L & K). exists rs. split; [exact E|]. split; [exact W|]. split; [lia|]. intros Pr rho. rewrite K. cbn [as_operand operand_is].
  unfold shows. rewrite <- (pair_columns _ (Pr CEq)) by lia. rewrite Ca, Cb, La, Nat.mul_1_r. split.
  - intros H i Hi. specialize (H i 0 Hi ltac:(lia)). rewrite !Nat.mul_1_r, !Nat.add_0_r in H. exact H.
  - intros H i j Hi Hj. assert (j = 0) as -> by lia. rewrite !Nat.mul_1_r, !Nat.add_0_r. apply H, Hi.
Qed.

(** *** Columns and entries *)
Lemma look_some {A} (l : list A) ks : (forall k, In k ks -> k < length l) -> exists xs, look l ks = Some xs /\ Forall2 (fun k x => nth_error l k = Some x) ks xs.
Proof.
  induction ks as [|k ks IH]; intros H; [exists []; repeat constructor|]. destruct IH as (xs & E & F); [intros; apply H; right; assumption|].
  destruct (nth_error l k) as [x|] eqn:Ek; [|apply nth_error_None in Ek; pose proof (H k (or_introl eq_refl)); lia].
  exists (x :: xs). cbn. rewrite Ek, E. split; [reflexivity|constructor; assumption].
Qed.
Lemma F2_nth {A B} (P : A -> B -> Prop) l m i a : Forall2 P l m -> nth_error l i = Some a -> exists b, nth_error m i = Some b /\ P a b.
Proof. intros H. revert i. induction H; intros [|i] E; cbn in *; try discriminate; [injection E as <-; eauto|eauto]. Qed.
Lemma F2_nth_r {A B} (P : A -> B -> Prop) l m i b : Forall2 P l m -> nth_error m i = Some b -> exists a, nth_error l i = Some a /\ P a b.
Proof. intros H. revert i. induction H; intros [|i] E; cbn in *; try discriminate; [injection E as <-; eauto|eauto]. Qed.
Lemma F2_intro {A B} (P : A -> B -> Prop) l m : length l = length m -> (forall i a b, nth_error l i = Some a -> nth_error m i = Some b -> P a b) -> Forall2 P l m.
Proof.
  revert m. induction l as [|a l IH]; intros [|b m] L H; try discriminate; constructor; [apply (H 0); reflexivity|]. apply IH; [cbn in L; lia|]. intros i. apply (H (S i)).
Qed.
Lemma nth_cells r c j i : i < r -> nth_error (map (fun i => i * c + j) (seq 0 r)) i = Some (i * c + j).
Proof. intros H. rewrite nth_error_map. replace (nth_error (seq 0 r) i) with (Some i); [reflexivity|]. symmetry. rewrite (nth_error_nth' _ 0) by (rewrite seq_length; lia). f_equal. rewrite seq_nth by lia. lia. Qed.

Definition col_of (m : vmat) (j : nat) (x : vmat) : Prop :=
  shape x (v_rows m) 1 /\ length (v_at x) = v_rows m /\ forall i, i < v_rows m -> nth_error (v_at x) i = nth_error (v_at m) (i * v_cols m + j).
Lemma T_vcol_of sp m j r c : vars_of sp m r c -> j < c -> T sp (vcol m j) (fun sp' x => sp' = sp /\ vars_of sp x r 1 /\ col_of m j x).
Proof.
  intros ((Rm & Cm) & L & B) Hj g Hg. unfold vcol. rewrite Cm, Rm. unfold gassert. rewrite (proj2 (Nat.ltb_lt _ _) Hj). cbn [oassert].
  destruct (look_some (v_at m) (map (fun i => i * c + j) (seq 0 r))) as (xs & E & F).
  { intros k Hk. apply in_map_iff in Hk as (i & <- & Hi). apply in_seq in Hi. rewrite L. nia. }
  assert (Lx : length xs = r). { apply Forall2_length in F. rewrite map_length, seq_length in F. symmetry. exact F. }
  exists (mkM r 1 xs), g, sp. split.
  - split; [cbn [oassert]; rewrite E; reflexivity|]. split; [exact Hg|]. exists []. split; [symmetry; apply app_nil_r|reflexivity].
  - split; [reflexivity|]. split.
    + split; [split; reflexivity|]. split; [cbn; lia|]. rewrite List.Forall_forall in *. intros i Hi. apply In_nth_error in Hi as (k & Hk). destruct (F2_nth_r _ _ _ _ _ F Hk) as (a & _ & Ha). apply nth_error_In in Ha. apply B, Ha.
    + split; [split; [cbn; congruence|reflexivity]|]. split; [cbn; congruence|]. intros i Hi. cbn [v_at]. rewrite Rm in Hi. destruct (F2_nth _ _ _ _ _ F (nth_cells r c j i Hi)) as (b & E1 & E2). rewrite Cm. congruence.
Qed.
Lemma col_of_column se rho m j x v : col_of m j x -> shows se rho (v_at x) v <-> column se rho m j v.
Proof.
  intros (_ & L & N). unfold column, entry. split.
  - intros H. split; [rewrite (shows_len _ _ _ _ H); exact L|]. intros i y E. destruct (F2_nth_r _ _ _ _ _ H E) as (k & Ek & K). exists k. split; [|exact K]. rewrite <- N; [exact Ek|]. rewrite <- L. apply nth_error_Some. congruence.
  - intros [Lv H]. apply F2_intro; [congruence|]. intros i k y Ek Ey. destruct (H i y Ey) as (k' & E' & K). rewrite <- N in E'; [|rewrite <- L; apply nth_error_Some; congruence]. congruence.
Qed.
Lemma T_vcol sp m j r c : vars_of sp m r c -> j < c ->
  T sp (vcol m j) (fun sp' x => sp' = sp /\ vars_of sp x r 1 /\ forall rho v, shows (sp_se sp) rho (v_at x) v <-> column (sp_se sp) rho m j v).
Proof.
  intros V Hj. eapply T_conseq; [apply (T_vcol_of sp m j r c V Hj)|]. intros sp' x (-> & Vx & Cx). split; [reflexivity|]. split; [exact Vx|]. intros rho v. apply col_of_column, Cx.
Qed.
Lemma T_vget sp m i j r c : vars_of sp m r c -> i < r -> j < c ->
  T sp (vget m i j) (fun sp' k => sp' = sp /\ k < len sp /\ nth_error (v_at m) (i * c + j) = Some k /\ forall rho v, has (sp_se sp) rho k v <-> entry (sp_se sp) rho m i j v).
Proof.
  intros ((Rm & Cm) & L & B) Hi Hj g Hg. unfold vget, gassert. rewrite Rm, Cm, (proj2 (Nat.ltb_lt _ _) Hi), (proj2 (Nat.ltb_lt _ _) Hj). cbn [andb oassert].
  destruct (nth_error (v_at m) (i * c + j)) as [k|] eqn:E; [|apply nth_error_None in E; nia].
  exists k, g, sp. split; [split; [reflexivity|]; split; [exact Hg|]; exists []; split; [symmetry; apply app_nil_r|reflexivity]|].
  split; [reflexivity|]. split; [rewrite List.Forall_forall in B; apply B, (nth_error_In _ _ E)|]. split; [reflexivity|]. intros rho v. unfold entry. rewrite Cm, E. split; [intros H; exists k; auto|intros (k' & [= <-] & H); exact H].
Qed.
Lemma col_bind {B} sp m j r c (f : vmat -> G B) Q : vars_of sp m r c -> j < c ->
  (forall x, vars_of sp x r 1 -> (forall rho v, shows (sp_se sp) rho (v_at x) v <-> column (sp_se sp) rho m j v) -> T sp (f x) Q) -> T sp (gbind (vcol m j) f) Q.
Proof. intros V Hj K. eapply T_bind; [apply (T_vcol sp m j r c V Hj)|]. intros sp' x (-> & V' & E). apply K; assumption. Qed.
Lemma get_bind {B} sp m i j r c (f : nat -> G B) Q : vars_of sp m r c -> i < r -> j < c ->
  (forall k, k < len sp -> nth_error (v_at m) (i * c + j) = Some k -> (forall rho v, has (sp_se sp) rho k v <-> entry (sp_se sp) rho m i j v) -> T sp (f k) Q) -> T sp (gbind (vget m i j) f) Q.
Proof. intros V Hi Hj K. eapply T_bind; [apply (T_vget sp m i j r c V Hi Hj)|]. intros sp' k (-> & L & N & E). apply K; assumption. Qed.

(** *** Loops over the steps *)
Section Steps.
Variables (ns ni N : nat) (X U DT : vmat) (ok : R -> Prop) (St : (cmp -> R -> R -> Prop) -> R -> list R -> list R -> list R -> list R -> R -> Prop) (body : nat -> nat -> G nat).

Definition mats (sp : spec) : Prop := vars_of sp X ns (N + 1) /\ vars_of sp U ni (N + 1) /\ vars_of sp DT 1 (N + 1).
Definition shown (sp : spec) rho (xs us : nat -> list R) (hs : nat -> R) : Prop :=
  forall k, k <= N -> column (sp_se sp) rho X k (xs k) /\ column (sp_se sp) rho U k (us k) /\ entry (sp_se sp) rho DT 0 k (hs k).
Lemma mats_wider a b es is : wider a b es is -> mats a -> mats b.
Proof. intros W (V1 & V2 & V3). split; [|split]; eapply wider_vars; eauto. Qed.
Lemma shown_wider a b es is rho xs us hs : wider a b es is -> mats a -> shown a rho xs us hs <-> shown b rho xs us hs.
Proof.
  intros W (V1 & V2 & V3). split; intros H k Hk; destruct (H k Hk) as (A1 & A2 & A3).
  - split; [|split]; [apply (wider_column a b es is X ns (N + 1))|apply (wider_column a b es is U ni (N + 1))|apply (wider_entry a b es is DT 1 (N + 1))]; assumption.
  - split; [|split]; [apply (wider_column a b es is X ns (N + 1))|apply (wider_column a b es is U ni (N + 1))|apply (wider_entry a b es is DT 1 (N + 1))]; assumption.
Qed.

Hypothesis Hbody : forall sp i tm, mats sp -> i < N -> tm < len sp -> T sp (body i tm) (fun sp' k => exists es, wider sp sp' es [] /\ length es = ns /\ k < len sp' /\
  forall rho xs us hs tv, shown sp rho xs us hs -> has (sp_se sp) rho tm tv -> has (sp_se sp') rho k (tv + hs i)%R /\
    (ok (hs i) -> (forall Pr, List.Forall (rel_sat Pr rho) es <-> St Pr tv (xs i) (xs (i + 1)) (us i) (us (i + 1)) (hs i)))).

Lemma T_steps : forall n i sp tm, mats sp -> i + n <= N -> tm < len sp -> T sp (gfor n i body tm) (fun sp' k => exists es, wider sp sp' es [] /\ length es = n * ns /\ k < len sp' /\
  forall rho xs us hs tv, shown sp rho xs us hs -> has (sp_se sp) rho tm tv -> (forall k, k < n -> ok (hs (i + k))) ->
    (forall Pr, List.Forall (rel_sat Pr rho) es <-> forall k, k < n -> St Pr (tv + time_at (fun j => hs (i + j)%nat) k)%R (xs (i + k)) (xs (i + k + 1)) (us (i + k)) (us (i + k + 1)) (hs (i + k)))).
Proof.
  induction n as [|n IH]; intros i sp tm Hm Hi Ht; cbn [gfor].
  - apply T_ret. exists []. split; [apply wider_refl|]. split; [reflexivity|]. split; [exact Ht|]. intros. split; [intros _ k Hk; lia|constructor].
  - eapply T_bind; [apply (Hbody sp i tm Hm); [lia|exact Ht]|]. intros sp1 k (es & W & Les & Lk & E).
    eapply T_conseq; [apply (IH (S i) sp1 k (mats_wider _ _ _ _ W Hm)); [lia|exact Lk]|]. intros sp2 k2 (es2 & W2 & L2 & Lk2 & E2).
    exists (es ++ es2). split; [apply (wider_trans _ _ _ _ _ _ _ W W2)|]. split; [rewrite app_length; cbn; lia|]. split; [exact Lk2|].
    intros rho xs us hs tv Hs Hv Hok. destruct (E rho xs us hs tv Hs Hv) as [Hk He]. pose proof (proj1 (shown_wider _ _ _ _ _ _ _ _ W Hm) Hs) as Hs1.
    specialize (E2 rho xs us hs _ Hs1 Hk). intros Pr. rewrite Forall_app.
    rewrite He by (specialize (Hok 0 ltac:(lia)); rewrite Nat.add_0_r in Hok; exact Hok). rewrite E2; [|intros j Hj; replace (S i + j) with (i + S j) by lia; apply Hok; lia].
    assert (Tm : forall j, time_at (fun m => hs (i + m)) (S j) = (hs i + time_at (fun m => hs (S i + m)%nat) j)%R).
    { induction j as [|j IHj]; [cbn; rewrite Nat.add_0_r; lra|]. cbn [time_at] in IHj |- *. rewrite IHj. replace (i + S j) with (S i + j) by lia. lra. }
    split.
    + intros [H1 H2] [|j] Hj; [cbn [time_at]; rewrite Rplus_0_r, Nat.add_0_r; exact H1|]. rewrite Tm. specialize (H2 j ltac:(lia)).
      replace (tv + (hs i + time_at (fun m => hs (S i + m)%nat) j))%R with (tv + hs i + time_at (fun m => hs (S i + m)%nat) j)%R by lra.
      replace (i + S j) with (S i + j) by lia. exact H2.
    + intros H. split.
      * specialize (H 0 ltac:(lia)). cbn [time_at] in H. rewrite Rplus_0_r, Nat.add_0_r in H. exact H.
      * intros j Hj. specialize (H (S j) ltac:(lia)). rewrite Tm in H. replace (tv + hs i + time_at (fun m => hs (S i + m)%nat) j)%R with (tv + (hs i + time_at (fun m => hs (S i + m)%nat) j))%R by lra.
        replace (S i + j) with (i + S j) by lia. exact H.
Qed.
End Steps.
