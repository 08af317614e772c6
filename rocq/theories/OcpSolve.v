(** Proofs for C86. *)
From Coq Require Import Reals List Bool Arith Lia Lra.
From Verif Require Import Base ExprModel ExprXR MathSpec VarModel ExprReal VarSpec HistProofs NumModel ExitModel SolverModel SqpModel IpmModel ProblemModel ProblemSpec ProblemProofs ProblemProofs4
  ProbSolveModel ProbSolveSpec ProbSolveHist RestoreModel RestoreProofs IpmShape PosX LagrSpec ProbSolveKkt ProbSolveKkt2 OcpModel OcpSpec OcpProofs OcpRk4 OcpLoop OcpBody OcpMake OcpCtor OcpTrans OcpShoot OcpUse OcpSolveSpec.
Import ListNotations.
Local Open Scope nat_scope.

(** *** What later statements keep *)
Definition kept (l : list nat) (a b : spec) : Prop :=
  length (se_exp (sp_se a)) <= length (se_exp (sp_se b)) /\
  (forall i, In i l -> i < length (se_exp (sp_se a)) -> nth_error (se_exp (sp_se b)) i = nth_error (se_exp (sp_se a)) i) /\
  (exists es, sp_eqs b = sp_eqs a ++ es) /\ (exists is, sp_ineqs b = sp_ineqs a ++ is).

Lemma kept_refl l a : kept l a a.
Proof. split; [lia|]. split; [auto|]. split; exists []; rewrite app_nil_r; reflexivity. Qed.
Lemma kept_trans l a b c : kept l a b -> kept l b c -> kept l a c.
Proof.
  intros (L1 & N1 & (e1 & E1) & (i1 & I1)) (L2 & N2 & (e2 & E2) & (i2 & I2)). split; [lia|]. split; [intros i Hi Hl; rewrite N2, N1; auto; lia|].
  split; [exists (e1 ++ e2); rewrite E2, E1, app_assoc; reflexivity|exists (i1 ++ i2); rewrite I2, I1, app_assoc; reflexivity].
Qed.
Lemma kept_grow l a b x : se_exp (sp_se b) = se_exp (sp_se a) ++ x -> sp_eqs b = sp_eqs a -> sp_ineqs b = sp_ineqs a -> kept l a b.
Proof.
  intros E1 E2 E3. split; [rewrite E1, app_length; lia|]. split; [intros i _ Hl; rewrite E1; apply nth_error_app1, Hl|]. split; exists []; rewrite app_nil_r; assumption.
Qed.
Lemma sstep_kept l o a b q : sstep o (sp_se a) = Some (b, q) -> ~ assigns (PH o) l -> kept l a (set_se a b).
Proof.
  intros H NA. destruct o; cbn [sstep] in H; try (injection H as <- <-; eapply kept_grow; cbn; try reflexivity; rewrite ?app_nil_r; reflexivity).
  all: repeat match type of H with match ?x with _ => _ end = _ => destruct x eqn:?; try discriminate H end; injection H as <- <-.
  all: try (eapply kept_grow; cbn; reflexivity).
  all: try (apply (kept_grow l a _ []); cbn; rewrite ?app_nil_r; reflexivity).
  all: cbn [assigns] in NA; (split; [cbn; rewrite HistProofs.sset_length; lia|]); (split; [intros i0 Hi Hl; cbn; apply HistProofs.sset_nth_ne; intros ->; exact (NA Hi)|]); cbn; (split; exists []; rewrite app_nil_r; reflexivity).
Qed.

Lemma spec_step_kept l o a b q : spec_step o a = Some (b, q) -> ~ assigns o l -> kept l a b.
Proof.
  intros H NA. destruct o as [h| | | | | | | | |]; cbn [spec_step] in H.
  - destruct (sstep h (sp_se a)) as [[se q0]|] eqn:E; [|discriminate]. injection H as <- <-. exact (sstep_kept l h a se q0 E NA).
  - destruct (rels _ _ _ _); [|discriminate]. injection H as <- <-. apply (kept_grow l a _ []); cbn; rewrite ?app_nil_r; reflexivity.
  - destruct (rels _ _ _ _); [|discriminate]. destruct (rels _ _ _ _); [|discriminate]. injection H as <- <-. apply (kept_grow l a _ []); cbn; rewrite ?app_nil_r; reflexivity.
  - destruct (all_opt _); [|discriminate]. destruct (forallb _ _); [|discriminate]. injection H as <- <-. apply (kept_grow l a _ []); cbn; rewrite ?app_nil_r; reflexivity.
  - destruct (nth_error _ _); [|discriminate]. injection H as <- <-. apply kept_refl.
  - injection H as <- <-. eapply kept_grow; cbn; reflexivity.
  - injection H as <- <-. eapply kept_grow; cbn; reflexivity.
  - destruct (nth_error _ _); [|discriminate]. injection H as <- <-. apply (kept_grow l a _ []); cbn; rewrite ?app_nil_r; reflexivity.
  - destruct (nth_error _ _); [|discriminate]. injection H as <- <-. apply (kept_grow l a _ []); cbn; rewrite ?app_nil_r; reflexivity.
  - destruct (nth_error _ _) as [[e r]|]; [|discriminate]. injection H as <- <-. split; [cbn; lia|]. split; [reflexivity|].
    destruct e; cbn; (split; [first [exists r; reflexivity|exists []; rewrite app_nil_r; reflexivity]|first [exists r; reflexivity|exists []; rewrite app_nil_r; reflexivity]]).
Qed.

Lemma later_kept l a b : later l a b -> kept l a b.
Proof.
  induction 1 as [a|a b o c qs _ IH S NA|a b y _ IH]; [apply kept_refl|exact (kept_trans _ _ _ _ IH (spec_step_kept l o b c qs S NA))|].
  apply (kept_trans _ _ _ _ IH). apply (kept_grow l b _ []); cbn; rewrite ?app_nil_r; reflexivity.
Qed.

Lemma kept_has l a b rho i v : kept l a b -> In i l -> i < length (se_exp (sp_se a)) -> has (sp_se b) rho i v <-> has (sp_se a) rho i v.
Proof. intros (_ & N & _) Hi Hl. unfold has. rewrite (N i Hi Hl). reflexivity. Qed.
Lemma kept_entry l a b m r c rho i j v : kept l a b -> incl (v_at m) l -> vars_of a m r c -> entry (sp_se b) rho m i j v <-> entry (sp_se a) rho m i j v.
Proof.
  intros K I (_ & _ & B). unfold entry. rewrite List.Forall_forall in B. split; intros (k & E & H); exists k; (split; [exact E|]); apply (kept_has l a b rho k v K); auto; try apply I; try apply B; exact (nth_error_In _ _ E).
Qed.
Lemma kept_column l a b m r c rho j v : kept l a b -> incl (v_at m) l -> vars_of a m r c -> column (sp_se b) rho m j v <-> column (sp_se a) rho m j v.
Proof. intros K I V. unfold column. split; intros [L H]; (split; [exact L|]); intros i x E; apply (kept_entry l a b m r c rho i j x K I V), H, E. Qed.
Lemma handles_X o : incl (v_at (o_X o)) (handles o). Proof. intros i H. apply in_or_app. auto. Qed.
Lemma handles_U o : incl (v_at (o_U o)) (handles o). Proof. intros i H. apply in_or_app. right. apply in_or_app. auto. Qed.
Lemma handles_DT o : incl (v_at (o_DT o)) (handles o). Proof. intros i H. apply in_or_app. right. apply in_or_app. auto. Qed.

Lemma kept_shown a b o ns ni N rho xs us hs : kept (handles o) a b -> matrices a o ns ni N ->
  (shows_inputs (sp_se b) rho o us hs <-> shows_inputs (sp_se a) rho o us hs) /\ (shows_states (sp_se b) rho o xs <-> shows_states (sp_se a) rho o xs).
Proof.
  intros K (_ & VX & VU & VD). split; split; intros H k Hk; specialize (H k Hk).
  - destruct H as [H1 H2]. split; [apply (kept_column _ a b _ ni (N + 1) rho k _ K (handles_U o) VU), H1|apply (kept_entry _ a b _ 1 (N + 1) rho 0 k _ K (handles_DT o) VD), H2].
  - destruct H as [H1 H2]. split; [apply (kept_column _ a b _ ni (N + 1) rho k _ K (handles_U o) VU), H1|apply (kept_entry _ a b _ 1 (N + 1) rho 0 k _ K (handles_DT o) VD), H2].
  - apply (kept_column _ a b _ ns (N + 1) rho k _ K (handles_X o) VX), H.
  - apply (kept_column _ a b _ ns (N + 1) rho k _ K (handles_X o) VX), H.
Qed.

(** *** The outcome of code *)
Lemma did_det {A} (m : G A) g sp a g1 sp1 b g2 sp2 : did m g sp a g1 sp1 -> did m g sp b g2 sp2 -> a = b /\ g1 = g2 /\ sp1 = sp2.
Proof.
  intros (H1 & _ & c1 & E1 & R1) (H2 & _ & c2 & E2 & R2). rewrite H1 in H2. injection H2 as <- <-. split; [reflexivity|]. split; [reflexivity|].
  rewrite E1 in E2. apply app_inv_head in E2. subst c2. congruence.
Qed.

(** Single shooting: exact, at any point. *)
Lemma later_shooting ns ni f F (C : computes ns ni f F) dt N tm ty sp0 g0 oc g1 sp1 sp : sync g0 sp0 -> did (ocp_make ns ni dt N f ty tm SINGLE_SHOOTING) g0 sp0 oc g1 sp1 -> later (handles oc) sp1 sp ->
  forall rho, exists us hs, shows_inputs (sp_se sp) rho oc us hs /\ steps_ok tm dt N hs /\
    forall xs, column (sp_se sp) rho (o_X oc) 0 (xs 0) -> (shows_states (sp_se sp) rho oc xs <-> forall k, k < N -> next_state ty F (time_at hs k) (xs k) (us k) (hs k) (xs (k + 1))).
Proof.
  intros Sy D L rho. destruct (shooting_makes ns ni f F C dt N tm ty sp0 g0 Sy) as (o' & g' & sp' & ds & D' & _ & _ & M & To & _ & _ & _ & K).
  destruct (did_det _ _ _ _ _ _ _ _ _ D D') as (<- & <- & <-). pose proof (later_kept _ _ _ L) as Kp.
  destruct (To rho) as (us & hs & A & St). exists us, hs. split; [apply (kept_shown sp1 sp oc ns ni N rho (fun _ => []) us hs Kp M), A|]. split; [exact St|]. intros xs Cx.
  destruct (kept_shown sp1 sp oc ns ni N rho xs us hs Kp M) as [_ Q2]. rewrite Q2. destruct M as (_ & VX & _). apply (K rho us hs xs A). apply (kept_column _ sp1 sp _ ns (N + 1) rho 0 _ Kp (handles_X oc) VX), Cx.
Qed.

(** *** SUCCESS *)
Definition near_cmp (t : R) (c : cmp) (a b : R) : Prop :=
  match c with CEq => (Rabs (a - b) <= t)%R | CLt | CLe => (a <= b + t)%R | CGt | CGe => (a >= b - t)%R end.

Section Solved.
Context {U : Type} (E : env Xn) (o : options Xn) (t : R) (Hs : solve_ok E) (He : est_ok E) (Ht : o_tol o = Fin t) (Pt : (0 < t)%R).
Context (sp : spec) (y : list R) (S0 : prob_smooth sp (se_val (sp_se sp))) (S1 : prob_smooth sp (point sp y)) (Suc : succeeded (U := U) E o sp y).

Lemma all_near : List.Forall (rel_sat (near_cmp t) (point sp y)) (sp_eqs sp ++ sp_ineqs sp).
Proof.
  destruct Suc as [p P x0 p1 fuel all u clk fin Lv Hp H Hx Fy|p P x0 p1 fuel all u clk fin Lv Hp H Hx Fs Fy Fz].
  - exact (proj1 (c81_sqp E o t Hs He Ht Pt sp p P x0 p1 fuel all u clk fin y Lv Hp S0 H Hx Fy S1)).
  - exact (proj1 (c81_ipm E o t Hs He Ht Pt sp p P x0 p1 fuel all u clk fin y Lv Hp S0 H Hx Fs Fy Fz S1)).
Qed.
Lemma near_eqs a l es e0 : kept l a sp -> sp_eqs a = e0 ++ es -> List.Forall (rel_sat (near_cmp t) (point sp y)) es.
Proof.
  intros (_ & _ & (e1 & E1) & _) Ea. pose proof all_near as H. rewrite E1, Ea in H. apply Forall_app in H as [H _]. apply Forall_app in H as [H _]. apply Forall_app in H as [_ H]. exact H.
Qed.
Lemma near_ineqs a l is i0 : kept l a sp -> sp_ineqs a = i0 ++ is -> List.Forall (rel_sat (near_cmp t) (point sp y)) is.
Proof.
  intros (_ & _ & _ & (i1 & I1)) Ea. pose proof all_near as H. rewrite I1, Ea in H. apply Forall_app in H as [_ H]. apply Forall_app in H as [H _]. apply Forall_app in H as [_ H]. exact H.
Qed.

Context (ns ni : nat) (f : dyn) (F : dynamics) (C : computes ns ni f F) (dt : R) (N : nat) (tm : timestep).

Lemma solved_transcription ty sp0 g0 oc g1 sp1 : sync g0 sp0 -> did (ocp_make ns ni dt N f ty tm DIRECT_TRANSCRIPTION) g0 sp0 oc g1 sp1 -> later (handles oc) sp1 sp ->
  exists xs us hs, shows_inputs (sp_se sp) (point sp y) oc us hs /\ shows_states (sp_se sp) (point sp y) oc xs /\ steps_ok tm dt N hs /\
    forall k, k < N -> next_state_upto (within t) ty F (time_at hs k) (xs k) (us k) (hs k) (xs (k + 1)).
Proof.
  intros Sy D L. destruct (transcription_makes_q ns ni f F C dt N tm ty sp0 g0 Sy) as (o' & g' & sp' & ds & es & D' & Ex & _ & _ & M & To & _ & _ & _ & K).
  destruct (did_det _ _ _ _ _ _ _ _ _ D D') as (<- & <- & <-). pose proof (later_kept _ _ _ L) as Kp.
  destruct (To (point sp y)) as (xs & us & hs & A & B & St). exists xs, us, hs. destruct (kept_shown sp1 sp oc ns ni N (point sp y) xs us hs Kp M) as [Q1 Q2].
  split; [apply Q1, A|]. split; [apply Q2, B|]. split; [exact St|]. apply (K (point sp y) xs us hs A B (near_cmp t)). exact (near_eqs sp1 _ es _ Kp (e_eqs _ _ _ _ _ Ex)).
Qed.
Lemma solved_collocation sp0 g0 oc g1 sp1 : sync g0 sp0 -> did (ocp_make ns ni dt N f EXPLICIT_ODE tm DIRECT_COLLOCATION) g0 sp0 oc g1 sp1 -> later (handles oc) sp1 sp ->
  exists xs us hs, shows_inputs (sp_se sp) (point sp y) oc us hs /\ shows_states (sp_se sp) (point sp y) oc xs /\ steps_ok tm dt N hs /\
    ((forall k, k < N -> hs k <> 0%R) -> forall k, k < N -> hermite_simpson_upto (within t) F (time_at hs k) (xs k) (xs (k + 1)) (us k) (us (k + 1)) (hs k)).
Proof.
  intros Sy D L. destruct (collocation_makes_q ns ni f F C dt N tm sp0 g0 Sy) as (o' & g' & sp' & ds & es & D' & Ex & _ & _ & M & To & _ & _ & _ & K).
  destruct (did_det _ _ _ _ _ _ _ _ _ D D') as (<- & <- & <-). pose proof (later_kept _ _ _ L) as Kp.
  destruct (To (point sp y)) as (xs & us & hs & A & B & St). exists xs, us, hs. destruct (kept_shown sp1 sp oc ns ni N (point sp y) xs us hs Kp M) as [Q1 Q2].
  split; [apply Q1, A|]. split; [apply Q2, B|]. split; [exact St|]. intros Hz. apply (K (point sp y) xs us hs A B Hz (near_cmp t)). exact (near_eqs sp1 _ es _ Kp (e_eqs _ _ _ _ _ Ex)).
Qed.

(** *** The other constraints *)
Lemma kept_adds l a b es is : adds a b es is -> kept l a b.
Proof.
  intros H. apply wider_adds in H. destruct H as [(x & Hx) _ _ _ _ We Wi]. split; [rewrite Hx, app_length; lia|]. split; [intros i _ Hl; rewrite Hx; apply nth_error_app1, Hl|]. eauto.
Qed.
Lemma column_entry se rho m i j xs v w : column se rho m j xs -> entry se rho m i j v -> nth_error xs i = Some w -> v = w.
Proof.
  intros [_ H] (k & Ek & Hk) Hw. destruct (H i w Hw) as (k' & Ek' & Hk'). rewrite Ek in Ek'. injection Ek' as <-. exact (has_det _ _ _ _ _ Hk Hk').
Qed.
Lemma F2_near (Q : R -> R -> Prop) (l m : list R) n : length l = n -> length m = n -> (forall i a b, i < n -> nth_error l i = Some a -> nth_error m i = Some b -> Q a b) -> Forall2 Q l m.
Proof. intros L1 L2 H. apply F2_intro; [congruence|]. intros i a b Ha Hb. apply (H i); auto. rewrite <- L1. apply nth_error_Some. congruence. Qed.

Lemma near_column Q a b (m : vmat) r j (v : list R) rho xs l : kept l a b -> incl (v_at m) l -> vars_of a m r (N + 1) -> length v = r ->
  (forall i, i < r -> exists x w, entry (sp_se a) rho m i j x /\ operand_is (sp_se a) rho (ONums (S := R_ops) r 1 v) i 0 w /\ Q x w) ->
  column (sp_se b) rho m j xs -> Forall2 Q xs v.
Proof.
  intros K I V Lv H Hc. apply (kept_column l a b m r (N + 1) rho j xs K I V) in Hc. destruct (V) as ((Rm & _) & _). pose proof (proj1 Hc) as Lx. rewrite Rm in Lx.
  apply (F2_near Q xs v r Lx Lv). intros i x w Hi Hx Hw. destruct (H i Hi) as (x' & w' & Ex & Ew & HQ). rewrite <- (column_entry _ _ _ _ _ _ _ _ Hc Ex Hx). cbn in Ew. rewrite Nat.mul_1_r, Nat.add_0_r in Ew. congruence.
Qed.

Lemma solved_initial oc a ga b gb (v : list R) : sync ga a -> matrices a oc ns ni N -> length v = ns -> did (constrain_initial_state oc (ONums (S := R_ops) ns 1 v)) ga a tt gb b -> later (handles oc) b sp ->
  forall xs, shows_states (sp_se sp) (point sp y) oc xs -> Forall2 (within t) (xs 0) v.
Proof.
  intros Sy M Lv D L xs Hx. assert (Fv : fits (len a) (ONums (S := R_ops) ns 1 v) ns 1) by (split; [cbn; rewrite Nat.mul_1_r, Lv; apply Nat.eqb_refl|reflexivity]).
  destruct (M) as (HN & VX & _). destruct (initial_state_adds_q ns ni N oc HN a ga _ Sy M Fv) as (g' & sp' & es & D' & A & _ & K). destruct (did_det _ _ _ _ _ _ _ _ _ D D') as (_ & <- & <-).
  pose proof (later_kept _ _ _ L) as Kp. pose proof (kept_trans _ _ _ _ (kept_adds (handles oc) _ _ _ _ A) Kp) as Ka.
  apply (near_column (within t) a sp (o_X oc) ns 0 v (point sp y) (xs 0) _ Ka (handles_X oc) VX Lv); [|apply (Hx 0); lia].
  apply (K (near_cmp t) (point sp y)). exact (near_eqs b _ es _ Kp (e_eqs _ _ _ _ _ (proj1 A))).
Qed.
Lemma solved_final oc a ga b gb (v : list R) : sync ga a -> matrices a oc ns ni N -> length v = ns -> did (constrain_final_state oc (ONums (S := R_ops) ns 1 v)) ga a tt gb b -> later (handles oc) b sp ->
  forall xs, shows_states (sp_se sp) (point sp y) oc xs -> Forall2 (within t) (xs N) v.
Proof.
  intros Sy M Lv D L xs Hx. assert (Fv : fits (len a) (ONums (S := R_ops) ns 1 v) ns 1) by (split; [cbn; rewrite Nat.mul_1_r, Lv; apply Nat.eqb_refl|reflexivity]).
  destruct (M) as (HN & VX & _). destruct (final_state_adds_q ns ni N oc HN a ga _ Sy M Fv) as (g' & sp' & es & D' & A & _ & K). destruct (did_det _ _ _ _ _ _ _ _ _ D D') as (_ & <- & <-).
  pose proof (later_kept _ _ _ L) as Kp. pose proof (kept_trans _ _ _ _ (kept_adds (handles oc) _ _ _ _ A) Kp) as Ka.
  apply (near_column (within t) a sp (o_X oc) ns N v (point sp y) (xs N) _ Ka (handles_X oc) VX Lv); [|apply (Hx N); lia].
  apply (K (near_cmp t) (point sp y)). exact (near_eqs b _ es _ Kp (e_eqs _ _ _ _ _ (proj1 A))).
Qed.
Lemma solved_input_bound (lower : bool) oc a ga b gb (v : list R) : sync ga a -> matrices a oc ns ni N -> length v = ni ->
  did ((if lower then set_lower_input_bound else set_upper_input_bound) oc (ONums (S := R_ops) ni 1 v)) ga a tt gb b -> later (handles oc) b sp ->
  forall us hs, shows_inputs (sp_se sp) (point sp y) oc us hs -> forall k, k <= N -> Forall2 (fun x w => if lower then x >= w - t else x <= w + t)%R (us k) v.
Proof.
  intros Sy M Lv D L us hs Hx k Hk. assert (Fv : fits (len a) (ONums (S := R_ops) ni 1 v) ni 1) by (split; [cbn; rewrite Nat.mul_1_r, Lv; apply Nat.eqb_refl|reflexivity]).
  destruct (M) as (HN & VX & VU & _). destruct (input_bound_adds_q ns ni N oc HN lower a ga _ Sy M Fv) as (g' & sp' & is & D' & A & _ & K). destruct (did_det _ _ _ _ _ _ _ _ _ D D') as (_ & <- & <-).
  pose proof (later_kept _ _ _ L) as Kp. pose proof (kept_trans _ _ _ _ (kept_adds (handles oc) _ _ _ _ A) Kp) as Ka.
  apply (near_column _ a sp (o_U oc) ni k v (point sp y) (us k) _ Ka (handles_U oc) VU Lv); [|apply (Hx k); lia].
  intros i Hi. assert (Q : List.Forall (rel_sat (near_cmp t) (point sp y)) is) by exact (near_ineqs b _ is _ Kp (e_ineqs _ _ _ _ _ (proj1 A))).
  destruct (proj1 (K (near_cmp t) (point sp y)) Q k i Hk Hi) as (x & w & E1 & E2 & E3). exists x, w. split; [exact E1|]. split; [exact E2|]. destruct lower; exact E3.
Qed.
Lemma solved_timestep (lower : bool) oc a ga b gb (h : R) : sync ga a -> matrices a oc ns ni N ->
  did ((if lower then set_min_timestep else set_max_timestep) oc h) ga a tt gb b -> later (handles oc) b sp ->
  forall us hs, shows_inputs (sp_se sp) (point sp y) oc us hs -> forall k, k <= N -> (if lower then hs k >= h - t else hs k <= h + t)%R.
Proof.
  intros Sy M D L us hs Hx k Hk.
  destruct (M) as (HN & VX & VU & VD). destruct (timestep_adds_q ns ni N oc HN lower a ga h Sy M) as (g' & sp' & is & D' & A & _ & K). destruct (did_det _ _ _ _ _ _ _ _ _ D D') as (_ & <- & <-).
  pose proof (later_kept _ _ _ L) as Kp. pose proof (kept_trans _ _ _ _ (kept_adds (handles oc) _ _ _ _ A) Kp) as Ka.
  assert (Q : List.Forall (rel_sat (near_cmp t) (point sp y)) is) by exact (near_ineqs b _ is _ Kp (e_ineqs _ _ _ _ _ (proj1 A))).
  destruct (proj1 (K (near_cmp t) (point sp y)) Q k Hk) as (x & E1 & E3). destruct (Hx k) as [_ E2]; [lia|].
  apply (kept_entry _ a sp (o_DT oc) 1 (N + 1) (point sp y) 0 k (hs k) Ka (handles_DT oc) VD) in E2. destruct E1 as (i & Ei & Hi). destruct E2 as (i' & Ei' & Hi'). rewrite Ei in Ei'. injection Ei' as <-.
  rewrite (has_det _ _ _ _ _ Hi' Hi). destruct lower; exact E3.
Qed.
End Solved.
