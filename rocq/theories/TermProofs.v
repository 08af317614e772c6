(** Proofs for C55: the SQP and interior-point solvers terminate (extended reals). *)
From Coq Require Import ZArith Reals List Bool Lra Lia.
From Verif Require Import Base ExprModel ExprReal ExprXR NumModel UtilModel KktModel FilterModel FilterProofs ExitModel SolverModel SolverSpec SolverProofs
  NewtonModel NewtonProofs SqpModel SqpSpec SqpProofs IpmModel IpmShape IpmSpec IpmProofs RestoreModel RestoreProofs XArith PosX PosProofs.
Import ListNotations.
Local Open Scope nat_scope.

(** ** Computations that stop depending on their fuel *)
Definition settles {A} (f : nat -> outcome A) : Prop := exists N r, r <> OutOfFuel /\ forall n, N <= n -> f n = r.
Lemma settles_const {A} (r : outcome A) : r <> OutOfFuel -> settles (fun _ => r).
Proof. intros H. exists 0, r. auto. Qed.
Lemma settles_ext {A} (f g : nat -> outcome A) : (forall n, f n = g n) -> settles f -> settles g.
Proof. intros X (N & r & H & K). exists N, r. split; [exact H|]. intros n L. rewrite <- X. auto. Qed.
Lemma settles_bind {A B} (f : nat -> outcome A) (k : nat -> A -> outcome B) :
  settles f -> (forall a n, f n = Ok a -> settles (fun n => k n a)) -> settles (fun n => obind (f n) (k n)).
Proof.
  intros (N & r & H & K) L. destruct r as [a| | |].
  - destruct (L a N (K _ (le_n _))) as (N' & r' & H' & K'). exists (N + N'), r'. split; [exact H'|]. intros n Hn. rewrite K by lia. cbn. apply K'. lia.
  - exists N, AssertFail. split; [discriminate|]. intros n Hn. rewrite K; auto.
  - exists N, UB. split; [discriminate|]. intros n Hn. rewrite K; auto.
  - contradiction.
Qed.
Section Drive.
Context {S : nops} {St : Type}.
Variables (err : St -> S) (tol : S) (body : nat -> St -> outcome (pass St)) (Inv : St -> Prop) (m : St -> nat).
Hypothesis Hbody : forall st, Inv st -> settles (fun n => body n st).
Hypothesis Hnext : forall n st st', Inv st -> body n st = Ok (Next st') -> Inv st' /\ m st' < m st.
Lemma settles_drive st : Inv st -> settles (fun n => drive err tol (body n) n st).
Proof.
  intros I. assert (G : forall k st, Inv st -> m st < k -> exists N r, r <> OutOfFuel /\ forall n j, N <= n -> N <= j -> drive err tol (body n) j st = r).
  { induction k as [|k IH]; intros st1 I1 L; [lia|]. destruct (s_ltb S tol (err st1)) eqn:T.
    2:{ exists 1, (Ok (SUCCESS, st1)). split; [discriminate|]. intros n j _ Lj. destruct j as [|j]; [lia|]. cbn [drive]. rewrite T. reflexivity. }
    destruct (Hbody st1 I1) as (N & r & Hr & K). destruct r as [[s st'|st']| | |].
    - exists (N + 1), (Ok (s, st')). split; [discriminate|]. intros n j Ln Lj. destruct j as [|j]; [lia|]. cbn [drive]. rewrite T, K by lia. reflexivity.
    - destruct (Hnext N st1 st' I1 (K _ (le_n _))) as [I2 L2]. destruct (IH st' I2) as (N' & r & Hr' & K'); [lia|].
      exists (N + N' + 1), r. split; [exact Hr'|]. intros n j Ln Lj. destruct j as [|j]; [lia|]. cbn [drive]. rewrite T, K by lia. cbn [obind]. apply K'; lia.
    - exists (N + 1), AssertFail. split; [discriminate|]. intros n j Ln Lj. destruct j as [|j]; [lia|]. cbn [drive]. rewrite T, K by lia. reflexivity.
    - exists (N + 1), UB. split; [discriminate|]. intros n j Ln Lj. destruct j as [|j]; [lia|]. cbn [drive]. rewrite T, K by lia. reflexivity.
    - contradiction. }
  destruct (G (1 + m st) st I) as (N & r & H & K); [lia|]. exists N, r. split; [exact H|]. intros n L. apply K; auto.
Qed.
End Drive.

(** ** Line searches *)
(** A filter that can no longer ask to be reset. *)
Definition dead {S : nops} (f : filter S) : Prop := f_entries f = [] /\ f_flag f = false.
Lemma try_add_dead {S : nops} (f : filter S) cur trial d a f' : dead f -> try_add f cur trial d a = (f', false) -> dead f'.
Proof.
  intros [D1 D2] H. unfold try_add in H. destruct (_ || _); [injection H as <-; split; auto|].
  destruct (_ && _ && _); [injection H as <-; split; auto|]. destruct (_ && _); [injection H as <-; split; auto|].
  assert (I : in_filter f trial = false) by (unfold in_filter; rewrite D1; reflexivity). rewrite I in H. destruct (_ || _); discriminate.
Qed.
Lemma shrink_dead {S : nops} (f : filter S) : dead (shrink_filter f).
Proof. split; reflexivity. Qed.
Lemma dead_reset {S : nops} cnt cur (f : filter S) : dead f -> reset_filter cnt cur f = false.
Proof. intros [_ D]. unfold reset_filter. rewrite D. apply andb_false_r. Qed.

Lemma ssoc_dead {S : nops} (E : env S) (P : sprob S) k c a a_soc ce_soc tce viol flt flt' : dead flt ->
  sqp_soc E P k c a a_soc ce_soc tce viol flt = (flt', None) -> dead flt'.
Proof.
  revert ce_soc tce viol flt. induction k as [|k IH]; intros ce_soc tce viol flt D H; cbn [sqp_soc] in H; [injection H as <-; exact D|].
  destruct (try_add _ _ _ _ _) as [f1 ok] eqn:T. destruct ok; [discriminate|]. apply try_add_dead in T; [|exact D].
  destruct (s_ltb S _ _); [injection H as <-; exact T|]. eapply IH; eauto.
Qed.
Lemma isoc_dead {S : nops} (E : env S) (P : iprob S) k c dphi a a_soc ce_soc cis_soc t viol flt flt' : dead flt ->
  ipm_soc E P k c dphi a a_soc ce_soc cis_soc t viol flt = (flt', None) -> dead flt'.
Proof.
  revert a_soc ce_soc cis_soc t viol flt. induction k as [|k IH]; intros a_soc ce_soc cis_soc t viol flt D H; cbn [ipm_soc] in H; [injection H as <-; exact D|].
  destruct (try_add _ _ _ _ _) as [f1 ok] eqn:T. destruct ok; [discriminate|]. apply try_add_dead in T; [|exact D].
  destruct (s_ltb S _ _); [injection H as <-; exact T|]. eapply IH; eauto.
Qed.

(** [k] more halvings take [a] below the smallest step. *)
Definition small_in {N : nops} (k : nat) (a : N) : Prop := s_ltb N (halves k a) (amin (S := N)) = true.
Lemma small_in_S {N : nops} k (a : N) : small_in (S k) a -> small_in k (halve a).
Proof. unfold small_in. rewrite <- halves_S. auto. Qed.
Lemma small_in_0 {N : nops} (a : N) : small_in 1 a -> s_ltb N (halve a) (amin (S := N)) = true.
Proof. intros H. exact H. Qed.

(** A line search in steps: each either answers, halves the step, or empties a filter that could ask for it. *)
Section Search.
Context {N : nops} {R : Type}.
Variable f : nat -> N -> filter N -> Z -> outcome R.
Hypothesis step : forall a flt cnt, (exists r, forall n, f (S n) a flt cnt = Ok r) \/
  exists a' flt' cnt', (forall n, f (S n) a flt cnt = f n a' flt' cnt') /\
    ((a' = halve a /\ s_ltb N (halve a) (amin (S := N)) = false /\ (dead flt -> dead flt')) \/ (a' = a /\ ~ dead flt /\ dead flt')).
Lemma search_dead k : forall a flt cnt, small_in (S k) a -> dead flt -> exists r, forall n, 1 + k <= n -> f n a flt cnt = Ok r.
Proof.
  induction k as [|k IH]; intros a flt cnt Sm D.
  - destruct (step a flt cnt) as [(r & K)|(a' & flt' & cnt' & K & [(_ & B & _)|(_ & B & _)])].
    + exists r. intros n L. destruct n as [|n]; [lia|auto].
    + apply small_in_0 in Sm. congruence.
    + contradiction.
  - destruct (step a flt cnt) as [(r & K)|(a' & flt' & cnt' & K & [(-> & B & D')|(_ & B & _)])].
    + exists r. intros n L. destruct n as [|n]; [lia|auto].
    + destruct (IH (halve a) flt' cnt') as (r & K'); [apply small_in_S; exact Sm|auto|]. exists r.
      intros n L. destruct n as [|n]; [lia|]. rewrite K. apply K'. lia.
    + contradiction.
Qed.
Lemma search_stops k : forall a flt cnt, small_in (S k) a -> exists r, forall n, 2 + k <= n -> f n a flt cnt = Ok r.
Proof.
  induction k as [|k IH]; intros a flt cnt Sm.
  - destruct (step a flt cnt) as [(r & K)|(a' & flt' & cnt' & K & [(_ & B & _)|(-> & _ & D)])].
    + exists r. intros n L. destruct n as [|n]; [lia|auto].
    + apply small_in_0 in Sm. congruence.
    + destruct (search_dead 0 a flt' cnt' Sm D) as (r & K'). exists r. intros n L. destruct n as [|n]; [lia|]. rewrite K. apply K'. lia.
  - destruct (step a flt cnt) as [(r & K)|(a' & flt' & cnt' & K & [(-> & B & _)|(-> & _ & D)])].
    + exists r. intros n L. destruct n as [|n]; [lia|auto].
    + destruct (IH (halve a) flt' cnt') as (r & K'); [apply small_in_S; exact Sm|]. exists r.
      intros n L. destruct n as [|n]; [lia|]. rewrite K. apply K'. lia.
    + destruct (search_dead (S k) a flt' cnt' Sm D) as (r & K'). exists r. intros n L. destruct n as [|n]; [lia|]. rewrite K. apply K'. lia.
Qed.
End Search.

Lemma not_dead {S : nops} cnt cur (f : filter S) : reset_filter cnt cur f = true -> ~ dead f.
Proof. intros H D. rewrite dead_reset in H; [discriminate|exact D]. Qed.

Lemma ssearch_step {N : nops} (E : env N) (P : sprob N) c d a flt cnt : (exists r, forall n, sqp_search E P (S n) c d a flt cnt = Ok r) \/
  exists a' flt' cnt', (forall n, sqp_search E P (S n) c d a flt cnt = sqp_search E P n c d a' flt' cnt') /\
    ((a' = halve a /\ s_ltb N (halve a) (amin (S := N)) = false /\ (dead flt -> dead flt')) \/ (a' = a /\ ~ dead flt /\ dead flt')).
Proof.
  cbn [sqp_search]. cbv zeta. destruct (_ || _).
  { destruct (s_ltb N _ _) eqn:B; [left; eauto|right]. exists (halve a), flt, cnt. split; [reflexivity|]. left. split; [reflexivity|]. split; [reflexivity|auto]. }
  destruct (try_add _ _ _ _ _) as [f1 ok] eqn:T. destruct ok; [left; eauto|].
  destruct (if _ && _ then _ else _) as [f2 soc] eqn:So. destruct soc as [t|]; [left; eauto|].
  assert (Dd : dead flt -> dead f2).
  { intros D. apply try_add_dead in T; [|exact D]. destruct (_ && _); [eapply ssoc_dead; [exact T|exact So]|injection So as <-; exact T]. }
  destruct (reset_filter _ _ f2) eqn:Rf.
  { right. eexists _, _, _. split; [reflexivity|]. right. split; [reflexivity|]. split; [|apply shrink_dead]. intros D. apply not_dead in Rf. auto. }
  destruct (s_ltb N _ _) eqn:B.
  - left. match goal with |- context [s_leb ?X ?p ?q] => destruct (s_leb X p q) end; eexists; intros; reflexivity.
  - right. eexists _, _, _. split; [reflexivity|]. left. split; [reflexivity|]. split; [reflexivity|auto].
Qed.
Lemma isearch_step {N : nops} (E : env N) (P : iprob N) (o : options N) c d dphi amax az a flt cnt :
  (exists r, forall n, ipm_search E P o (S n) c d dphi amax az a flt cnt = Ok r) \/
  exists a' flt' cnt', (forall n, ipm_search E P o (S n) c d dphi amax az a flt cnt = ipm_search E P o n c d dphi amax az a' flt' cnt') /\
    ((a' = halve a /\ s_ltb N (halve a) (amin (S := N)) = false /\ (dead flt -> dead flt')) \/ (a' = a /\ ~ dead flt /\ dead flt')).
Proof.
  cbn [ipm_search]. cbv zeta. destruct (_ || _).
  { destruct (s_ltb N _ _) eqn:B; [left; eauto|right]. exists (halve a), flt, cnt. split; [reflexivity|]. left. split; [reflexivity|]. split; [reflexivity|auto]. }
  destruct (try_add _ _ _ _ _) as [f1 ok] eqn:T. destruct ok; [left; eauto|].
  destruct (if _ && _ then _ else _) as [f2 soc] eqn:So. destruct soc as [[t at']|]; [left; eauto|].
  assert (Dd : dead flt -> dead f2).
  { intros D. apply try_add_dead in T; [|exact D]. destruct (_ && _); [eapply isoc_dead; [exact T|exact So]|injection So as <-; exact T]. }
  destruct (reset_filter _ _ f2) eqn:Rf.
  { right. eexists _, _, _. split; [reflexivity|]. right. split; [reflexivity|]. split; [|apply shrink_dead]. intros D. apply not_dead in Rf. auto. }
  destruct (s_ltb N _ _) eqn:B.
  - left. match goal with |- context [s_leb ?X ?p ?q] => destruct (s_leb X p q) end; eexists; intros; reflexivity.
  - right. eexists _, _, _. split; [reflexivity|]. left. split; [reflexivity|]. split; [reflexivity|auto].
Qed.
Lemma small_in_24 a : (0 <= a <= 1)%R -> small_in (N := Xn) 24 (Fin a).
Proof. apply small_7. Qed.
(** At most 25 trial points, not counting second-order corrections (five at most). *)
Lemma ssearch_stops (E : env Xn) (P : sprob Xn) c d flt cnt : exists r, forall n, 25 <= n -> sqp_search E P n c d (Fin 1 : Xn) flt cnt = Ok r.
Proof. apply (search_stops (fun n a flt cnt => sqp_search E P n c d a flt cnt)); [apply ssearch_step|]. apply small_in_24. lra. Qed.
Lemma isearch_stops (E : env Xn) (P : iprob Xn) (o : options Xn) c d dphi az b flt cnt : (0 <= b <= 1)%R ->
  exists r, forall n, 25 <= n -> ipm_search E P o n c d dphi (Fin b : Xn) az (Fin b : Xn) flt cnt = Ok r.
Proof. intros H. apply (search_stops (fun n a flt cnt => ipm_search E P o n c d dphi (Fin b : Xn) az a flt cnt)); [apply isearch_step|]. apply small_in_24. exact H. Qed.

(** ** The barrier parameter *)
Section Barrier.
Variables (P : iprob Xn) (o : options Xn).
Hypothesis Hf : pos (sc_f (ip_sc P)).
Hypothesis Ht : pos (o_tol o).
Local Open Scope R_scope.
Lemma barrier_stops_k (k : R) err j : mu_min P o = Fin k -> 0 < k -> forall (m : R) tau flt, 0 < m -> m <= k * 5 ^ j ->
  exists r, forall n, (2 + j <= n)%nat -> barrier P o n err (Fin m : Xn) tau flt = Ok r.
Proof.
  intros Ek Pk. induction j as [|j IH]; intros m tau flt Pm L.
  - exists (Fin m, tau, flt). intros n Ln. destruct n as [|n]; [lia|]. cbn [barrier]. rewrite Ek, xltb.
    replace (R_ltb k m) with false; [reflexivity|]. symmetry. apply R_ltb_false. cbn [pow] in L. lra.
  - destruct (s_ltb Xn (mu_min P o) (Fin m) && s_leb Xn (err (Fin m)) (s_mul Xn (s_ofZ Xn 10) (Fin m))) eqn:B.
    + destruct (next_mu_X P o Hf Ht m Pm) as (k' & m' & Ek' & _ & En & Lm & Hm). rewrite Ek in Ek'. injection Ek' as <-.
      destruct Hm as [ -> |Hm].
      * exists (Fin k, tau_of (S := Xn) (Fin k), filter_reset flt). intros n Ln. destruct n as [|[|n]]; [lia|lia|]. cbn [barrier]. rewrite B, En, Ek, xltb.
        replace (R_ltb k k) with false; [reflexivity|]. symmetry. apply R_ltb_false. lra.
      * destruct (IH m' (tau_of (S := Xn) (Fin m')) (filter_reset flt)) as (r & K); [lra|cbn [pow] in L; lra|]. exists r.
        intros n Ln. destruct n as [|n]; [lia|]. cbn [barrier]. rewrite B, En. apply K. lia.
    + exists (Fin m, tau, flt). intros n Ln. destruct n as [|n]; [lia|]. cbn [barrier]. rewrite B. reflexivity.
Qed.
Lemma barrier_settles err (mu : Xn) tau flt : pos mu -> settles (fun n => barrier P o n err mu tau flt).
Proof.
  intros (m & -> & Pm). destruct (mu_min_X P o Hf Ht) as (k & Ek & Pk).
  assert (J : exists j, m <= k * 5 ^ j).
  { destruct (Pow_x_infinity 5 ltac:(rewrite Rabs_right; lra) (m / k)) as (j & Hj). specialize (Hj j (le_n _)).
    rewrite Rabs_right in Hj by (apply Rle_ge, pow_le; lra). exists j. apply Rmult_ge_compat_l with (r := k) in Hj; [|lra].
    replace (k * (m / k)) with m in Hj by (field; lra). lra. }
  destruct J as (j & J). destruct (barrier_stops_k k err j Ek Pk m tau flt Pm J) as (r & K). exists (2 + j)%nat, (Ok r). split; [discriminate|exact K].
Qed.
End Barrier.

(** ** The interior-point loop *)
Section Ipm.
Variables (E : env Xn) (P : iprob Xn) (o : options Xn).
Context {U : Type}.
Variable cbs : list (callback Xn U).
(** Restoration, given its fuel. *)
Variable rf : option (nat -> restorer (S := Xn) (U := U)).
Definition restore_at (n : nat) : option (restorer (S := Xn) (U := U)) := match rf with Some r => Some (r n) | None => None end.
Hypothesis Hp : iprob_ok P.
Hypothesis Hs : solve_ok E.
Hypothesis Hf : pos (sc_f (ip_sc P)).
Hypothesis Ht : pos (o_tol o).
Notation any := (fun _ : U => True).
Definition restore_settles (r : nat -> restorer (S := Xn) (U := U)) : Prop :=
  (forall n, restore_ok P o (r n)) /\ (forall n, restore_pos P False any (r n)) /\
  (forall cbs x s y z mu it uf clk, pt_ok P (mkPt x s y z) -> List.Forall pos s -> pos mu -> settles (fun n => r n cbs x s y z mu it uf clk)).
Hypothesis Hr : forall r, rf = Some r -> restore_settles r.

Definition core (st : istate E (U := U)) : Prop :=
  let x := is_x _ st in
  (is_f _ st = ip_f P x /\ is_g _ st = ip_g P x /\ is_H _ st = ip_H P x (is_y _ st) (is_z _ st) /\ is_ce _ st = ip_ce P x /\ is_Ae _ st = ip_Ae P x /\
   is_ci _ st = ip_ci P x /\ is_Ai _ st = ip_Ai P x /\ is_E _ st = error_at P (point_of E st) /\ pt_ok P (point_of E st)) /\
  sz_ok False (is_x _ st) (is_s _ st) (is_z _ st) /\ pos (is_mu _ st) /\ tau_ok (is_tau _ st).
Lemma core_inv n st : core st -> p_inv E P o (restore_at n) False any (is_it _ st) (point_of E st) st.
Proof.
  intros ((A1 & A2 & A3 & A4 & A5 & A6 & A7 & A8 & A9) & B & C & D). split; [|auto]. unfold i_inv. repeat (split; [assumption|]).
  split; [lia|]. split; [auto|]. exists 0. split; [constructor|lia].
Qed.
Lemma inv_core n it0 p0 st : p_inv E P o (restore_at n) False any it0 p0 st -> core st.
Proof.
  intros ((A1 & A2 & A3 & A4 & A5 & A6 & A7 & A8 & A9 & _) & B & C & D & _). split; auto. repeat (split; [assumption|]). assumption.
Qed.
Lemma restore_ok_at n rst : restore_at n = Some rst -> restore_ok P o rst.
Proof. unfold restore_at. destruct rf as [r|] eqn:Q; [|discriminate]. intros H. injection H as <-. apply (Hr r eq_refl). Qed.
Lemma restore_pos_at n rst : restore_at n = Some rst -> restore_pos P False any rst.
Proof. unfold restore_at. destruct rf as [r|] eqn:Q; [|discriminate]. intros H. injection H as <-. apply (Hr r eq_refl). Qed.

Lemma end_it fuel start x s y z f ce ci mu tau flt cnt it (u : U) ls clk st :
  ipm_end E P o fuel start x s y z f ce ci mu tau flt cnt it u ls clk = Ok (Next st) -> is_it _ st = (it + 1)%Z /\ (it + 1 < o_max o)%Z.
Proof.
  intros H. apply end_shape in H. destruct H as (j & tau' & flt' & l & clk' & Li & _ & _ & _ & H). destruct l as [s'|]; [discriminate|]. injection H as ->.
  apply limits_none in Li. split; [reflexivity|apply Li].
Qed.
Definition left_of (st : istate E (U := U)) : nat := Z.to_nat (o_max o - is_it _ st).
Lemma body_next n clk0 st st' : core st -> ipm_body E P o cbs (restore_at n) n (e_clock E clk0) st = Ok (Next st') -> core st' /\ (left_of st' < left_of st)%nat.
Proof.
  intros C H. split.
  - apply (inv_core n (is_it _ st) (point_of E st)).
    pose proof (body_pos E P o cbs (restore_at n) False (fun f => False_ind _ f) Hp Hs any (fun i u _ _ => I) (restore_ok_at n) (restore_pos_at n) Hf Ht _ _ _ _ _ _ (core_inv n st C) H) as K.
    exact K.
  - assert (Pk : pt_ok P (point_of E st)) by apply C. assert (L : (is_it _ st + 1 <= is_it _ st')%Z /\ (is_it _ st' < o_max o)%Z); [|unfold left_of; lia].
    apply body_shape in H. inversion H as [| | | |u ls rs t z r D1 D2 Cb L c Se Am Ft Cz En| | |u ls rs rst status q r D1 D2 Cb L c Se Am Rs Rr Su En]; subst.
    + apply end_it in En. lia.
    + apply end_it in En. destruct (restore_ok_at _ _ Rs _ _ _ _ _ _ _ _ _ _ _ Rr Pk) as (_ & _ & It). lia.
Qed.

Lemma end_settles start x s y z f ce ci mu tau flt cnt it (u : U) ls clk : pos mu ->
  settles (fun n => ipm_end E P o n start x s y z f ce ci mu tau flt cnt it u ls clk).
Proof.
  intros Pm. unfold ipm_end. apply settles_bind.
  - destruct (s_ltb Xn _ _); [apply barrier_settles; auto|]. apply settles_const. discriminate.
  - intros [[m t] fl] n _. destruct (limits _ _ _ _ _). apply settles_const. discriminate.
Qed.
Lemma body_settles clk0 st : core st -> settles (fun n => ipm_body E P o cbs (restore_at n) n (e_clock E clk0) st).
Proof.
  intros C. unfold ipm_body. destruct (eq_infeasible _ _ _); [apply settles_const; discriminate|].
  destruct (ineq_infeasible _ _ _); [apply settles_const; discriminate|]. destruct (diverging _ || diverging _) eqn:D; [apply settles_const; discriminate|].
  apply orb_false_iff in D. destruct D as [D1 D2].
  destruct (run_callbacks _ _ _) as [u stop]. destruct stop; [apply settles_const; discriminate|].
  destruct (ls_compute _ _ _) as [ls ok]. destruct ok; cbn [negb]; [|apply settles_const; discriminate]. cbv zeta.
  pose proof C as ((A1 & A2 & A3 & A4 & A5 & A6 & A7 & A8 & A9) & B & Pm & Pt).
  assert (Sp : s_pos False (is_s _ st) (is_z _ st)) by (pose proof (diverging_fin _ D1); pose proof (diverging_fin _ D2); destruct B as [Q|[Q|Q]]; [congruence|congruence|exact Q]).
  set (c := ipm_ctx E st ls).
  assert (Cc : c_pos E P False c).
  { pose proof (core_inv 0 st C) as (I & _). split; [eapply ctx_ok; eauto|]. unfold c. cbn [ipm_ctx ix_ci ix_Ai ix_x ix_s ix_z ix_mu ix_tau].
    do 5 (split; [assumption|]). apply not_diverging. exact D1. }
  destruct (rhs_cis_len E P c (proj1 Cc)) as [L1 L2]. destruct (amax_X E P False Hs c _ _ Cc L1 L2) as (b & Eb & Hb & _).
  change (ftb (is_s E st) (p_s (ipm_step E c (ipm_rhs E P c) (vsub (is_ci E st) (is_s E st)))) (is_tau E st))
    with (ftb (S := Xn) (ix_s E c) (p_s (ipm_step E c (ipm_rhs E P c) (vsub (S := Xn) (ix_ci E c) (ix_s E c)))) (ix_tau E c)). rewrite Eb.
  apply settles_bind.
  { match goal with |- settles (fun n => ipm_search _ _ _ n ?c' ?d' ?dphi' _ ?az' _ ?flt' ?cnt') => destruct (isearch_stops E P o c' d' dphi' az' b flt' cnt' Hb) as (r & K) end.
    exists 25, (Ok r). split; [discriminate|exact K]. }
  intros r n _. destruct (if s_ltb Xn _ _ then None else _) as [t|].
  - apply settles_bind.
    + apply settles_const. destruct (clamp_zs _ _ _) eqn:Q; try discriminate. exfalso. revert Q. clear.
      assert (H : forall (s z : list Xn), clamp_zs (S := Xn) (is_mu E st) s z <> OutOfFuel); [|apply H].
      induction s as [|a s IH]; intros [|w z]; cbn [clamp_zs]; try discriminate. destruct (clamp_z _ _ _) eqn:Q; cbn [obind]; try discriminate.
      * specialize (IH z). destruct (clamp_zs _ _ _); cbn [obind]; congruence.
      * unfold clamp_z, clamp in Q. destruct (s_ltb Xn _ _); discriminate.
    + intros z _ _. apply end_settles. exact Pm.
  - unfold restore_at. destruct rf as [rs|] eqn:Q; [|apply settles_const; discriminate]. apply settles_bind.
    + destruct (Hr _ eq_refl) as (_ & _ & K). apply K; [exact A9|apply Sp|exact Pm].
    + intros [status q] n' _. destruct (is_success status); [apply end_settles; exact Pm|apply settles_const; discriminate].
Qed.

Lemma ipm_settles infr x s y z mu it0 (u : U) clk0 : pt_ok P (mkPt x s y z) ->
  (all_fin (S := Xn) (ip_ce P x) = true -> all_fin (S := Xn) (ip_ci P x) = true -> List.Forall pos s /\ pos mu) ->
  settles (fun n => ipm_from E P o cbs (restore_at n) n infr x s y z mu it0 u clk0).
Proof.
  intros Pk Ps. unfold ipm_from. destruct (_ && _); cbn [oassert]; [|apply settles_const; discriminate].
  destruct (Nat.ltb _ _); [apply settles_const; discriminate|]. destruct (_ || _) eqn:NF; [apply settles_const; discriminate|].
  repeat rewrite orb_false_iff in NF. rewrite !negb_false_iff in NF. destruct NF as ((((((_ & _) & _) & N1) & _) & N2) & _).
  cbn [ipm_init is_ce is_ci] in N1, N2. destruct (Ps N1 N2) as [S1 M1].
  apply (settles_drive (is_E E) (o_tol o) (fun n => ipm_body E P o cbs (restore_at n) n (e_clock E clk0)) core left_of).
  - intros st. apply body_settles.
  - intros n st st'. apply body_next.
  - split.
    + cbn [ipm_init is_f is_g is_H is_ce is_Ae is_ci is_Ai is_E is_it is_x is_s is_y is_z point_of]. do 8 (split; [reflexivity|]). exact Pk.
    + cbn [ipm_init is_x is_s is_z is_mu is_tau]. split; [right; right; split; [exact S1|contradiction]|]. split; [exact M1|apply tau_min_X].
Qed.
End Ipm.

(** ** Restoration and whole solves *)
Lemma sqp_start_ok {S : nops} (P : sprob S) x pe ne mu zeta : length x = sp_n P -> length pe = sp_me P -> length ne = sp_me P ->
  pt_ok (fr_sqp_prob P x zeta) (mkPt (x ++ pe ++ ne) (repeat (s_ofZ S 1) (2 * sp_me P)) (repeat (s_ofZ S 0) (sp_me P)) (vscale mu (vinv pe) ++ vscale mu (vinv ne))).
Proof.
  intros Lx P1 P2. unfold pt_ok. cbn [pt_x pt_s pt_y pt_z fr_sqp_prob ip_n ip_me ip_mi]. rewrite !app_length, !repeat_length.
  repeat rewrite (vscale_len _ _ _ eq_refl). repeat rewrite (vinv_len _ _ eq_refl). lia.
Qed.
Section Solve.
Variables (E : env Xn) (o : options Xn).
Context {U : Type}.
Hypothesis Hs : solve_ok E.
Hypothesis He : est_ok E.
Hypothesis Ht : pos (o_tol o).

Lemma clamp_zs_fuel (mu : Xn) : forall (s z : list Xn), clamp_zs (S := Xn) mu s z <> OutOfFuel.
Proof.
  induction s as [|a s IH]; intros [|w z]; cbn [clamp_zs]; try discriminate. destruct (clamp_z _ _ _) eqn:Q; cbn [obind]; try discriminate.
  - specialize (IH z). destruct (clamp_zs _ _ _); cbn [obind]; congruence.
  - unfold clamp_z, clamp in Q. destruct (s_ltb Xn _ _); discriminate.
Qed.
Lemma ipm_restore_settles (P : iprob Xn) : iprob_ok P -> restore_settles P o (fun n => ipm_restore (U := U) E o n P).
Proof.
  intros Hp. split; [intros n; apply ipm_restore_ok; auto|]. split.
  { intros n. apply ipm_restore_pos; auto; contradiction. }
  intros cbs x s y z mu it uf clk Pk Ps Pm. unfold ipm_restore.
  destruct (fr_ipm_start P x s mu) as [[[frx frs] frz] frmu] eqn:Hst.
  pose proof (fr_ipm_start_ok _ _ _ _ _ _ _ _ _ _ Hp Pk Hst (s_sqrt Xn frmu)) as Fk.
  pose proof (fr_ipm_start_pos False _ _ _ _ _ _ _ _ _ _ Hp Pk Ps Pm Hst) as Fp. pose proof Pk as (LX & LS & LY & LZ). cbn [pt_x pt_s pt_y pt_z] in *.
  assert (Hok : iprob_ok (fr_ipm_prob P x (s_sqrt Xn frmu))) by (apply fr_ipm_ok; auto).
  apply settles_bind.
  - apply (ipm_settles E (fr_ipm_prob P x (s_sqrt Xn frmu)) o cbs None); auto.
    + unfold fr_ipm_prob. cbn [ip_sc sc_f]. apply pos_Fin. lra.
    + discriminate.
    + intros F1 F2. destruct (Fp F1 F2) as [[Q1 _] Q2]. auto.
  - intros [status st] n _. apply settles_bind.
    + apply settles_const. destruct status; try discriminate. unfold estimate_ipm. destruct (clamp_zs _ _ _) eqn:Q; cbn [obind]; try discriminate.
      exfalso. exact (clamp_zs_fuel _ _ _ Q).
    + intros [y' z'] _ _. apply settles_const. discriminate.
Qed.
Lemma ipm_solve_settles (P : iprob Xn) (cbs : list (callback Xn U)) x (u : U) clk0 : iprob_ok P -> pos (sc_f (ip_sc P)) -> length x = ip_n P ->
  settles (fun n => ipm_solve E o n P cbs x u clk0).
Proof.
  intros Hp Hf Lx. unfold ipm_solve, ipm.
  apply (ipm_settles E P o cbs (Some (fun n => ipm_restore (U := U) E o n P))); auto.
  - intros r Q. injection Q as <-. apply ipm_restore_settles. exact Hp.
  - unfold pt_ok. cbn [pt_x pt_s pt_y pt_z]. rewrite !repeat_length. auto.
  - intros _ _. split; [apply repeat_Forall; apply pos_Fin; lra|].
    destruct Hf as (f & -> & Pf). rewrite xlit. change (IZR (10 ^ Z.of_nat 1)) with 10%R. rewrite xmul. apply pos_Fin. lra.
Qed.

(** *** SQP *)
Lemma sqp_restore_settles (P : sprob Xn) cbs x y it uf clk : sprob_ok P -> length x = sp_n P -> length y = sp_me P ->
  settles (fun n => sqp_restore (U := U) E o n P cbs x y it uf clk).
Proof.
  intros Hp Lx Ly. unfold sqp_restore. destruct (fr_sqp_start o P x) as [[frx frz] mu] eqn:Q.
  unfold fr_sqp_start in Q. cbv zeta in Q. destruct (compute_p_n _ _ _) as [pe ne] eqn:Q1. injection Q as <- <- Qm.
  pose proof (compute_p_n_len _ _ _ _ _ Q1) as [P1 P1']. destruct (Hp _ Lx) as (Hg & Hce & HAe). rewrite Hce in P1, P1'.
  apply settles_bind.
  2:{ intros [status st] n _. apply settles_const. discriminate. }
  apply (ipm_settles E (fr_sqp_prob P x (s_sqrt Xn mu)) o cbs None).
  - apply fr_sqp_ok; auto.
  - exact Hs.
  - unfold fr_sqp_prob. cbn [ip_sc sc_f]. apply pos_Fin. lra.
  - exact Ht.
  - discriminate.
  - exact (sqp_start_ok (S := Xn) P x pe ne _ _ Lx P1 P1').
  - unfold fr_sqp_prob at 1. cbn [ip_ce]. intros F1 _. split; [apply repeat_Forall; apply pos_Fin; lra|].
    set (fx := x ++ pe ++ ne) in *. assert (Sx : segment (S := Xn) fx 0 (sp_n P) = x) by (apply segment_app_l; exact Lx).
    apply fr_ce_fin in F1.
    + assert (F1' : List.Forall fin (sp_ce P x)) by (rewrite <- Sx; exact F1). clear F1. rename F1' into F1. destruct Ht as (t & Et & Pt). rewrite Et in Qm.
      assert (Ed : X_div (Fin t) (Fin 10) = Fin (t / 10)) by (exact (xdiv t 10 ltac:(lra))). rewrite Ed in Qm.
      destruct (smax_X (t / 10) _ (norminf_fin _ F1)) as (m1 & E1 & L1). assert (Em : mu = Fin m1) by (rewrite <- Qm; exact E1). rewrite Em. apply pos_Fin. lra.
    + change (length (sp_ce P (segment (S := Xn) fx 0 (sp_n P))) = sp_me P). rewrite Sx. exact Hce.
    + unfold fx. rewrite !app_length. cbn in *. lia.
Qed.

Section Sqp.
Variable P : sprob Xn.
Variable cbs : list (callback Xn U).
Hypothesis Hp : sprob_ok P.
Notation rst n := (sqp_restore (U := U) E o n P).
Definition score (st : sstate E (U := U)) : Prop :=
  let x := s_x _ st in let y := s_y _ st in
  s_f _ st = sp_f P x /\ s_g _ st = sp_g P x /\ s_H _ st = sp_H P x y /\ s_ce _ st = sp_ce P x /\ s_Ae _ st = sp_Ae P x /\
  s_E _ st = serror_at P x y /\ (length x = sp_n P /\ length y = sp_me P) /\ (0 <= s_it _ st)%Z /\ (s_it _ st = 0%Z \/ (s_it _ st < o_max o)%Z).
Lemma score_inv n st : score st -> s_inv E P o (rst n) (s_x _ st, s_y _ st) st.
Proof.
  intros (A1 & A2 & A3 & A4 & A5 & A6 & A7 & A8 & A9). unfold s_inv. repeat (split; [assumption|]). exists 0. split; [constructor|lia].
Qed.
Lemma inv_score n p0 st : s_inv E P o (rst n) p0 st -> score st.
Proof. intros (A1 & A2 & A3 & A4 & A5 & A6 & A7 & A8 & A9 & _). unfold score. auto 10. Qed.
Definition sleft (st : sstate E (U := U)) : nat := Z.to_nat (o_max o - s_it _ st).
Lemma sbody_next n clk0 st st' : score st -> sqp_body E P o cbs (rst n) n (e_clock E clk0) st = Ok (Next st') -> score st' /\ (sleft st' < sleft st)%nat.
Proof.
  intros C H. assert (Hr : srestore_ok P o (rst n)) by (apply sqp_restore_ok; auto). split.
  - pose proof (sbody_inv E P o cbs (rst n) Hp Hs Hr _ _ _ _ _ (score_inv n st C) H) as K. eapply inv_score. apply K.
  - pose proof (sbody_inv E P o cbs (rst n) Hp Hs Hr _ _ _ _ _ (score_inv n st C) H) as K. destruct K as [_ K]. unfold sleft. lia.
Qed.
Lemma sbody_settles clk0 st : score st -> settles (fun n => sqp_body E P o cbs (rst n) n (e_clock E clk0) st).
Proof.
  intros C. unfold sqp_body. destruct (eq_infeasible _ _ _); [apply settles_const; discriminate|].
  destruct (diverging _) eqn:D; [apply settles_const; discriminate|].
  destruct (run_callbacks _ _ _) as [u stop]. destruct stop; [apply settles_const; discriminate|].
  destruct (ls_compute _ _ _) as [ls ok]. destruct ok; cbn [negb]; [|apply settles_const; discriminate]. cbv zeta.
  apply settles_bind.
  { match goal with |- settles (fun n => sqp_search _ _ n ?c' ?d' _ ?flt' ?cnt') => destruct (ssearch_stops E P c' d' flt' cnt') as (r & K) end.
    exists 25, (Ok r). split; [discriminate|exact K]. }
  intros r n _. destruct (sf_t r) as [t|]; [apply settles_const; discriminate|]. apply settles_bind.
  - apply sqp_restore_settles; [exact Hp|apply C|apply C].
  - intros [[[[[s' x'] y'] it'] uf'] clk'] n' _. destruct (is_success s'); apply settles_const; discriminate.
Qed.
Lemma sqp_solve_settles x (u : U) clk0 : length x = sp_n P -> settles (fun n => sqp_solve E o n P cbs x u clk0).
Proof.
  intros Lx. unfold sqp_solve, sqp, sqp_from. destruct (_ && _); cbn [oassert]; [|apply settles_const; discriminate].
  destruct (Nat.ltb _ _); [apply settles_const; discriminate|]. destruct (_ || _) eqn:NF; [apply settles_const; discriminate|].
  apply (settles_drive (s_E E) (o_tol o) (fun n => sqp_body E P o cbs (rst n) n (e_clock E clk0)) score sleft).
  - intros st. apply sbody_settles.
  - intros n st st'. apply sbody_next.
  - unfold score. cbn [sqp_init s_f s_g s_H s_ce s_Ae s_E s_it s_x s_y]. do 6 (split; [reflexivity|]).
    split; [split; [exact Lx|apply repeat_length]|]. split; [lia|auto].
Qed.
End Sqp.
End Solve.
