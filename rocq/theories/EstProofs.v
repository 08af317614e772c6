(** Proofs for C63. *)
From Coq Require Import ZArith Reals List Bool Lra Lia Psatz.
From Verif Require Import Base ExprModel ExprReal NumModel LinR UtilModel UtilSpec KktModel KktSpec FilterProofs UtilProofs KktProofs TripletProofs.
Import ListNotations.
Local Open Scope R_scope.

(** A solution of the normal equations minimises the residual. *)
Lemma normal_least m N (A : nat -> nat -> R) (b y y' : nat -> R) :
  (forall i, (i < m)%nat -> sumn m (fun k => sumn N (fun j => A i j * A k j) * y k) = sumn N (fun j => A i j * b j)) ->
  sumn N (fun j => (b j - sumn m (fun i => A i j * y i)) * (b j - sumn m (fun i => A i j * y i))) <=
  sumn N (fun j => (b j - sumn m (fun i => A i j * y' i)) * (b j - sumn m (fun i => A i j * y' i))).
Proof.
  intros H. set (r := fun j => b j - sumn m (fun i => A i j * y i)). set (q := fun j => sumn m (fun i => A i j * (y i - y' i))).
  assert (E : forall j, b j - sumn m (fun i => A i j * y' i) = r j + q j).
  { intros j. unfold r, q. replace (sumn m (fun i => A i j * (y i - y' i))) with (sumn m (fun i => A i j * y i) - sumn m (fun i => A i j * y' i)); [lra|].
    rewrite <- sumn_minus. apply sumn_ext. intros; lra. }
  assert (O : forall i, (i < m)%nat -> sumn N (fun j => A i j * r j) = 0).
  { intros i L. unfold r. rewrite (sumn_ext N _ (fun j => A i j * b j - sumn m (fun k => A i j * A k j * y k))).
    2:{ intros j _. rewrite Rmult_minus_distr_l, <- sumn_scal. f_equal. apply sumn_ext. intros; lra. }
    rewrite sumn_minus, sumn_swap, <- H by auto. 
    rewrite (sumn_ext m (fun j => sumn N (fun i0 => A i i0 * A j i0 * y j)) (fun k => sumn N (fun j => A i j * A k j) * y k)); [lra|].
    intros k _. rewrite Rmult_comm, <- sumn_scal. apply sumn_ext. intros; lra. }
  assert (X : sumn N (fun j => r j * q j) = 0).
  { unfold q. rewrite (sumn_ext N _ (fun j => sumn m (fun i => (y i - y' i) * (A i j * r j)))).
    2:{ intros j _. rewrite <- sumn_scal. apply sumn_ext. intros; lra. }
    rewrite sumn_swap. apply sumn_0. intros i L. rewrite sumn_scal, O by auto. lra. }
  fold r. rewrite (sumn_ext N (fun j => (b j - sumn m (fun i => A i j * y' i)) * (b j - sumn m (fun i => A i j * y' i)))
     (fun j => r j * r j + (2 * (r j * q j) + q j * q j))) by (intros; rewrite E; lra).
  rewrite sumn_plus, sumn_plus, sumn_scal, X. assert (0 <= sumn N (fun j => q j * q j)) by (apply sumn_nonneg; intros; nra).
  change (sumn N (fun j => r j * r j) <= sumn N (fun j => r j * r j) + (2 * 0 + sumn N (fun j => q j * q j))). lra.
Qed.

Lemma mmt_wf m n (A : list (list R)) : wf m n A -> wf m m (mmt (S := Rn) A).
Proof.
  intros [L W]. split.
  - unfold mmt. rewrite map_length. auto.
  - intros r I. unfold mmt in I. apply in_map_iff in I as (x & <- & _). rewrite map_length. auto.
Qed.
Lemma mmt_ent m n (A : list (list R)) i k : wf m n A -> (i < m)%nat -> (k < m)%nat ->
  ent (mmt (S := Rn) A) i k = sumn n (fun j => ent A i j * ent A k j).
Proof.
  intros [L W] Hi Hk. unfold mmt, ent. rewrite (nth_map_lt _ _ _ []) by (cbn in *; lia). rewrite (nth_map_lt _ _ _ []) by (cbn in *; lia).
  assert (E1 : length (nth i A []) = n) by (apply W, nth_In; lia). assert (E2 : length (nth k A []) = n) by (apply W, nth_In; lia).
  etransitivity; [apply (vdot_R (nth i A []) (nth k A [])); lia|]. rewrite E1. reflexivity.
Qed.
(** [sol] solves the normal equations of A x = b in the transposed sense. *)
Lemma normal_list m N (A : list (list R)) (b sol : list R) : wf m N A -> length b = N -> length sol = m ->
  mvec (S := Rn) (mmt (S := Rn) A) sol = mvec (S := Rn) A b ->
  forall i, (i < m)%nat -> sumn m (fun k => sumn N (fun j => ent A i j * ent A k j) * sol.[k]) = sumn N (fun j => ent A i j * b.[j]).
Proof.
  intros W Lb Ls E i L. pose proof (f_equal (fun v : list R => v.[i]) E) as E'. cbn beta in E'.
  rewrite (mvec_nth m N A b i W Lb L) in E'. rewrite (mvec_nth m m _ sol i (mmt_wf _ _ _ W) Ls L) in E'.
  rewrite <- E'. apply sumn_ext. intros k Hk. rewrite (mmt_ent m N); auto.
Qed.

Lemma nth_firstn_lt {T} (l : list T) k i d : (i < k)%nat -> nth i (firstn k l) d = nth i l d.
Proof. revert k i. induction l; intros [|k] [|i] H; cbn; auto; try lia. apply IHl. lia. Qed.
Lemma nth_skipn' {T} (l : list T) k i d : nth i (skipn k l) d = nth (k + i) l d.
Proof. revert k. induction l; intros [|k]; cbn; auto. destruct i; auto. Qed.
Lemma c63_sqp : forall (solve : list (list R) -> list R -> list R) n me (g : list R) (A_e : list (list R)), wf me n A_e -> length g = n ->
  let y := estimate_sqp (S := Rn) solve g A_e in
  length y = me -> mvec (S := Rn) (mmt (S := Rn) A_e) y = mvec (S := Rn) A_e g ->
  forall y' : nat -> R,
  sumn n (fun j => (g.[j] - sumn me (fun i => ent A_e i j * (y : list R).[i])) * (g.[j] - sumn me (fun i => ent A_e i j * (y : list R).[i]))) <=
  sumn n (fun j => (g.[j] - sumn me (fun i => ent A_e i j * y' i)) * (g.[j] - sumn me (fun i => ent A_e i j * y' i))).
Proof.
  intros solve n me g A_e W Lg y Ly E y'. apply normal_least. apply normal_list; auto.
Qed.

Section Hat.
Variables (n me mi : nat) (d : data) (s : list R).
Hypothesis D : data_ok n me mi d.
Hypothesis Ls : length s = mi.
Let A := A_hat (S := Rn) (D_Ae d) (D_Ai d) s.

Lemma unit_row_length k i (v : R) : @length R (unit_row (S := Rn) k i v) = k.
Proof. unfold unit_row. rewrite map_length, seq_length. auto. Qed.
Lemma unit_row_nth k i (v : R) j : (j < k)%nat -> (unit_row (S := Rn) k i v : list R).[j] = if Nat.eqb j i then v else 0.
Proof. intros L. unfold unit_row. rewrite (nth_map_lt _ _ _ 0%nat) by (rewrite seq_length; auto). rewrite seq_nth by auto. reflexivity. Qed.

Let low := map (fun p : list R * (nat * R) => fst p ++ unit_row (S := Rn) (length s) (fst (snd p)) (- snd (snd p)))
             (combine (D_Ai d) (combine (seq 0 (length s)) s)).
Lemma hat_eq : A = map (fun r => r ++ repeat 0 (length s)) (D_Ae d) ++ low.
Proof. reflexivity. Qed.
Lemma low_length : length low = mi.
Proof. destruct D as (_ & _ & _ & [L _] & _). unfold low. rewrite map_length, !combine_length, seq_length. lia. Qed.
Lemma hat_wf : wf (me + mi) (n + mi) A.
Proof.
  pose proof low_length as LL. destruct D as (Hg & [Le We] & Hce & [Li Wi] & Hci). rewrite hat_eq. split.
  - rewrite app_length, map_length, LL, Le. auto.
  - intros r I. apply in_app_iff in I as [I|I].
    + apply in_map_iff in I as (x & <- & I). rewrite app_length, repeat_length, (We x I). lia.
    + unfold low in I. apply in_map_iff in I as ([x p] & <- & I). apply in_combine_l in I. cbn [fst]. rewrite app_length.
      rewrite (Wi x I). f_equal. etransitivity; [apply unit_row_length|auto].
Qed.
Lemma hat_ent_e i j : (i < me)%nat -> ent A i j = if Nat.ltb j n then ent (D_Ae d) i j else 0.
Proof.
  intros L. destruct D as (Hg & [Le We] & Hce & [Li Wi] & Hci). unfold ent. rewrite hat_eq.
  rewrite app_nth1 by (rewrite map_length; lia). rewrite (nth_map_lt _ _ _ []) by lia.
  assert (E : length (nth i (D_Ae d) []) = n) by (apply We, nth_In; lia).
  destruct (Nat.ltb j n) eqn:J; [apply Nat.ltb_lt in J; rewrite app_nth1 by lia; auto|apply Nat.ltb_ge in J].
  rewrite app_nth2 by lia. apply nth_repeat.
Qed.
Lemma hat_ent_i k j : (k < mi)%nat -> (j < n + mi)%nat -> ent A (me + k) j = if Nat.ltb j n then ent (D_Ai d) k j else if Nat.eqb (j - n) k then - s.[k] else 0.
Proof.
  intros L J. pose proof low_length as LL. destruct D as (Hg & [Le We] & Hce & [Li Wi] & Hci). unfold ent. rewrite hat_eq.
  rewrite app_nth2 by (rewrite map_length; lia). rewrite map_length, Le. replace (me + k - me)%nat with k by lia.
  unfold low. rewrite (nth_map_lt _ _ _ ([], (0%nat, 0))) by (rewrite !combine_length, seq_length; lia).
  rewrite combine_nth by (rewrite combine_length, seq_length; lia). rewrite combine_nth by (rewrite seq_length; lia).
  cbn [fst snd]. rewrite seq_nth by lia. cbn [Nat.add].
  assert (E : length (nth k (D_Ai d) []) = n) by (apply Wi, nth_In; lia).
  destruct (Nat.ltb j n) eqn:Jn; [apply Nat.ltb_lt in Jn; rewrite app_nth1 by lia; auto|apply Nat.ltb_ge in Jn].
  rewrite app_nth2 by lia. rewrite E. apply unit_row_nth. lia.
Qed.

Lemma hat_residual (mu : R) (x : nat -> R) :
  sumn (n + mi) (fun j => ((D_g d ++ repeat (- mu) mi).[j] - sumn (me + mi) (fun i => ent A i j * x i)) *
                          ((D_g d ++ repeat (- mu) mi).[j] - sumn (me + mi) (fun i => ent A i j * x i))) =
  sq_residual n me mi d (fun i => s.[i]) mu x (fun i => x (me + i)%nat).
Proof.
  destruct D as (Hg & [Le We] & Hce & [Li Wi] & Hci).
  unfold sq_residual. rewrite sumn_split. f_equal.
  - apply sumn_ext. intros j L. unfold stationarity. rewrite app_nth1 by lia. rewrite sumn_split.
    rewrite (sumn_ext me _ (fun i => ent (D_Ae d) i j * x i)).
    2:{ intros i Li'. rewrite hat_ent_e by auto. replace (Nat.ltb j n) with true by (symmetry; apply Nat.ltb_lt; auto). auto. }
    rewrite (sumn_ext mi _ (fun i => ent (D_Ai d) i j * x (me + i)%nat)).
    2:{ intros i Li'. rewrite hat_ent_i by lia. replace (Nat.ltb j n) with true by (symmetry; apply Nat.ltb_lt; auto). auto. }
    ring.
  - apply sumn_ext. intros l L. rewrite app_nth2 by lia. rewrite Hg. replace (n + l - n)%nat with l by lia.
    rewrite nth_repeat_lt by auto. rewrite sumn_split.
    rewrite (sumn_0 me) by (intros i Li'; rewrite hat_ent_e by auto; replace (Nat.ltb (n + l) n) with false by (symmetry; apply Nat.ltb_ge; lia); lra).
    rewrite (sumn_ext mi _ (fun i => if Nat.eqb l i then - s.[i] * x (me + i)%nat else 0)).
    2:{ intros i Li'. rewrite hat_ent_i by lia. replace (Nat.ltb (n + l) n) with false by (symmetry; apply Nat.ltb_ge; lia).
        replace (n + l - n)%nat with l by lia. destruct (Nat.eqb l i); lra. }
    assert (P : forall k f, (l < k)%nat -> sumn k (fun i => if Nat.eqb l i then f i else 0) = f l).
    { clear. induction k; intros f H; [lia|]. cbn. destruct (Nat.eqb l k) eqn:E.
      - apply Nat.eqb_eq in E. subst k. rewrite sumn_0; [lra|]. intros i Hi. replace (Nat.eqb l i) with false; auto. symmetry. apply Nat.eqb_neq. lia.
      - apply Nat.eqb_neq in E. rewrite IHk by lia. lra. }
    rewrite P by auto. ring.
Qed.
End Hat.

Lemma c63_ipm : forall (solve : list (list R) -> list R -> list R) n me mi (d : data) (s : list R) (mu : R), data_ok n me mi d -> length s = mi ->
  let A := A_hat (S := Rn) (D_Ae d) (D_Ai d) s in
  let sol := estimate_raw (S := Rn) solve (D_g d) (D_Ae d) (D_Ai d) s mu in
  length sol = (me + mi)%nat -> mvec (S := Rn) (mmt (S := Rn) A) sol = mvec (S := Rn) A (D_g d ++ repeat (- mu) mi) ->
  (forall y' z' : nat -> R,
    sq_residual n me mi d (fun i => s.[i]) mu (fun i => (sol : list R).[i]) (fun i => (sol : list R).[me + i]) <=
    sq_residual n me mi d (fun i => s.[i]) mu y' z') /\
  (0 < mu -> List.Forall (fun v => 0 < v) s ->
    exists z : list R, estimate_ipm (S := Rn) solve (D_g d) (D_Ae d) (D_Ai d) s mu = Ok (firstn me sol, z) /\ length z = mi /\
      forall i, (i < mi)%nat -> 0 < mu / (IZR (10 ^ 10) * s.[i]) <= z.[i] /\ z.[i] <= IZR (10 ^ 10) * mu / s.[i] /\
        (mu / (IZR (10 ^ 10) * s.[i]) <= (sol : list R).[me + i] <= IZR (10 ^ 10) * mu / s.[i] -> z.[i] = (sol : list R).[me + i])).
Proof.
  intros solve n me mi d s mu Hd Ls A sol Lsol E. split.
  - intros y' z'. pose (x' := fun i => if Nat.ltb i me then y' i else z' (i - me)%nat).
    assert (X : sq_residual n me mi d (fun i => s.[i]) mu y' z' = sq_residual n me mi d (fun i => s.[i]) mu x' (fun i => x' (me + i)%nat)).
    { unfold sq_residual, stationarity. 
      assert (X1 : forall i, (i < me)%nat -> x' i = y' i) by (intros i L; unfold x'; replace (Nat.ltb i me) with true; auto; symmetry; apply Nat.ltb_lt; auto).
      assert (X2 : forall i, x' (me + i)%nat = z' i).
      { intros i. unfold x'. replace (Nat.ltb (me + i) me) with false by (symmetry; apply Nat.ltb_ge; lia). f_equal. lia. }
      assert (X3 : forall j, sumn me (fun i => ent (D_Ae d) i j * x' i) = sumn me (fun i => ent (D_Ae d) i j * y' i)).
      { intros j. apply sumn_ext. intros. rewrite X1; auto. }
      assert (X4 : forall j, sumn mi (fun i => ent (D_Ai d) i j * x' (me + i)%nat) = sumn mi (fun i => ent (D_Ai d) i j * z' i)).
      { intros j. apply sumn_ext. intros. rewrite X2; auto. }
      f_equal; apply sumn_ext; intros; rewrite ?X3, ?X4, ?X2; auto. }
    rewrite X. rewrite <- !(hat_residual n me mi d s Hd Ls). apply normal_least.
    apply (normal_list (me + mi) (n + mi) A); auto.
    + apply hat_wf; auto.
    + destruct Hd as (Hg & _). rewrite app_length, repeat_length. lia.
  - intros M F. destruct Hd as (Hg & [Le We] & Hce & [Li Wi] & Hci).
    unfold estimate_ipm. fold sol.
    assert (Lz : @length R (firstn (length s) (skipn (length (D_Ae d)) sol)) = mi).
    { rewrite firstn_length, skipn_length. cbn in *. lia. }
    destruct (c63_clamp mu s (firstn (length s) (skipn (length (D_Ae d)) sol)) M F) as (z & Ez & Lz' & Hz). { congruence. }
    exists z. split.
    { refine (eq_trans (f_equal (fun o => obind o (fun z0 : list R => Ok (firstn (length (D_Ae d)) sol, z0))) Ez) _). cbn [obind]. rewrite Le. reflexivity. } split; [congruence|].
    intros i L. assert (N : forall i, (i < mi)%nat -> (firstn (length s) (skipn (length (D_Ae d)) sol) : list R).[i] = (sol : list R).[me + i]).
    { intros k Hk. rewrite nth_firstn_lt by lia. rewrite nth_skipn', Le. auto. }
    specialize (Hz i ltac:(lia)). rewrite N in Hz by auto. auto.
Qed.
(** The triplets of A_hat are sorted and are exactly its entries. *)
Lemma c63_triplets : forall (A_e A_i : csc Rn) (s : list R) n, csc_ok A_e -> csc_ok A_i -> length (c_cols A_e) = n -> length (c_cols A_i) = n ->
  exists t, A_hat_triplets (S := Rn) A_e A_i s = Ok t /\ ascending before t /\
    forall r c (v : R), In (r, c, v) t <->
      (exists r', r = r' /\ stored A_e r' c v) \/ (exists r', r = (c_rows A_e + r')%nat /\ stored A_i r' c v) \/
      (exists k x, nth_error s k = Some x /\ r = (c_rows A_e + k)%nat /\ c = (n + k)%nat /\ v = - x).
Proof.
  intros A_e A_i s n We Wi Le Li. unfold A_hat_triplets.
  destruct (c47 (S := Rn) [] 0 0 [A_e; A_i] n) as (o1 & E1 & A1 & M1); [discriminate|constructor; [exact We|constructor; [exact Wi|constructor]]|repeat constructor; auto|].
  rewrite E1. cbn [obind app].
  destruct (c47_diag (S := Rn) o1 (c_rows A_e) (length (c_cols A_i)) (map (s_opp Rn) s)) as (o2 & E2 & A2 & M2).
  rewrite E2. eexists. split; [reflexivity|].
  assert (N : forall i m r' c' (v : R), nth_error [A_e; A_i] i = Some m -> stored m r' c' v -> (c' < n)%nat).
  { intros i m r' c' v H (es & H1 & _). assert (length (c_cols m) = n).
    { destruct i as [|[|i]]; cbn in H; try (injection H as <-; auto). destruct i; discriminate. }
    rewrite <- H0. apply nth_error_Some. congruence. }
  split.
  - apply asc_app; auto. intros [[ra ca] va] [[rb cb] vb] I1 I2. apply M1 in I1 as (i & m & r' & c' & H1 & H2 & -> & ->).
    apply M2 in I2 as (k & H3 & -> & ->). unfold before. left. rewrite Li. pose proof (N _ _ _ _ _ H1 H2). lia.
  - intros r c v. rewrite in_app_iff, M1, M2. split.
    + intros [(i & m & r' & c' & H1 & H2 & -> & ->)|(k & H3 & -> & ->)].
      * destruct i as [|[|i]]; cbn in H1; [injection H1 as <-; left; exists r'; split; auto|injection H1 as <-; right; left; exists r'|destruct i; discriminate].
        split; auto. cbn. lia.
      * right; right. rewrite nth_error_map in H3. change (option_map Ropp (nth_error s k) = Some v) in H3. destruct (nth_error s k) as [x|] eqn:Ex; cbn in H3; [injection H3 as <-|discriminate H3].
        exists k, x. rewrite Li. auto.
    + intros [(r' & -> & H)|[(r' & -> & H)|(k & x & H1 & -> & -> & ->)]].
      * left. exists O, A_e, r', c. auto.
      * left. exists 1%nat, A_i, r', c. cbn [nth_error firstn map list_sum]. repeat split; auto. cbn. lia.
      * right. exists k. rewrite nth_error_map. split; [exact (f_equal (option_map Ropp) H1)|]. rewrite Li. auto.
Qed.
Lemma c63_ex : let d := mkData [1] [] [] [[1]] [0] in let solve := fun (_ : list (list R)) (_ : list R) => [1] in
  data_ok 1 0 1 d /\ length (estimate_raw (S := Rn) solve (D_g d) (D_Ae d) (D_Ai d) [1] 1) = (0 + 1)%nat /\
  mvec (S := Rn) (mmt (S := Rn) (A_hat (S := Rn) (D_Ae d) (D_Ai d) [1])) (estimate_raw (S := Rn) solve (D_g d) (D_Ae d) (D_Ai d) [1] 1) =
  mvec (S := Rn) (A_hat (S := Rn) (D_Ae d) (D_Ai d) [1]) (D_g d ++ repeat (- (1)) 1).
Proof.
  cbn zeta. split; [|split; [reflexivity|]].
  - unfold data_ok, wf. cbn. repeat split; auto; intros r H; [destruct H|destruct H as [<-|[]]; reflexivity].
  - cbn. f_equal. match goal with |- @eq _ ?p ?q => change (@eq R p q) end. ring.
Qed.
