(** C92-C95: the Python bindings. *)
From Coq Require Import ZArith List Lia Bool Permutation.
From Verif Require Import Base SliceModel SliceSpec MatrixModel MatrixSpec PyModel PySpec PyProofs PyUse PyEx.
Import ListNotations.
Open Scope Z_scope.

(** ** C92: x[i, j] *)

(** x[i, j] with ints, negative ones from the end: the entry that subscripting step by step leads to. *)
Theorem C92_element : forall (E : Type) (m : vmat E) r c F x i j li f lj g, represents m r c F -> moderate r c -> held m x ->
  selects (o_rows m x) (IInt i) li f -> selects (o_cols m x) (IInt j) lj g ->
  exists p q, entry m x (f 0) (g 0) p q /\ getitem m x (IInt i) (IInt j) = Ok (RVar (F p q)).
Proof. intros E m r c F x i j li f lj g HR HM. exact (c92_element m r c F HR HM x i j li f lj g). Qed.
Print Assumptions C92_element.

(** And there is only one such entry. *)
Theorem C92_entry : forall (E : Type) (m : vmat E) r c F x a b p q p' q', represents m r c F -> moderate r c ->
  entry m x a b p q -> entry m x a b p' q' -> p' = p /\ q' = q.
Proof. intros E m r c F x a b p q p' q' HR HM. exact (c92_entry_fun m r c F HR HM x a b p q p' q'). Qed.
Print Assumptions C92_entry.

(** x[I, J] with a slice is a block of the selected size, and its [a, b] is x[I_a, J_b].  Missing: M[-k, start:stop:step] of a
    VariableMatrix, blocks without rows or columns, steps longer than the dimension; see the refutations. *)
Theorem C92_block_partial : forall (E : Type) (m : vmat E) r c F x i j li f lj g, represents m r c F -> moderate r c -> held m x ->
  1 <= o_rows m x -> 1 <= o_cols m x ->
  selects (o_rows m x) i li f -> selects (o_cols m x) j lj g -> modest (o_rows m x) i -> modest (o_cols m x) j ->
  ~ odd_row x i j -> is_slice i \/ is_slice j ->
  exists v, getitem m x i j = Ok (RBlock v) /\ o_rows m (OBlock v) = li /\ o_cols m (OBlock v) = lj /\
    forall a b, inr li lj a b -> exists e, getitem m (OBlock v) (IInt a) (IInt b) = Ok (RVar e) /\
                                           getitem m x (IInt (f a)) (IInt (g b)) = Ok (RVar e).
Proof. intros E m r c F x i j li f lj g HR HM. exact (c92_block m r c F HR HM x i j li f lj g). Qed.
Print Assumptions C92_block_partial.

(** Out of range with two ints: an exception. *)
Theorem C92_refused : forall (E : Type) (m : vmat E) r c F x i j, represents m r c F -> moderate r c -> held m x ->
  1 <= o_rows m x -> 1 <= o_cols m x -> is_int i -> is_int j ->
  refuses (o_rows m x) (IInt i) \/ refuses (o_cols m x) (IInt j) -> getitem m x (IInt i) (IInt j) = AssertFail.
Proof. intros E m r c F x i j HR HM. exact (c92_refused m r c F HR HM x i j). Qed.
Print Assumptions C92_refused.

(** A step of zero: an exception. *)
Theorem C92_step : forall (E : Type) (m : vmat E) r c F x i j, represents m r c F -> moderate r c ->
  refuses 1 i /\ is_slice i \/ refuses 1 j /\ is_slice j /\ (forall k, i = IInt k -> - 268435456 <= k <= 268435456) -> held m x ->
  getitem m x i j = AssertFail.
Proof. intros E m r c F x i j HR HM. exact (c92_step m r c F HR HM x i j). Qed.
Print Assumptions C92_step.

(** M[-k, start:stop:step] never gives readable elements. *)
Theorem C92_negative_row : forall (E : Type) (m : vmat E) r c F i a b s lj g, represents m r c F -> moderate r c ->
  - r <= i < 0 -> selects c (ISlice a b s) lj g -> modest c (ISlice a b s) ->
  exists v, getitem m OMat (IInt i) (ISlice a b s) = Ok (RBlock v) /\ o_rows m (OBlock v) = 1 /\ o_cols m (OBlock v) = lj /\
    forall p q, is_int p -> is_int q -> getitem m (OBlock v) (IInt p) (IInt q) = AssertFail.
Proof. intros E m r c F i a b s lj g HR HM. exact (c92_odd m r c F HR HM i a b s lj g). Qed.
Print Assumptions C92_negative_row.

(** M[-1, :][0, 0] raises, though M[-1, 0] does not. *)
Theorem C92_negative_row_refuted : exists (m : vmat Z) r c F i j li f lj g v e, represents m r c F /\ moderate r c /\
  selects (o_rows m OMat) i li f /\ selects (o_cols m OMat) j lj g /\ modest (o_rows m OMat) i /\ modest (o_cols m OMat) j /\ inr li lj 0 0 /\
  getitem m OMat i j = Ok (RBlock v) /\ getitem m OMat (IInt (f 0)) (IInt (g 0)) = Ok (RVar e) /\
  getitem m (OBlock v) (IInt 0) (IInt 0) = AssertFail.
Proof. exact row_refuted. Qed.
Print Assumptions C92_negative_row_refuted.

(** M[5, :] of a matrix with three rows does not raise. *)
Theorem C92_out_of_range_refuted : exists (m : vmat Z) r c F i j v, represents m r c F /\ moderate r c /\
  refuses (o_rows m OMat) i /\ getitem m OMat i j = Ok (RBlock v).
Proof. exact lax_refuted. Qed.
Print Assumptions C92_out_of_range_refuted.

(** B = M[:2, ::-1]; B[2, :1] is an entry of M that is not in B. *)
Theorem C92_outside_refuted : exists (m : vmat Z) r c F x i j v e, represents m r c F /\ moderate r c /\ held m x /\ refuses (o_rows m x) i /\
  getitem m x i j = Ok (RBlock v) /\ getitem m (OBlock v) (IInt 0) (IInt 0) = Ok (RVar e) /\
  forall a b, inr (o_rows m x) (o_cols m x) a b -> getitem m x (IInt a) (IInt b) <> Ok (RVar e).
Proof. exact outside_refuted. Qed.
Print Assumptions C92_outside_refuted.

(** B = M[::2, :]; B[::1073741824, :] overflows an int. *)
Theorem C92_overflow_refuted : exists (m : vmat Z) r c F x i j li f lj g, represents m r c F /\ moderate r c /\ held m x /\
  selects (o_rows m x) i li f /\ selects (o_cols m x) j lj g /\ getitem m x i j = UB.
Proof. exact overflow_refuted. Qed.
Print Assumptions C92_overflow_refuted.

(** M = 0 1 2 / 3 4 5 / 6 7 8, B = M[:2, ::-1]: B[-1, 0] = 5; B[0, :] is M[0, ::-1]; B[2, 0] and B[::0, 0] raise. *)
Example C92_case :
  getitem M (OBlock B) (IInt (-1)) (IInt 0) = Ok (RVar 5) /\
  (exists p q, entry M (OBlock B) 1 0 p q /\ getitem M (OBlock B) (IInt (-1)) (IInt 0) = Ok (RVar (3 * p + q))) /\
  (exists v, getitem M (OBlock B) (IInt 0) all = Ok (RBlock v) /\ o_rows M (OBlock v) = 1 /\ o_cols M (OBlock v) = 3 /\
     getitem M (OBlock v) (IInt 0) (IInt 0) = Ok (RVar 2)) /\
  getitem M (OBlock B) (IInt 2) (IInt 0) = AssertFail /\
  getitem M (OBlock B) (ISlice None None (Some 0)) (IInt 0) = AssertFail.
Proof.
  split; [reflexivity|]. split.
  { exact (C92_element Z M 3 3 _ (OBlock B) (-1) 0 1 _ 1 _ M_rep M_mod B_held (sel_int 2 (-1) ltac:(lia)) (sel_int 3 0 ltac:(lia))). }
  split.
  { destruct (C92_block_partial Z M 3 3 _ (OBlock B) (IInt 0) all 1 _ 3 _ M_rep M_mod B_held ltac:(cbn; lia) ltac:(cbn; lia)
                (sel_int 2 0 ltac:(lia)) (sel_all 3 ltac:(unfold LIM; lia)) I ltac:(cbn; lia) ltac:(intros []) (or_intror I)) as (v & G & D1 & D2 & H).
    exists v. split; [exact G|]. split; [exact D1|]. split; [exact D2|]. destruct (H 0 0 ltac:(split; lia)) as (e & H1 & H2). rewrite H1, <- H2. reflexivity. }
  split.
  - apply (C92_refused Z M 3 3 _ (OBlock B) 2 0 M_rep M_mod B_held); try (cbn; lia); try (unfold is_int, INT_MIN, INT_MAX; lia).
  - apply (C92_step Z M 3 3 _ (OBlock B) _ _ M_rep M_mod); [left; split; [reflexivity|exact I]|exact B_held].
Qed.

(** ** C93: x[i, j] = value *)

(** From a matrix or array that is not part of the same matrix: the selected entries get the values, no others change. *)
Theorem C93_set_partial : forall (E : Type) (m : vmat E) r c F x i j li f lj g a G, represents m r c F -> moderate r c -> held m x ->
  1 <= o_rows m x -> 1 <= o_cols m x ->
  selects (o_rows m x) i li f -> selects (o_cols m x) j lj g -> modest (o_rows m x) i -> modest (o_cols m x) j ->
  denotes a li lj G ->
  exists m', setitem m x i j (VMat (fun _ => a)) = Ok m' /\ written m m' x li lj f g G.
Proof. intros E m r c F x i j li f lj g a G HR HM. exact (c93_set m r c F HR HM x i j li f lj g a G). Qed.
Print Assumptions C93_set_partial.

(** From a Variable or number, for one entry. *)
Theorem C93_scalar : forall (E : Type) (m : vmat E) r c F x i j f g e, represents m r c F -> moderate r c -> held m x ->
  1 <= o_rows m x -> 1 <= o_cols m x ->
  selects (o_rows m x) i 1 f -> selects (o_cols m x) j 1 g -> modest (o_rows m x) i -> modest (o_cols m x) j ->
  exists m', setitem m x i j (VScalar e) = Ok m' /\ written m m' x 1 1 f g (fun _ _ => e).
Proof. intros E m r c F x i j f g e HR HM. exact (c93_scalar m r c F HR HM x i j f g e). Qed.
Print Assumptions C93_scalar.

(** A value of another shape, or a number for more than one entry: an exception. *)
Theorem C93_shape : forall (E : Type) (m : vmat E) r c F x i j li f lj g val, represents m r c F -> moderate r c -> held m x ->
  1 <= o_rows m x -> 1 <= o_cols m x ->
  selects (o_rows m x) i li f -> selects (o_cols m x) j lj g -> modest (o_rows m x) i -> modest (o_cols m x) j ->
  (match val with VMat src => ~ (ml_rows (src m) = li /\ ml_cols (src m) = lj) | VScalar _ => ~ (li = 1 /\ lj = 1) end) ->
  setitem m x i j val = AssertFail.
Proof. intros E m r c F x i j li f lj g val HR HM. exact (c93_shape m r c F HR HM x i j li f lj g val). Qed.
Print Assumptions C93_shape.

(** From a block of the same matrix no entry of which is read after it was written. *)
Theorem C93_same_partial : forall (E : Type) (m : vmat E) r c F x i j li f lj g w, represents m r c F -> moderate r c -> held m x ->
  1 <= o_rows m x -> 1 <= o_cols m x ->
  selects (o_rows m x) i li f -> selects (o_cols m x) j lj g -> modest (o_rows m x) i -> modest (o_cols m x) j ->
  held m (OBlock w) -> o_rows m (OBlock w) = li -> o_cols m (OBlock w) = lj ->
  (forall a b a' b' p q, inr li lj a b -> inr li lj a' b' -> entry m x (f a) (g b) p q -> entry m (OBlock w) a' b' p q ->
     a' < a \/ (a' = a /\ b' <= b)) ->
  exists m' G, setitem m x i j (VMat (fun m => like_view m w)) = Ok m' /\ written m m' x li lj f g G /\
    forall a b, inr li lj a b -> getitem m (OBlock w) (IInt a) (IInt b) = Ok (RVar (G a b)).
Proof. intros E m r c F x i j li f lj g w HR HM. exact (c93_same m r c F HR HM x i j li f lj g w). Qed.
Print Assumptions C93_same_partial.

(** M[1:3, :] = M[0:2, :] copies the first row twice. *)
Theorem C93_overlap_refuted : exists (m : vmat Z) r c F w i j li f lj g m' a b e e', represents m r c F /\ moderate r c /\ held m (OBlock w) /\
  selects (o_rows m OMat) i li f /\ selects (o_cols m OMat) j lj g /\ modest (o_rows m OMat) i /\ modest (o_cols m OMat) j /\
  o_rows m (OBlock w) = li /\ o_cols m (OBlock w) = lj /\ inr li lj a b /\
  setitem m OMat i j (VMat (fun m => like_view m w)) = Ok m' /\
  getitem m (OBlock w) (IInt a) (IInt b) = Ok (RVar e) /\ getitem m' OMat (IInt (f a)) (IInt (g b)) = Ok (RVar e') /\ e <> e'.
Proof. exact overlap_refuted. Qed.
Print Assumptions C93_overlap_refuted.

(** B = M[:2, ::-1]; B[2, :1] = 9 changes an entry of M that is not in B. *)
Theorem C93_outside_refuted : exists (m : vmat Z) r c F x i j e m' p q, represents m r c F /\ moderate r c /\ held m x /\ refuses (o_rows m x) i /\
  setitem m x i j (VScalar e) = Ok m' /\ (forall a b, ~ entry m x a b p q) /\
  getitem m OMat (IInt p) (IInt q) <> getitem m' OMat (IInt p) (IInt q).
Proof. exact outside_write_refuted. Qed.
Print Assumptions C93_outside_refuted.

(** B[-1, 0] = 9 with B = M[:2, ::-1]: now M[1, 2] = 9 and M[0, 0] is still 0.  B[0, :] = 9 raises. *)
Example C93_case :
  (exists m', setitem M (OBlock B) (IInt (-1)) (IInt 0) (VScalar 9) = Ok m' /\
     getitem m' OMat (IInt 0) (IInt 0) = Ok (RVar 0) /\ getitem m' (OBlock B) (IInt 1) (IInt 0) = Ok (RVar 9)) /\
  setitem M (OBlock B) (IInt 0) all (VScalar 9) = AssertFail.
Proof.
  split.
  - destruct (C93_scalar Z M 3 3 _ (OBlock B) (IInt (-1)) (IInt 0) _ _ 9 M_rep M_mod B_held ltac:(cbn; lia) ltac:(cbn; lia)
                (sel_int 2 (-1) ltac:(lia)) (sel_int 3 0 ltac:(lia)) I I) as (m' & S & W1 & W2 & W3 & W4).
    exists m'. split; [exact S|]. split; [|exact (W3 0 0 ltac:(split; lia))].
    rewrite W4; [reflexivity|split; cbn; lia|]. intros a b J H.
    destruct (C92_entry Z M 3 3 _ _ _ _ _ _ _ _ M_rep M_mod H (B_entry 1 0 ltac:(split; lia))) as [K _]. discriminate K.
  - apply (C93_shape Z M 3 3 _ (OBlock B) (IInt 0) all 1 _ 3 _ (VScalar 9) M_rep M_mod B_held ltac:(cbn; lia) ltac:(cbn; lia)
             (sel_int 2 0 ltac:(lia)) (sel_all 3 ltac:(unfold LIM; lia)) I ltac:(cbn; lia)). lia.
Qed.

(** ** C94: iteration *)

(** for e in x visits x[0, 0], x[0, 1], ...; the k-th is x[k], and x[k - n] with n elements. *)
Theorem C94_iteration : forall (E : Type) (m : vmat E) r c F x, represents m r c F -> moderate r c -> held m x ->
  exists l, py_iter m x = Ok l /\ Z.of_nat (length l) = o_rows m x * o_cols m x /\
    forall a b, inr (o_rows m x) (o_cols m x) a b -> exists e,
      nth_error l (Z.to_nat (a * o_cols m x + b)) = Some (Some e) /\ getitem m x (IInt a) (IInt b) = Ok (RVar e) /\
      getitem1 m x (a * o_cols m x + b) = Ok e /\ getitem1 m x (a * o_cols m x + b - o_rows m x * o_cols m x) = Ok e.
Proof. intros E m r c F x HR HM. exact (c94_iter m r c F HR HM x). Qed.
Print Assumptions C94_iteration.

(** But len(x) is not the number of elements visited. *)
Theorem C94_len_refuted : exists (m : vmat Z) r c F l, represents m r c F /\ moderate r c /\ py_iter m OMat = Ok l /\ Z.of_nat (length l) <> py_len m OMat.
Proof. exact len_refuted. Qed.
Print Assumptions C94_len_refuted.

(** list(M[:2, ::-1]) = [2, 1, 0, 5, 4, 3]. *)
Example C94_case : py_iter M (OBlock B) = Ok (map Some [2; 1; 0; 5; 4; 3]) /\
  exists l, py_iter M (OBlock B) = Ok l /\ Z.of_nat (length l) = 6.
Proof.
  split; [reflexivity|]. destruct (C94_iteration Z M 3 3 _ (OBlock B) M_rep M_mod B_held) as (l & H1 & H2 & _). exists l. split; [exact H1|exact H2].
Qed.

(** ** C95: the keyword arguments of solve() *)

(** Each one given, once, is the option solved with; the others are the defaults. *)
Theorem C95_used : forall (obj D A : Type) (to_double : obj -> option D) to_i to_bool d kvs (solve : kwopts -> outcome A),
  NoDup (map fst kvs) -> Forall (usable to_double to_i to_bool) kvs ->
  exists o, solve_kwargs to_double to_i to_bool d kvs solve = solve o /\
    gives kvs KTolerance to_double (k_tol d) (k_tol o) /\ gives kvs KMaxIterations to_i (k_iter d) (k_iter o) /\
    gives kvs KTimeout to_double (k_timeout d) (k_timeout o) /\ gives kvs KFeasibleIpm to_bool (k_feas d) (k_feas o) /\
    gives kvs KDiagnostics to_bool (k_diag d) (k_diag o) /\ gives kvs KSpy to_bool (k_spy d) (k_spy o).
Proof. intros obj D A to_double to_i to_bool d kvs solve. exact (c95_used to_double to_i to_bool d kvs solve). Qed.
Print Assumptions C95_used.

(** An unknown one, or one with an unusable value, raises and nothing is solved. *)
Theorem C95_refused : forall (obj D A : Type) (to_double : obj -> option D) to_i to_bool d kvs (solve : kwopts -> outcome A),
  ~ Forall (usable to_double to_i to_bool) kvs -> solve_kwargs to_double to_i to_bool d kvs solve = AssertFail.
Proof. intros obj D A to_double to_i to_bool d kvs solve. exact (c95_refused to_double to_i to_bool d kvs solve). Qed.
Print Assumptions C95_refused.

(** Their order does not matter. *)
Theorem C95_order : forall (obj D A : Type) (to_double : obj -> option D) to_i to_bool d kvs kvs' (solve : kwopts -> outcome A),
  NoDup (map fst kvs) -> Permutation kvs kvs' ->
  solve_kwargs to_double to_i to_bool d kvs solve = solve_kwargs to_double to_i to_bool d kvs' solve.
Proof. intros obj D A to_double to_i to_bool d kvs kvs' solve. exact (c95_order to_double to_i to_bool d kvs kvs' solve). Qed.
Print Assumptions C95_order.

(** solve(spy=1, max_iterations=7) with objects that are ints; bools are 0 and 1.  solve(spy=2) raises. *)
Example C95_case :
  let b z := if z =? 0 then Some false else if z =? 1 then Some true else None in
  let d := mkKw 8 5000 100 false false false in
  solve_kwargs Some Some b d [(KSpy, 1); (KMaxIterations, 7)] Ok = Ok (mkKw 8 7 100 false false true) /\
  solve_kwargs Some Some b d [(KMaxIterations, 7); (KSpy, 1)] Ok = solve_kwargs Some Some b d [(KSpy, 1); (KMaxIterations, 7)] Ok /\
  solve_kwargs Some Some b d [(KSpy, 2)] Ok = AssertFail.
Proof.
  intros b d. split; [reflexivity|]. split.
  - apply (C95_order Z Z kwopts Some Some b d); [repeat constructor; cbn; intuition discriminate|apply perm_swap].
  - apply (C95_refused Z Z kwopts Some Some b d). intros H. inversion H as [|? ? U _]; subst. apply U. reflexivity.
Qed.
