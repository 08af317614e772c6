(** Properties C03 - C08 and C10. *)
From Coq Require Import ZArith List Lia Bool Reals Lra.
From Verif Require Import Base SliceModel SliceSpec SliceProofs Loops MatrixModel MatrixSpec MatrixProofs
  MatrixProofs2 MatrixProofs3.
Import ListNotations.
Open Scope Z_scope.

(** C03 (part): whenever a chain m[rs1,cs1][rs2,cs2]... of any depth is evaluated without undefined
    behaviour, the view's (i,j) element is the matrix element selected by the composition of the
    Python slices, in each dimension, its dimensions are the Python lengths, and it is in range.
    Missing for the full claim: int overflow while composing (see the refutation below). *)
Theorem C03_slice_chain_partial rows cols first l v :
  0 <= rows <= INT_MAX -> 0 <= cols <= INT_MAX ->
  (forall p, In p (first :: l) -> pyslice_int (fst p) /\ pyslice_int (snd p)) ->
  chain rows cols first l = Ok v ->
  exists rsel csel,
    py_chain rows (map fst (first :: l)) (v_rl v) rsel /\
    py_chain cols (map snd (first :: l)) (v_cl v) csel /\
    forall i j r c, view_pos v i j = Ok (r, c) <-> (rsel i r /\ csel j c /\ inr rows cols r c).
Proof. exact (chain_addresses rows cols first l v). Qed.
Print Assumptions C03_slice_chain_partial.

(** Composing is defined when the outer view's ends and the product of the steps fit in an int. *)
Theorem C03_slice_defined_partial rows cols v rs cs :
  0 <= rows <= INT_MAX -> 0 <= cols <= INT_MAX -> user_view rows cols v ->
  ends_ok (v_rs v) (v_rl v) -> ends_ok (v_cs v) (v_cl v) ->
  pyslice_int rs -> pyslice_int cs ->
  Z.abs (py_s rs * sl_step (v_rs v)) <= INT_MAX -> Z.abs (py_s cs * sl_step (v_cs v)) <= INT_MAX ->
  exists sl1 sl2 v', mk rs = Ok sl1 /\ mk cs = Ok sl2 /\ view_slice v sl1 sl2 = Ok v'.
Proof.
  exact (fun Hr Hc U => view_slice_defined rows cols v rs cs Hr Hc (user_view_in rows cols v Hr Hc U)).
Qed.
Print Assumptions C03_slice_defined_partial.

(** Every element of every view reachable by slicing and blocks, at any depth, lies in the matrix. *)
Theorem C03_view_never_leaves_matrix rows cols v i j :
  0 <= rows <= INT_MAX -> 0 <= cols <= INT_MAX -> user_view rows cols v -> inr (v_rl v) (v_cl v) i j ->
  exists r c, view_pos v i j = Ok (r, c) /\ inr rows cols r c.
Proof. exact (user_view_pos rows cols v i j). Qed.
Print Assumptions C03_view_never_leaves_matrix.

Definition py_all := mkPy None None 1.
Example C03_example :
  exists v, chain 10 4 (mkPy (Some 1) None 2, py_all) [(mkPy None None (-2), mkPy (Some 1) (Some 3) 1)] = Ok v /\
    v_rl v = 3 /\ v_cl v = 2 /\ view_pos v 1 0 = Ok (5, 1).
Proof. eexists. split; [vm_compute; reflexivity|]. vm_compute. auto. Qed.

(** C03 (full claim is false): slicing m[1::INT_MAX][0:1] overflows an int although Python selects
    element 1. *)
Theorem C03_slice_chain_refuted :
  exists rows cols first l,
    0 <= rows <= INT_MAX /\ 0 <= cols <= INT_MAX /\
    (forall p, In p (first :: l) -> pyslice_int (fst p) /\ pyslice_int (snd p)) /\
    chain rows cols first l = UB.
Proof.
  exists 5, 1, (mkPy (Some 1) None INT_MAX, py_all), [(mkPy (Some 0) (Some 1) 1, py_all)].
  split; [unfold INT_MAX; lia|]. split; [unfold INT_MAX; lia|]. split; [|vm_compute; reflexivity].
  intros p [<-|[<-|[]]]; unfold pyslice_int, is_int_opt, is_int, INT_MIN, INT_MAX; cbn; lia.
Qed.
Print Assumptions C03_slice_chain_refuted.

(** C04: nested block requests of any depth inside their parents address exactly the shifted
    rectangle of the matrix. *)
Theorem C04_nested_blocks rows cols b l :
  0 <= rows <= INT_MAX -> 0 <= cols <= INT_MAX -> path_in rows cols (b :: l) ->
  exists v, nested_block rows cols b l = Ok v /\
    view_addresses v (b_h (last l b)) (b_w (last l b))
      (fun i => path_r (b :: l) + i) (fun j => path_c (b :: l) + j).
Proof. exact (nested_block_addresses rows cols b l). Qed.
Print Assumptions C04_nested_blocks.

Example C04_example : path_in 6 5 [mkRect 1 0 4 5; mkRect 2 3 2 2] /\
  exists v, nested_block 6 5 (mkRect 1 0 4 5) [mkRect 2 3 2 2] = Ok v /\ view_pos v 1 1 = Ok (4, 4).
Proof.
  split; [cbn; unfold rect_in; cbn; lia|]. eexists. split; [vm_compute; reflexivity|reflexivity].
Qed.

(** A block of an arbitrary view (whose ends fit in an int) is the corresponding rectangle of it. *)
Theorem C04_block_of_view rows cols v r c h w :
  0 <= rows <= INT_MAX -> 0 <= cols <= INT_MAX -> user_view rows cols v ->
  ends_ok (v_rs v) (v_rl v) -> ends_ok (v_cs v) (v_cl v) ->
  0 <= r -> 0 <= c -> 0 <= h -> 0 <= w -> r + h <= v_rl v -> c + w <= v_cl v ->
  exists v', view_block v r c h w = Ok v' /\ v_rl v' = h /\ v_cl v' = w /\
    forall i j, inr h w i j -> exists p, view_pos v' i j = Ok p /\ view_pos v (r + i) (c + j) = Ok p.
Proof.
  exact (fun Hr Hc U E1 E2 H1 H2 H3 H4 H5 H6 =>
    let V := user_view_in rows cols v Hr Hc U in
    match view_block_ok rows cols v r c h w Hr Hc V E1 E2 H1 H2 H3 H4 H5 H6 with
    | ex_intro _ v' (conj A (conj B (conj L1 (conj L2 D)))) =>
        ex_intro _ v' (conj A (conj L1 (conj L2 (fun i j Hij =>
          ex_intro _ _ (conj (D i j Hij)
            (proj1 (view_pos_ok v rows cols (r + i) (c + j) V (proj2 Hr) (proj2 Hc)
              ltac:(unfold inr in *; lia))))))))
    end).
Qed.
Print Assumptions C04_block_of_view.

(** Requests outside the parent are rejected by an assertion. *)
Theorem C04_block_rejects rows cols r c h w :
  ~ (0 <= r <= rows /\ 0 <= c <= cols /\ 0 <= h <= rows - r /\ 0 <= w <= cols - c) ->
  mat_block rows cols r c h w = AssertFail /\
  forall v, v_rl v = rows -> v_cl v = cols -> view_block v r c h w = AssertFail.
Proof.
  exact (fun H => conj (mat_block_reject rows cols r c h w H)
    (fun v E1 E2 => view_block_reject v r c h w (eq_ind_r (fun x => ~ (0 <= r <= x /\ _ /\ 0 <= h <= x - r /\ _))
      (eq_ind_r (fun x => ~ (_ /\ 0 <= c <= x /\ _ /\ 0 <= w <= x - c)) H E2) E1))).
Qed.
Print Assumptions C04_block_rejects.

(** segment, row and col are the corresponding blocks. *)
Theorem C04_segment_row_col rows cols :
  0 <= rows <= INT_MAX -> 0 <= cols <= INT_MAX ->
  (forall o n, cols = 1 -> 0 <= o < rows -> 0 <= n <= rows - o ->
     exists v, mat_segment rows cols o n = Ok v /\ view_addresses v n 1 (fun i => o + i) (fun j => j)) /\
  (forall r, 0 <= r < rows -> exists v, mat_row rows cols r = Ok v /\ view_addresses v 1 cols (fun i => r + i) (fun j => j)) /\
  (forall c, 0 <= c < cols -> exists v, mat_col rows cols c = Ok v /\ view_addresses v rows 1 (fun i => i) (fun j => c + j)) /\
  (forall o n, ~ (cols = 1 /\ 0 <= o < rows /\ 0 <= n <= rows - o) -> mat_segment rows cols o n = AssertFail) /\
  (forall r, ~ (0 <= r < rows) -> mat_row rows cols r = AssertFail) /\
  (forall c, ~ (0 <= c < cols) -> mat_col rows cols c = AssertFail).
Proof. exact (segment_row_col rows cols). Qed.
Print Assumptions C04_segment_row_col.

(** The same of a view, in the view's own rows and columns. *)
Theorem C04_segment_row_col_of_view rows cols v :
  0 <= rows <= INT_MAX -> 0 <= cols <= INT_MAX -> user_view rows cols v -> ends_ok (v_rs v) (v_rl v) -> ends_ok (v_cs v) (v_cl v) ->
  let is_part r c h w v' := v_rl v' = h /\ v_cl v' = w /\
    forall i j, inr h w i j -> exists p, view_pos v' i j = Ok p /\ view_pos v (r + i) (c + j) = Ok p in
  (forall o n, v_cl v = 1 -> 0 <= o < v_rl v -> 0 <= n <= v_rl v - o -> exists v', view_segment v o n = Ok v' /\ is_part o 0 n 1 v') /\
  (forall r, 0 <= r < v_rl v -> exists v', view_row v r = Ok v' /\ is_part r 0 1 (v_cl v) v') /\
  (forall c, 0 <= c < v_cl v -> exists v', view_col v c = Ok v' /\ is_part 0 c (v_rl v) 1 v') /\
  (forall o n, ~ (v_cl v = 1 /\ 0 <= o < v_rl v /\ 0 <= n <= v_rl v - o) -> view_segment v o n = AssertFail) /\
  (forall r, ~ (0 <= r < v_rl v) -> view_row v r = AssertFail) /\
  (forall c, ~ (0 <= c < v_cl v) -> view_col v c = AssertFail).
Proof. exact (segment_row_col_of_view rows cols v). Qed.
Print Assumptions C04_segment_row_col_of_view.
(** Every second row of a 6 x 5 matrix. *)
Example C04_view_example : let v := mkView (mkSlice 0 6 2) 3 (mkSlice 0 5 1) 5 in
  mat_slice 6 5 (mkSlice 0 6 2) (mkSlice 0 5 1) = Ok v /\ user_view 6 5 v /\ ends_ok (v_rs v) (v_rl v) /\ ends_ok (v_cs v) (v_cl v) /\
  (exists v', view_row v 2 = Ok v' /\ view_pos v' 0 3 = Ok (4, 3)).
Proof. exact view_example. Qed.

(** C05 (part): assigning through any view, from any source that does not depend on the matrix, or
    from a view of the same matrix none of whose elements is overwritten before it is read, writes
    exactly the viewed elements with the old source elements.
    Missing: overlapping source views (refuted below). *)
Theorem C05_view_assign_partial {E} (m : vmat E) r c v src (F G : Z -> Z -> E) :
  represents m r c G -> user_view r c v ->
  ((exists a, src = (fun _ => a) /\ denotes a (v_rl v) (v_cl v) F) \/
   (exists w, src = (fun m => like_view m w) /\ user_view r c w /\ v_rl w = v_rl v /\ v_cl w = v_cl v /\
      (forall i j, inr (v_rl v) (v_cl v) i j -> view_get m w i j = Ok (F i j)) /\
      (forall a b i j p, (a < i \/ (a = i /\ b < j)) -> view_pos v a b = Ok p -> view_pos w i j = Ok p -> False))) ->
  exists m', view_assign m v src = Ok m' /\ m_rows m' = r /\ m_cols m' = c /\
    (forall i j p q, inr (v_rl v) (v_cl v) i j -> view_pos v i j = Ok (p, q) -> mat_get m' p q = Ok (F i j)) /\
    (forall p q, inr r c p q -> (forall i j, view_pos v i j <> Ok (p, q)) -> mat_get m' p q = mat_get m p q).
Proof. exact (assign_to_view m r c v src F G). Qed.
Print Assumptions C05_view_assign_partial.

Definition col3 : vmat Z := mkMat 3 1 [Some 1; Some 2; Some 3].
Example C05_example : represents col3 3 1 (fun i _ => i + 1) /\
  exists v, mat_block 3 1 0 0 2 1 = Ok v /\ user_view 3 1 v /\
  exists w, mat_block 3 1 1 0 2 1 = Ok w /\
  exists m', view_assign col3 v (fun m => like_view m w) = Ok m' /\ m_data m' = [Some 2; Some 3; Some 3].
Proof.
  split.
  { repeat split; cbn; unfold INT_MAX; try lia. intros i j [Hi Hj].
    assert (j = 0) by lia. subst. assert (i = 0 \/ i = 1 \/ i = 2) as [-> | [-> | ->]] by lia; reflexivity. }
  eexists. split; [vm_compute; reflexivity|]. split; [apply (uv_block 3 1 0 0 2 1); vm_compute; reflexivity|].
  eexists. split; [vm_compute; reflexivity|]. eexists. split; vm_compute; reflexivity.
Qed.

(** C05 (full claim is false): x.segment(1, 2) = x.segment(0, 2) on (1,2,3) gives (1,1,1), not (1,1,2). *)
Theorem C05_view_assign_refuted :
  exists (m m' : vmat Z) v w F,
    represents m 3 1 F /\ user_view 3 1 v /\ user_view 3 1 w /\ v_rl v = v_rl w /\ v_cl v = v_cl w /\
    view_assign m v (fun m => like_view m w) = Ok m' /\
    exists i j p q, view_pos v i j = Ok (p, q) /\ mat_get m' p q <> view_get m w i j.
Proof.
  exists col3, (mkMat 3 1 [Some 1; Some 1; Some 1]),
    (mkView (mkSlice 1 3 1) 2 (mkSlice 0 1 1) 1), (mkView (mkSlice 0 2 1) 2 (mkSlice 0 1 1) 1), (fun i _ => i + 1).
  split; [exact (proj1 C05_example)|].
  split; [apply (uv_block 3 1 1 0 2 1); vm_compute; reflexivity|].
  split; [apply (uv_block 3 1 0 0 2 1); vm_compute; reflexivity|].
  split; [reflexivity|]. split; [reflexivity|]. split; [vm_compute; reflexivity|].
  exists 1, 0, 2, 0. split; [vm_compute; reflexivity|]. vm_compute. discriminate.
Qed.
Print Assumptions C05_view_assign_refuted.

(** C06: matrix expressions, for any element type whose operators compute the real operations on
    values (operands: matrices or views). *)
Section C06.
  Context {E : Type} (val : E -> R) (e_zero e_one : E) (e_add e_sub e_mul e_div : E -> E -> E) (e_neg : E -> E).
  Hypotheses (v_zero : val e_zero = 0%R)
    (v_add : forall a b, val (e_add a b) = (val a + val b)%R)
    (v_sub : forall a b, val (e_sub a b) = (val a - val b)%R)
    (v_mul : forall a b, val (e_mul a b) = (val a * val b)%R)
    (v_div : forall a b, val b <> 0%R -> val (e_div a b) = (val a / val b)%R)
    (v_neg : forall a, val (e_neg a) = (- val a)%R).

  Theorem C06_matrix_product a b n k p F G :
    denotes a n k F -> denotes b k p G -> dims n p ->
    exists m H, mat_mul e_zero e_add e_mul a b = Ok m /\ represents m n p H /\
      forall i j, val (H i j) = Rsum (Z.to_nat k) (fun t => (val (F i (Z.of_nat t)) * val (G (Z.of_nat t) j))%R).
  Proof. exact (val_mat_mul val e_zero e_add e_mul v_zero v_add v_mul a b n k p F G). Qed.

  Theorem C06_matrix_product_rejects (a b : mlike E) : ml_cols a <> ml_rows b ->
    mat_mul e_zero e_add e_mul a b = AssertFail.
  Proof. exact (mat_mul_reject e_zero e_add e_mul a b). Qed.

  Theorem C06_entrywise a b s r c F G :
    denotes a r c F -> denotes b r c G ->
    (exists m H, mat_add e_add a b = Ok m /\ represents m r c H /\ forall i j, val (H i j) = (val (F i j) + val (G i j))%R) /\
    (exists m H, mat_sub e_sub a b = Ok m /\ represents m r c H /\ forall i j, val (H i j) = (val (F i j) - val (G i j))%R) /\
    (exists m H, mat_neg e_neg a = Ok m /\ represents m r c H /\ forall i j, val (H i j) = (- val (F i j))%R) /\
    (exists m H, mat_scale e_mul a s = Ok m /\ represents m r c H /\ forall i j, val (H i j) = (val (F i j) * val s)%R) /\
    (val s <> 0%R ->
     exists m H, mat_divs e_div a s = Ok m /\ represents m r c H /\ forall i j, val (H i j) = (val (F i j) / val s)%R) /\
    (exists m, mat_T a = Ok m /\ represents m c r (fun i j => F j i)).
  Proof. exact (val_entrywise val e_add e_sub e_mul e_div e_neg v_add v_sub v_mul v_div v_neg a b s r c F G). Qed.

  Theorem C06_entrywise_rejects (a b : mlike E) : ml_rows a <> ml_rows b \/ ml_cols a <> ml_cols b ->
    mat_add e_add a b = AssertFail /\ mat_sub e_sub a b = AssertFail.
  Proof. exact (fun H => conj (cwise_reduce_reject a b e_add H) (cwise_reduce_reject a b e_sub H)). Qed.

  (** C07 (part): A *= B for a right-hand side that does not alias A. *)
  Theorem C07_mul_assign_partial m r n F a G : represents m r n F -> denotes a n n G ->
    exists m' H, mat_mul_assign e_zero e_add e_mul m (fun _ => a) = Ok m' /\ represents m' r n H /\
      forall i j, val (H i j) = Rsum (Z.to_nat n) (fun t => (val (F i (Z.of_nat t)) * val (G (Z.of_nat t) j))%R).
  Proof. exact (val_mat_mul_assign val e_zero e_add e_mul v_zero v_add v_mul m r n F a G). Qed.
End C06.
Print Assumptions C06_matrix_product.
Print Assumptions C06_matrix_product_rejects.
Print Assumptions C06_entrywise.
Print Assumptions C06_entrywise_rejects.
Print Assumptions C07_mul_assign_partial.

(** += and -= are correct also when the right-hand side is the matrix itself. *)
Theorem C07_add_sub_assign {E} (op : E -> E -> E) (m : vmat E) r c F (rhs : vmat E -> mlike E) G :
  represents m r c F ->
  (rhs = (fun m => like_mat m) /\ G = F \/ exists a, rhs = (fun _ => a) /\ denotes a r c G) ->
  exists m', mat_op_assign op m rhs = Ok m' /\ represents m' r c (fun i j => op (F i j) (G i j)).
Proof. exact (mat_op_assign_ok op m r c F rhs G). Qed.
Print Assumptions C07_add_sub_assign.

Definition ones : vmat Z := mkMat 2 2 [Some 1; Some 1; Some 1; Some 1].
Definition twos : vmat Z := mkMat 2 2 [Some 1; Some 2; Some 0; Some 3].
Lemma ones_rep : represents ones 2 2 (fun _ _ => 1).
Proof.
  repeat split; cbn; unfold INT_MAX; try lia. intros i j [Hi Hj].
  assert (i = 0 \/ i = 1) as [-> | ->] by lia; assert (j = 0 \/ j = 1) as [-> | ->] by lia; reflexivity.
Qed.

Example C06_C07_example :
  mat_mul 0 Z.add Z.mul (like_mat twos) (like_mat ones) = Ok (mkMat 2 2 [Some 3; Some 3; Some 3; Some 3]) /\
  mat_mul_assign 0 Z.add Z.mul ones (fun _ => like_mat twos) = Ok (mkMat 2 2 [Some 1; Some 5; Some 1; Some 5]) /\
  represents ones 2 2 (fun _ _ => 1).
Proof. split; [vm_compute; reflexivity|]. split; [vm_compute; reflexivity|exact ones_rep]. Qed.

(** C07 (full claim is false): A *= A on the 2x2 matrix of ones gives 3 in the second row, not 2. *)
Theorem C07_mul_assign_refuted :
  exists (m m' : vmat Z) F p, represents m 2 2 F /\
    mat_mul_assign 0 Z.add Z.mul m (fun m => like_mat m) = Ok m' /\
    mat_mul 0 Z.add Z.mul (like_mat m) (like_mat m) = Ok p /\
    mat_get m' 1 0 <> mat_get p 1 0.
Proof.
  exists ones, (mkMat 2 2 [Some 2; Some 2; Some 3; Some 3]), (fun _ _ => 1), (mkMat 2 2 [Some 2; Some 2; Some 2; Some 2]).
  split; [exact ones_rep|]. split; [vm_compute; reflexivity|]. split; [vm_compute; reflexivity|].
  vm_compute. discriminate.
Qed.
Print Assumptions C07_mul_assign_refuted.

(** C08 (part): block() of a nonempty grid of nonempty rows of equal widths. *)
Theorem C08_block_concatenates_partial {E} (L : list (list (vmat E))) w :
  L <> [] -> (forall row, In row L -> good_row w row) -> dims (sumz (@row_height E) L) w ->
  exists m, block L = Ok m /\ m_rows m = sumz (@row_height E) L /\ m_cols m = w /\
    (forall pre row post p e q i j, L = pre ++ row :: post -> row = p ++ e :: q ->
       inr (m_rows e) (m_cols e) i j ->
       exists x, mat_get e i j = Ok x /\
         mat_get m (sumz (@row_height E) pre + i) (sumz (@m_cols E) p + j) = Ok x) /\
    (forall I J, inr (m_rows m) (m_cols m) I J ->
       exists pre row post p e q i j, L = pre ++ row :: post /\ row = p ++ e :: q /\
         inr (m_rows e) (m_cols e) i j /\
         I = sumz (@row_height E) pre + i /\ J = sumz (@m_cols E) p + j).
Proof. exact (block_ok L w). Qed.
Print Assumptions C08_block_concatenates_partial.

Example C08_example :
  good_row 4 [ones; twos] /\
  block [[ones; twos]; [twos; ones]] = Ok (mkMat 4 4
    [Some 1; Some 1; Some 1; Some 2; Some 1; Some 1; Some 0; Some 3;
     Some 1; Some 2; Some 1; Some 1; Some 0; Some 3; Some 1; Some 1]).
Proof.
  split; [|vm_compute; reflexivity]. split; [discriminate|]. split; [|reflexivity].
  assert (F1 : full ones) by (exists (fun _ _ => 1); exact ones_rep).
  assert (F2 : full twos).
  { exists (fun i j => if i =? 0 then (if j =? 0 then 1 else 2) else (if j =? 0 then 0 else 3)).
    repeat split; cbn; unfold INT_MAX; try lia. intros i j [Hi Hj].
    assert (i = 0 \/ i = 1) as [-> | ->] by lia; assert (j = 0 \/ j = 1) as [-> | ->] by lia; reflexivity. }
  intros e [<-|[<-|[]]]; split; auto.
Qed.

(** C08 (full claim is false): the empty list does not give the 0x0 matrix but one with -1 columns. *)
Theorem C08_block_concatenates_refuted :
  exists m : vmat Z, block [] = Ok m /\ m_cols m = -1.
Proof. eexists. split; [vm_compute; reflexivity|reflexivity]. Qed.
Print Assumptions C08_block_concatenates_refuted.

(** C10: iterating visits each element exactly once in row-major order, agreeing with both element
    accessors. *)
Theorem C10_view_iteration {E} (m : vmat E) r c (F : Z -> Z -> E) v : represents m r c F -> user_view r c v ->
  exists l, view_iterate m v = Ok l /\ Z.of_nat (length l) = v_rl v * v_cl v /\
    forall i j, inr (v_rl v) (v_cl v) i j ->
      exists e, nth_error l (Z.to_nat (i * v_cl v + j)) = Some e /\ view_get m v i j = Ok e /\
        view_get1 m v (i * v_cl v + j) = Ok e.
Proof. exact (iterate_view m r c F v). Qed.
Print Assumptions C10_view_iteration.

Theorem C10_matrix_iteration {E} (m : vmat E) r c (F : Z -> Z -> E) i j : represents m r c F -> inr r c i j ->
  nth_error (mat_iterate m) (Z.to_nat (i * c + j)) = Some (Some (F i j)) /\
  mat_get m i j = Ok (F i j) /\ mat_get1 m (i * c + j) = Ok (F i j) /\
  Z.of_nat (length (mat_iterate m)) = r * c.
Proof. exact (iterate_mat m r c F i j). Qed.
Print Assumptions C10_matrix_iteration.

Example C10_example : exists v, mat_block 2 2 0 1 2 1 = Ok v /\ user_view 2 2 v /\
  view_iterate twos v = Ok [2; 3].
Proof.
  eexists. split; [vm_compute; reflexivity|]. split; [|vm_compute; reflexivity].
  apply (uv_block 2 2 0 1 2 1). vm_compute. reflexivity.
Qed.
