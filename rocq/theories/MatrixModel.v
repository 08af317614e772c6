(** Model of include/sleipnir/autodiff/variable_matrix.hpp and variable_block.hpp:
    storage, element access, views, assignment through views, matrix arithmetic, block().

    Elements ([Variable<Scalar>] handles) are values of an abstract type [E]; a null handle
    ([detail::empty] construction, variable_matrix.hpp 66-72) is [None].  Element operators are
    parameters: what they compute is the subject of the expression-graph model, so here the graph
    allocation they perform is abstracted away. *)
From Coq Require Import ZArith List Lia Bool.
From Verif Require Import Base SliceModel Loops.
Import ListNotations.
Open Scope Z_scope.

Section Matrix.
  Context {E : Type}.

  (** variable_matrix.hpp 1359-1361: [m_storage], [m_rows], [m_cols]. *)
  Record vmat := mkMat { m_rows : Z; m_cols : Z; m_data : list (option E) }.

  (** List cell update used for [m_storage[i] = e]; out of bounds is UB. *)
  Fixpoint set_nth (l : list (option E)) (n : nat) (e : E) : outcome (list (option E)) :=
    match l, n with
    | [], _ => UB
    | _ :: t, O => Ok (Some e :: t)
    | h :: t, Datatypes.S n' => let* t' := set_nth t n' e in Ok (h :: t')
    end.

  (** Reading [m_storage[i]]: out of bounds is UB. Reading a null handle's expression is UB. *)
  Definition get_nth (l : list (option E)) (n : nat) : outcome E :=
    match nth_error l n with
    | Some (Some e) => Ok e
    | _ => UB
    end.

  (** variable_matrix.hpp 66-72: [VariableMatrix(empty, rows, cols)]; the loop bound [rows * cols]
      is an int product. *)
  Definition mat_empty (rows cols : Z) : outcome vmat :=
    let* n := int (rows * cols) in
    Ok (mkMat rows cols (repeat None (Z.to_nat n))).

  (** variable_matrix.hpp 310-325: storage offset of [operator[](row, col)] with its assertions. *)
  Definition mat_offset (rows cols row col : Z) : outcome Z :=
    oassert ((0 <=? row) && (row <? rows)) (
    oassert ((0 <=? col) && (col <? cols)) (
    let* rc := int (row * cols) in
    int (rc + col))).

  (** variable_matrix.hpp 310-325: reading through operator[]. *)
  Definition mat_get (m : vmat) (row col : Z) : outcome E :=
    let* o := mat_offset (m_rows m) (m_cols m) row col in
    get_nth (m_data m) (Z.to_nat o).

  (** variable_matrix.hpp 310-325: assigning through operator[]. *)
  Definition mat_set (m : vmat) (row col : Z) (e : E) : outcome vmat :=
    let* o := mat_offset (m_rows m) (m_cols m) row col in
    let* d := set_nth (m_data m) (Z.to_nat o) e in
    Ok (mkMat (m_rows m) (m_cols m) d).

  (** variable_matrix.hpp 331-343: [operator[](index)]. *)
  Definition mat_get1 (m : vmat) (index : Z) : outcome E :=
    let* n := int (m_rows m * m_cols m) in
    oassert ((0 <=? index) && (index <? n)) (get_nth (m_data m) (Z.to_nat index)).

  (** variable_matrix.hpp 1226-1231: iterating [begin()]..[end()] walks [m_storage]. *)
  Definition mat_iterate (m : vmat) : list (option E) := m_data m.

  (** variable_block.hpp 27, data members: a view of one matrix. *)
  Record view := mkView { v_rs : slice; v_rl : Z; v_cs : slice; v_cl : Z }.

  (** variable_block.hpp 107-113: [VariableBlock(mat, row_offset, col_offset, rows, cols)]. *)
  Definition view_ctor (rows cols r c h w : Z) : outcome view :=
    let* re := int (r + h) in
    let* rs := slice_make (Some r) (Some re) (Some 1) in
    let* (rs, rl) := adjust rs rows in
    let* ce := int (c + w) in
    let* cs := slice_make (Some c) (Some ce) (Some 1) in
    let* (cs, cl) := adjust cs cols in
    Ok (mkView rs rl cs cl).

  (** variable_matrix.hpp 352-359: [block]. *)
  Definition mat_block (rows cols r c h w : Z) : outcome view :=
    oassert ((0 <=? r) && (r <=? rows)) (
    oassert ((0 <=? c) && (c <=? cols)) (
    oassert ((0 <=? h) && (h <=? rows - r)) (
    oassert ((0 <=? w) && (w <=? cols - c)) (
    view_ctor rows cols r c h w)))).

  (** variable_matrix.hpp 384-389: [operator[](Slice, Slice)]. *)
  Definition mat_slice (rows cols : Z) (rs cs : slice) : outcome view :=
    let* (rs, rl) := adjust rs rows in
    let* (cs, cl) := adjust cs cols in
    Ok (mkView rs rl cs cl).

  (** variable_matrix.hpp 444-449, 468-471, 486-489. *)
  Definition mat_segment (rows cols offset length : Z) : outcome view :=
    oassert (cols =? 1) (
    oassert ((0 <=? offset) && (offset <? rows)) (
    oassert ((0 <=? length) && (length <=? rows - offset)) (
    mat_block rows cols offset 0 length 1))).
  (** variable_matrix.hpp 468-471. *)
  Definition mat_row (rows cols row : Z) : outcome view :=
    oassert ((0 <=? row) && (row <? rows)) (mat_block rows cols row 0 1 cols).
  (** variable_matrix.hpp 486-489. *)
  Definition mat_col (rows cols col : Z) : outcome view :=
    oassert ((0 <=? col) && (col <? cols)) (mat_block rows cols 0 col rows 1).

  (** variable_block.hpp 336-338 / 340-342: the composed slice [{a, b, c}], through the Slice
      constructor (slice.hpp 78-111). *)
  Definition compose_slice (outer inner : slice) : outcome slice :=
    let* p := int (sl_start inner * sl_step outer) in
    let* start := int (sl_start outer + p) in
    let* q := int (sl_stop inner * sl_step outer) in
    let* stop := int (sl_start outer + q) in
    let* step := int (sl_step inner * sl_step outer) in
    slice_make (Some start) (Some stop) (Some step).

  (** variable_block.hpp 332-344 (and 356-370): slicing a view with adjusted slices. *)
  Definition view_slice_raw (v : view) (rs : slice) (rl : Z) (cs : slice) (cl : Z) : outcome view :=
    let* rs' := compose_slice (v_rs v) rs in
    let* cs' := compose_slice (v_cs v) cs in
    Ok (mkView rs' rl cs' cl).

  (** variable_block.hpp 304-308 (and 315-320). *)
  Definition view_slice (v : view) (rs cs : slice) : outcome view :=
    let* (rs, rl) := adjust rs (v_rl v) in
    let* (cs, cl) := adjust cs (v_cl v) in
    view_slice_raw v rs rl cs cl.

  (** variable_block.hpp 272-280. *)
  Definition view_block (v : view) (r c h w : Z) : outcome view :=
    oassert ((0 <=? r) && (r <=? v_rl v)) (
    oassert ((0 <=? c) && (c <=? v_cl v)) (
    oassert ((0 <=? h) && (h <=? v_rl v - r)) (
    oassert ((0 <=? w) && (w <=? v_cl v - c)) (
    let* re := int (r + h) in
    let* rs := slice_make (Some r) (Some re) (Some 1) in
    let* ce := int (c + w) in
    let* cs := slice_make (Some c) (Some ce) (Some 1) in
    view_slice v rs cs)))).

  (** variable_block.hpp 377-382, 400-403, 418-421. *)
  Definition view_segment (v : view) (offset length : Z) : outcome view :=
    oassert (v_cl v =? 1) (
    oassert ((0 <=? offset) && (offset <? v_rl v)) (
    oassert ((0 <=? length) && (length <=? v_rl v - offset)) (
    view_block v offset 0 length 1))).
  (** variable_block.hpp 400-403. *)
  Definition view_row (v : view) (row : Z) : outcome view :=
    oassert ((0 <=? row) && (row <? v_rl v)) (view_block v row 0 1 (v_cl v)).
  (** variable_block.hpp 418-421. *)
  Definition view_col (v : view) (col : Z) : outcome view :=
    oassert ((0 <=? col) && (col <? v_cl v)) (view_block v 0 col (v_rl v) 1).

  (** variable_block.hpp 229-230: row/column of the matrix addressed by a view element. *)
  Definition slice_at (sl : slice) (i : Z) : outcome Z :=
    let* p := int (i * sl_step sl) in
    int (sl_start sl + p).

  (** variable_block.hpp 224-243: [operator[](row, col)] of a view: the addressed matrix position. *)
  Definition view_pos (v : view) (row col : Z) : outcome (Z * Z) :=
    oassert ((0 <=? row) && (row <? v_rl v)) (
    oassert ((0 <=? col) && (col <? v_cl v)) (
    let* r := slice_at (v_rs v) row in
    let* c := slice_at (v_cs v) col in
    Ok (r, c))).

  (** variable_block.hpp 224-243: reading through operator[]. *)
  Definition view_get (m : vmat) (v : view) (row col : Z) : outcome E :=
    let* (r, c) := view_pos v row col in mat_get m r c.

  (** variable_block.hpp 224-243: assigning through operator[]. *)
  Definition view_set (m : vmat) (v : view) (row col : Z) (e : E) : outcome vmat :=
    let* (r, c) := view_pos v row col in mat_set m r c e.

  (** variable_block.hpp 249-263: [operator[](index)] of a view. *)
  Definition view_get1 (m : vmat) (v : view) (index : Z) : outcome E :=
    let* n := int (v_rl v * v_cl v) in
    oassert ((0 <=? index) && (index <? n)) (
    view_get m v (Z.quot index (v_cl v)) (Z.rem index (v_cl v))).

  (** variable_block.hpp 649-652, 673, 734-739: iterating a view dereferences indices
      0 .. rows()*cols()-1 in order. *)
  Definition view_iterate (m : vmat) (v : view) : outcome (list E) :=
    let* n := int (v_rl v * v_cl v) in
    for_z n (fun k acc => let* e := view_get1 m v k in Ok (acc ++ [e])) [].

  (** Any [MatrixLike] operand (Eigen matrix, VariableMatrix, VariableBlock): dimensions and
      element access. *)
  Record mlike := mkLike { ml_rows : Z; ml_cols : Z; ml_get : Z -> Z -> outcome E }.

  Definition like_mat (m : vmat) : mlike := mkLike (m_rows m) (m_cols m) (mat_get m).
  Definition like_view (m : vmat) (v : view) : mlike := mkLike (v_rl v) (v_cl v) (view_get m v).

  (** variable_block.hpp 39-61, 162-172, 193-217: assigning a matrix (or view) to a view,
      element by element.  The source may be (a view of) the destination matrix, so it is read from
      the current state. *)
  Definition view_assign (m : vmat) (v : view) (src : vmat -> mlike) : outcome vmat :=
    oassert ((v_rl v =? ml_rows (src m)) && (v_cl v =? ml_cols (src m))) (
    for_rc (v_rl v) (v_cl v)
      (fun row col m => let* e := ml_get (src m) row col in view_set m v row col e) m).

  (** variable_block.hpp 138-144: assigning a scalar to a 1x1 view. *)
  Definition view_assign_scalar (m : vmat) (v : view) (e : E) : outcome vmat :=
    oassert ((v_rl v =? 1) && (v_cl v =? 1)) (view_set m v 0 0 e).

  (** variable_matrix.hpp 206-228: materializing a view. [emplace_back] in row-major order. *)
  Definition mat_of_like (a : mlike) : outcome vmat :=
    let* d := for_rc (ml_rows a) (ml_cols a)
      (fun row col d => let* e := ml_get a row col in Ok (d ++ [Some e])) [] in
    Ok (mkMat (ml_rows a) (ml_cols a) d).

  (** Filling a fresh matrix entry by entry: the loop shape shared by the operators below. *)
  Definition fill (rows cols : Z) (f : Z -> Z -> outcome E) : outcome vmat :=
    let* r := mat_empty rows cols in
    for_rc rows cols (fun row col r => let* e := f row col in mat_set r row col e) r.

  (** Element operators used by the matrix operators. *)
  Variables (e_zero e_one : E) (e_add e_sub e_mul e_div : E -> E -> E) (e_neg : E -> E).

  (** The inner loop [for k: sum += lhs[i,k] * rhs[k,j]] starting from constant 0
      (variable_matrix.hpp 512-515, 535-538, 558-561). *)
  Definition dot (n : Z) (f g : Z -> outcome E) : outcome E :=
    for_z n (fun k s => let* a := f k in let* b := g k in Ok (e_add s (e_mul a b))) e_zero.

  (** variable_matrix.hpp 505-521, 528-544, 551-567: matrix product. *)
  Definition mat_mul (a b : mlike) : outcome vmat :=
    oassert (ml_cols a =? ml_rows b) (
    fill (ml_rows a) (ml_cols b)
      (fun i j => dot (ml_cols a) (fun k => ml_get a i k) (fun k => ml_get b k j))).

  (** variable_matrix.hpp 574-602: matrix times scalar; 609-637: scalar times matrix multiplies
      [rhs[row, col] * lhs], the same operand order. *)
  Definition mat_scale (a : mlike) (s : E) : outcome vmat :=
    fill (ml_rows a) (ml_cols a) (fun i j => let* x := ml_get a i j in Ok (e_mul x s)).

  (** variable_matrix.hpp 680-729. *)
  Definition mat_divs (a : mlike) (s : E) : outcome vmat :=
    fill (ml_rows a) (ml_cols a) (fun i j => let* x := ml_get a i j in Ok (e_div x s)).

  (** variable_matrix.hpp 751-803. *)
  Definition mat_add (a b : mlike) : outcome vmat :=
    oassert ((ml_rows a =? ml_rows b) && (ml_cols a =? ml_cols b)) (
    fill (ml_rows a) (ml_cols a)
      (fun i j => let* x := ml_get a i j in let* y := ml_get b i j in Ok (e_add x y))).

  (** variable_matrix.hpp 843-895. *)
  Definition mat_sub (a b : mlike) : outcome vmat :=
    oassert ((ml_rows a =? ml_rows b) && (ml_cols a =? ml_cols b)) (
    fill (ml_rows a) (ml_cols a)
      (fun i j => let* x := ml_get a i j in let* y := ml_get b i j in Ok (e_sub x y))).

  (** variable_matrix.hpp 932-943. *)
  Definition mat_neg (a : mlike) : outcome vmat :=
    fill (ml_rows a) (ml_cols a) (fun i j => let* x := ml_get a i j in Ok (e_neg x)).

  (** variable_matrix.hpp 955-965, variable_block.hpp 555-565: transpose.  The loop runs over the
      source's rows/cols and writes [result[col, row]]. *)
  Definition mat_T (a : mlike) : outcome vmat :=
    let* r := mat_empty (ml_cols a) (ml_rows a) in
    for_rc (ml_rows a) (ml_cols a)
      (fun row col r => let* e := ml_get a row col in mat_set r col row e) r.

  (** variable_matrix.hpp 1027-1039, variable_block.hpp 613-625. *)
  Definition cwise_transform (a : mlike) (op : E -> E) : outcome vmat :=
    fill (ml_rows a) (ml_cols a) (fun i j => let* x := ml_get a i j in Ok (op x)).

  (** variable_matrix.hpp 1379-1395. *)
  Definition cwise_reduce (a b : mlike) (op : E -> E -> E) : outcome vmat :=
    oassert ((ml_rows a =? ml_rows b) && (ml_cols a =? ml_cols b)) (
    fill (ml_rows a) (ml_cols a)
      (fun i j => let* x := ml_get a i j in let* y := ml_get b i j in Ok (op x y))).

  (** variable_matrix.hpp 1300-1310. *)
  Definition mat_identity (n : Z) : outcome vmat :=
    fill n n (fun i j => Ok (if i =? j then e_one else e_zero)).

  (** variable_matrix.hpp 643-658: [*this *= rhs]; [rhs] may alias [*this], so it is read from the
      current matrix; the old row is copied first. *)
  Definition mat_mul_assign (m : vmat) (rhs : vmat -> mlike) : outcome vmat :=
    oassert ((m_cols m =? ml_rows (rhs m)) && (m_cols m =? ml_cols (rhs m))) (
    for_z (m_rows m) (fun i m =>
      let* v := mat_row (m_rows m) (m_cols m) i in
      let* old := mat_of_like (like_view m v) in
      for_z (ml_cols (rhs m)) (fun j m =>
        let* s := dot (m_cols m) (fun k => mat_get1 old k) (fun k => ml_get (rhs m) k j) in
        mat_set m i j s) m) m).

  (** variable_matrix.hpp 809-819 and 901-911: [+=], [-=] with matrices. *)
  Definition mat_op_assign (op : E -> E -> E) (m : vmat) (rhs : vmat -> mlike) : outcome vmat :=
    oassert ((m_rows m =? ml_rows (rhs m)) && (m_cols m =? ml_cols (rhs m))) (
    for_rc (m_rows m) (m_cols m) (fun i j m =>
      let* x := mat_get m i j in
      let* y := ml_get (rhs m) i j in
      mat_set m i j (op x y)) m).

  (** variable_matrix.hpp 1412-1433 (= 1469-1490): the shape pass of [block(list)]. The first
      element of a nonempty row gives the row height. *)
  Fixpoint block_row_cols (h : Z) (row : list vmat) (latest : Z) : outcome Z :=
    match row with
    | [] => Ok latest
    | e :: rest =>
        oassert (h =? m_rows e) (
        let* latest := int (latest + m_cols e) in
        block_row_cols h rest latest)
    end.

  (** variable_matrix.hpp 1419-1422: the first element of the row, if any. *)
  Definition row_height (row : list vmat) : Z :=
    match row with [] => 0 | e :: _ => m_rows e end.

  (** variable_matrix.hpp 1410-1433 (= 1467-1490): the loop over the rows. *)
  Fixpoint block_shape (list : list (list vmat)) (rows cols : Z) : outcome (Z * Z) :=
    match list with
    | [] => Ok (rows, cols)
    | row :: rest =>
        let* rows := (match row with [] => Ok rows | e :: _ => int (rows + m_rows e) end) in
        let* latest := block_row_cols (row_height row) row 0 in
        if cols =? -1 then block_shape rest rows latest
        else oassert (cols =? latest) (block_shape rest rows cols)
    end.

  (** variable_matrix.hpp 1437-1447 (= 1494-1504): the copying pass. *)
  Fixpoint block_fill_row (r : vmat) (row_offset col_offset : Z) (row : list vmat) : outcome vmat :=
    match row with
    | [] => Ok r
    | e :: rest =>
        let* v := mat_block (m_rows r) (m_cols r) row_offset col_offset (m_rows e) (m_cols e) in
        let* r := view_assign r v (fun _ => like_mat e) in
        let* col_offset := int (col_offset + m_cols e) in
        block_fill_row r row_offset col_offset rest
    end.

  (** variable_matrix.hpp 1436-1447 (= 1493-1504): the loop over the rows. *)
  Fixpoint block_fill (r : vmat) (row_offset : Z) (list : list (list vmat)) : outcome vmat :=
    match list with
    | [] => Ok r
    | row :: rest =>
        let* r := block_fill_row r row_offset 0 row in
        let* row_offset := (match row with [] => Ok row_offset | e :: _ => int (row_offset + m_rows e) end) in
        block_fill r row_offset rest
    end.

  (** variable_matrix.hpp 1407-1450 (= 1464-1507). *)
  Definition block (list : list (list vmat)) : outcome vmat :=
    let* (rows, cols) := block_shape list 0 (-1) in
    let* r := mat_empty rows cols in
    block_fill r 0 list.
End Matrix.
Arguments vmat : clear implicits.
Arguments mlike : clear implicits.
