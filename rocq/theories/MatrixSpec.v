(** Specification vocabulary for matrices and views: mathematical matrices are functions. *)
From Coq Require Import ZArith List Reals.
From Verif Require Import Base SliceModel SliceSpec MatrixModel.
Import ListNotations.
Open Scope Z_scope.

Definition inr (r c i j : Z) : Prop := 0 <= i < r /\ 0 <= j < c.

(** Dimensions whose element count an [int] can hold. *)
Definition dims (r c : Z) : Prop := 0 <= r <= INT_MAX /\ 0 <= c <= INT_MAX /\ r * c <= INT_MAX.

(** [m] is an r x c matrix whose (i,j) element, in row-major order, is [f i j]. *)
Definition represents {E} (m : vmat E) (r c : Z) (f : Z -> Z -> E) : Prop :=
  m_rows m = r /\ m_cols m = c /\ dims r c /\
  Z.of_nat (length (m_data m)) = r * c /\
  forall i j, inr r c i j -> nth_error (m_data m) (Z.to_nat (i * c + j)) = Some (Some (f i j)).

(** A matrix-like operand denotes the r x c matrix [f]. *)
Definition denotes {E} (a : mlike E) (r c : Z) (f : Z -> Z -> E) : Prop :=
  ml_rows a = r /\ ml_cols a = c /\ dims r c /\
  forall i j, inr r c i j -> ml_get a i j = Ok (f i j).

(** A view addresses exactly the rectangle of parent positions [(rsel i, csel j)]. *)
Definition view_addresses (v : view) (r c : Z) (rsel csel : Z -> Z) : Prop :=
  v_rl v = r /\ v_cl v = c /\
  forall i j, inr r c i j -> view_pos v i j = Ok (rsel i, csel j).

(** Python slices: (start, stop, step). *)
Record pyslice := mkPy { py_a : option Z; py_b : option Z; py_s : Z }.

(** The number of indices the slice selects from a sequence of length [n]. *)
Definition py_count (n : Z) (s : pyslice) (len : Z) : Prop :=
  0 <= len /\ forall t, (exists x, py_selects n (py_a s) (py_b s) (py_s s) t x) <-> 0 <= t < len.

(** Chain of slicings x[s1][s2]...[sk] of a sequence of length n: the result has [len] elements
    and its t-th element is element x of the original sequence. *)
Inductive py_chain : Z -> list pyslice -> Z -> (Z -> Z -> Prop) -> Prop :=
| py_chain_one n s len : py_count n s len ->
    py_chain n (s :: nil) len (py_selects n (py_a s) (py_b s) (py_s s))
| py_chain_snoc n l len sel s len' : py_chain n l len sel -> py_count len s len' ->
    py_chain n (l ++ (s :: nil)) len'
      (fun t x => exists y, py_selects len (py_a s) (py_b s) (py_s s) t y /\ sel y x).

(** Finite sum of reals. *)
Fixpoint Rsum (n : nat) (f : nat -> R) : R :=
  match n with
  | O => 0%R
  | S n' => (Rsum n' f + f n')%R
  end.

(** Rectangles requested by block(r, c, h, w), and nested requests. *)
Record rect := mkRect { b_r : Z; b_c : Z; b_h : Z; b_w : Z }.
Definition rect_in (rows cols : Z) (b : rect) : Prop :=
  0 <= b_r b /\ 0 <= b_c b /\ 0 <= b_h b /\ 0 <= b_w b /\ b_r b + b_h b <= rows /\ b_c b + b_w b <= cols.
Fixpoint path_in (rows cols : Z) (l : list rect) : Prop :=
  match l with
  | nil => True
  | b :: rest => rect_in rows cols b /\ path_in (b_h b) (b_w b) rest
  end.
Fixpoint path_r (l : list rect) : Z := match l with nil => 0 | b :: rest => b_r b + path_r rest end.
Fixpoint path_c (l : list rect) : Z := match l with nil => 0 | b :: rest => b_c b + path_c rest end.

(** Integer sum of a measure over a list. *)
Fixpoint sumz {A} (f : A -> Z) (l : list A) : Z :=
  match l with nil => 0 | x :: rest => f x + sumz f rest end.

(** A matrix all of whose elements are present. *)
Definition full {E} (e : vmat E) : Prop := exists f, represents e (m_rows e) (m_cols e) f.

(** A row of blocks of equal height whose widths add up to [w]. *)
Definition good_row {E} (w : Z) (row : list (vmat E)) : Prop :=
  row <> nil /\ (forall e, In e row -> m_rows e = row_height row /\ full e) /\ sumz m_cols row = w.

(** User programs: constructing a slice from a Python-style triple, and chains of slicings and
    blocks as a user writes them. *)
Definition mk (s : pyslice) : outcome slice := slice_make (py_a s) (py_b s) (Some (py_s s)).

Definition pyslice_int (s : pyslice) : Prop :=
  is_int_opt (py_a s) /\ is_int_opt (py_b s) /\ is_int (py_s s) /\ py_s s <> 0.

(** m[rs1, cs1][rs2, cs2]... as written by the user. *)
Fixpoint chain_rest (v : view) (l : list (pyslice * pyslice)) : outcome view :=
  match l with
  | [] => Ok v
  | (rs, cs) :: rest =>
      let* rs := mk rs in let* cs := mk cs in
      let* v := view_slice v rs cs in chain_rest v rest
  end.

Definition chain (rows cols : Z) (first : pyslice * pyslice) (l : list (pyslice * pyslice)) : outcome view :=
  let* rs := mk (fst first) in let* cs := mk (snd first) in
  let* v := mat_slice rows cols rs cs in chain_rest v l.

Fixpoint block_path (v : view) (l : list rect) : outcome view :=
  match l with
  | [] => Ok v
  | b :: rest => let* v := view_block v (b_r b) (b_c b) (b_h b) (b_w b) in block_path v rest
  end.

(** m.block(b1).block(b2)... *)
Definition nested_block (rows cols : Z) (b : rect) (l : list rect) : outcome view :=
  let* v := mat_block rows cols (b_r b) (b_c b) (b_h b) (b_w b) in block_path v l.

(** Views a user can obtain from an [rows] x [cols] matrix by slicing and taking blocks, to any depth. *)
Inductive user_view (rows cols : Z) : view -> Prop :=
| uv_slice rs cs a b v : pyslice_int rs -> pyslice_int cs -> mk rs = Ok a -> mk cs = Ok b ->
    mat_slice rows cols a b = Ok v -> user_view rows cols v
| uv_block r c h w v : mat_block rows cols r c h w = Ok v -> user_view rows cols v
| uv_sub_slice v rs cs a b v' : user_view rows cols v ->
    pyslice_int rs -> pyslice_int cs -> mk rs = Ok a -> mk cs = Ok b ->
    view_slice v a b = Ok v' -> user_view rows cols v'
| uv_sub_block v r c h w v' : user_view rows cols v -> view_block v r c h w = Ok v' -> user_view rows cols v'.
