(** Model of the constructors of VariableMatrix from lists, spans and diagonal matrices, and of identity(), zero(), one()
    and constant(): include/sleipnir/autodiff/variable_matrix.hpp 77-148, 171-184, 233-257, 1300-1356. *)
From Coq Require Import ZArith List Bool.
From Verif Require Import Base SliceModel Loops MatrixModel.
Import ListNotations.
Open Scope Z_scope.

Section Make.
  Context {E : Type}.

  (** The two loops that call m_storage.emplace_back() (variable_matrix.hpp 175-183, 236-240, 252-256). *)
  Definition pushes (rows cols : Z) (f : Z -> Z -> outcome E) : outcome (list (option E)) :=
    for_rc rows cols (fun row col d => let* e := f row col in Ok (d ++ [Some e])) [].

  (** 77-96 (= 104-122 = 130-148): a nested list.  Sizes become ints; those that do not fit are UB here. *)
  Definition make_list (L : list (list E)) : outcome (vmat E) :=
    let* rows := int (Z.of_nat (length L)) in
    let* cols := match L with [] => Ok 0 | row :: _ => int (Z.of_nat (length row)) end in
    oassert (forallb (fun row => Z.of_nat (length row) =? cols) L)
    (let* _ := int (rows * cols) in Ok (mkMat rows cols (map Some (concat L)))).

  (** 171-184: a diagonal matrix with the entries [d]; outside of them is UB. *)
  Definition make_diag (e_zero : E) (d : list E) : outcome (vmat E) :=
    let* n := int (Z.of_nat (length d)) in
    let* data := pushes n n (fun row col => if row =? col then match nth_error d (Z.to_nat row) with Some e => Ok e | None => UB end else Ok e_zero) in
    Ok (mkMat n n data).

  (** 248-257: a span of variables with a number of rows and columns; outside of the span is UB. *)
  Definition make_span (values : list E) (rows cols : Z) : outcome (vmat E) :=
    let* n := int (rows * cols) in
    oassert (Z.of_nat (length values) =? n)
    (let* data := pushes rows cols (fun row col =>
       let* rc := int (row * cols) in let* k := int (rc + col) in match nth_error values (Z.to_nat k) with Some e => Ok e | None => UB end) in
     Ok (mkMat rows cols data)).
  (** 233-241: a span of variables as a column. *)
  Definition make_column (values : list E) : outcome (vmat E) :=
    let* n := int (Z.of_nat (length values)) in make_span values n 1.

  (** 1317-1325, 1332-1340, 1348-1356: zero(), one(), constant(): assigns to every element of m_storage. *)
  Definition make_constant (rows cols : Z) (e : E) : outcome (vmat E) :=
    let* m := mat_empty (E := E) rows cols in
    Ok (mkMat rows cols (map (fun _ => Some e) (m_data m))).
End Make.
