(** Model of NumPy arrays as operands of the operators of VariableMatrix and VariableBlock in Python:
    python/cpp/try_cast.hpp, and __array_ufunc__ and the operators of python/cpp/autodiff/bind_variable_matrix.cpp and
    bind_variable_block.cpp.

    [AssertFail] stands for any exception the caller sees, as in PyModel.  The matrix operators themselves are those of
    MatrixModel.  Simplification: operators on scalars and on two variables are not modelled here. *)
From Coq Require Import ZArith List Bool.
From Verif Require Import Base Loops SliceModel MatrixModel PyModel.
Import ListNotations.
Open Scope Z_scope.

(** The element types of arrays: the four of try_cast.hpp 84-85, and all others. *)
Inductive dtype := F64 | F32 | I64 | I32 | Others.
(** Whether nanobind takes an array of one type for nb::ndarray of another: only when they are the same (external). *)
Definition dtype_eqb (a b : dtype) : bool :=
  match a, b with F64, F64 | F32, F32 | I64, I64 | I32, I32 => true | _, _ => false end.
(** A NumPy array as nb::ndarray shows it (external): where its first element is, its shape and its strides, counted in
    elements. *)
Record array := mkArr { a_type : dtype; a_data : Z; a_shape : list Z; a_strides : list Z }.

(** The operators of variables and arrays, and the ufuncs that bind_variable_matrix.cpp 288-351 and
    bind_variable_block.cpp 236-299 know. *)
Inductive op := Matmul | Add | Sub | Eq | Lt | Le | Gt | Ge.
(** A ufunc, by its name. *)
Inductive ufunc := UFunc (o : op) | UOther.

Section Np.
  (** [mem] is the memory of the arrays, in elements; reading elsewhere is undefined behaviour.  [num] makes a constant
      of an element, converted to double. *)
  Context {D E : Type} (mem : Z -> option D) (num : D -> E) (e_zero : E) (e_add e_sub e_mul : E -> E -> E).

  (** A Python object: an array, a VariableMatrix or VariableBlock, or anything else. *)
  Inductive obj := OArr (a : array) | OVars (x : mlike E) | OElse.
  (** What an operator returns: a VariableMatrix, or EqualityConstraints ([true]) or InequalityConstraints. *)
  Inductive res := RMat (m : vmat E) | RCon (eq : bool) (l : list E).

  (** Eigen::Map of a row-major matrix (external): element (i, j) is at data + i * outer + j * inner. *)
  Definition map_at (a : array) (outer inner i j : Z) : outcome D :=
    match mem (a_data a + i * outer + j * inner) with Some d => Ok d | None => UB end.
  (** try_cast.hpp 34-51: the elements are copied into an Eigen matrix.  Objects that are not arrays are refused by
      nanobind. *)
  Definition try_cast_to_eigen (t : dtype) (o : obj) : outcome (option (mlike E)) :=
    match o with
    | OArr a =>
        if dtype_eqb (a_type a) t then
          match a_shape a, a_strides a with
          | [rows; cols], [outer; inner] =>
              let* m := mat_of_like (mkLike rows cols (map_at a outer inner)) in
              Ok (Some (mkLike rows cols (fun i j => let* d := mat_get m i j in Ok (num d))))
          | _, _ => AssertFail
          end
        else Ok None
    | _ => Ok None
    end.
  (** try_cast.hpp 63-72: the first type that fits. *)
  Fixpoint apply_types (ts : list dtype) (f : mlike E -> outcome res) (o : obj) : outcome (option res) :=
    match ts with
    | [] => Ok None
    | t :: ts =>
        let* m := try_cast_to_eigen t o in
        match m with Some m => let* r := f m in Ok (Some r) | None => apply_types ts f o end
    end.
  (** try_cast.hpp 82-86. *)
  Definition apply_eigen_op (f : mlike E -> outcome res) (o : obj) : outcome (option res) :=
    apply_types [F64; F32; I64; I32] f o.

  (** variable.hpp 762-778: make_constraints of two matrices. *)
  Definition differences (a b : mlike E) : outcome (list E) :=
    oassert ((ml_rows a =? ml_rows b) && (ml_cols a =? ml_cols b)) (
    for_rc (ml_rows a) (ml_cols a)
      (fun i j l => let* x := ml_get a i j in let* y := ml_get b i j in Ok (l ++ [e_sub x y])) []).
  (** The C++ operators: variable_matrix.hpp 505-567, 751-803, 843-895; variable.hpp 899-1001. *)
  Definition operate (o : op) (a b : mlike E) : outcome res :=
    match o with
    | Matmul => let* m := mat_mul e_zero e_add e_mul a b in Ok (RMat m)
    | Add => let* m := mat_add e_add a b in Ok (RMat m)
    | Sub => let* m := mat_sub e_sub a b in Ok (RMat m)
    | Eq => let* l := differences a b in Ok (RCon true l)
    | Lt | Le => let* l := differences b a in Ok (RCon false l)
    | Gt | Ge => let* l := differences a b in Ok (RCon false l)
    end.

  (** bind_variable_matrix.cpp 279-357, bind_variable_block.cpp 227-305: __array_ufunc__ of [self]; [None] is
      NotImplemented.  [call] is whether method is __call__.  The keyword arguments are ignored. *)
  Definition array_ufunc (self : mlike E) (u : ufunc) (call : bool) (inputs : list obj) : outcome (option res) :=
    if call then
      match u with
      | UFunc o =>
          match inputs with
          | [] => AssertFail
          | i0 :: rest =>
              let* r := apply_eigen_op (fun lhs => operate o lhs self) i0 in
              match r with
              | Some r => Ok (Some r)
              | None =>
                  match rest with [] => AssertFail | i1 :: _ => apply_eigen_op (fun rhs => operate o self rhs) i1 end
              end
          end
      | UOther => Ok None
      end
    else Ok None.

  (** The arguments NumPy asks (external: PyUFunc_CheckOverride), one after another; when all return NotImplemented it
      raises TypeError. *)
  Fixpoint ask (u : ufunc) (call : bool) (inputs args : list obj) : outcome res :=
    match args with
    | [] => AssertFail
    | OVars x :: args =>
        let* r := array_ufunc x u call inputs in
        match r with Some r => Ok r | None => ask u call inputs args end
    | _ :: args => ask u call inputs args
    end.
  (** A ufunc called, or one of its methods, with variables among its arguments (external): [out] are the arrays or
      variables passed as out=. *)
  Definition ufunc_call (u : ufunc) (call : bool) (inputs out : list obj) : outcome res := ask u call inputs (inputs ++ out).

  (** The comparison Python tries with the operands exchanged (external). *)
  Definition mirror (o : op) : op := match o with Lt => Gt | Le => Ge | Gt => Lt | Ge => Le | o => o end.
  (** Comparisons, which Python reflects; + - @ have reflected methods of their own (external). *)
  Definition comparison (o : op) : bool := match o with Eq | Lt | Le | Gt | Ge => true | _ => false end.
  (** array o variables: ndarray's operators call the ufunc (external). *)
  Definition array_left (o : op) (a : array) (x : mlike E) : outcome res :=
    ufunc_call (UFunc o) true [OArr a; OVars x] [].
  (** bind_variable_matrix.cpp 369-411, 467-490; bind_variable_block.cpp 316-358, 414-446: the operators on
      nb::DRef<Eigen::MatrixXd>, which takes two-dimensional arrays of double; there is none for @, bind_variable_matrix.cpp 267-276. *)
  Definition direct (o : op) (x : mlike E) (a : array) : outcome (option res) :=
    match o, a_shape a with
    | Matmul, _ => Ok None
    | _, [_; _] =>
        let* m := try_cast_to_eigen F64 (OArr a) in
        match m with Some m => let* r := operate o x m in Ok (Some r) | None => Ok None end
    | _, _ => Ok None
    end.
  (** variables o array: the method of the variables, else that of ndarray with the operands exchanged, which calls the
      ufunc (external). *)
  Definition array_right (o : op) (x : mlike E) (a : array) : outcome res :=
    let* r := direct o x a in
    match r with
    | Some r => Ok r
    | None =>
        if comparison o then ufunc_call (UFunc (mirror o)) true [OArr a; OVars x] []
        else ufunc_call (UFunc o) true [OVars x; OArr a] []
    end.

  (** The conversions an assigned value goes through, bind_variable_matrix.cpp 141-148, bind_variable_block.cpp 120-127. *)
  Fixpoint first_type (ts : list dtype) (o : obj) : outcome (option (mlike E)) :=
    match ts with
    | [] => Ok None
    | t :: ts => let* m := try_cast_to_eigen t o in match m with Some m => Ok (Some m) | None => first_type ts o end
    end.
  (** y[i, j] = a for an array a: bind_variable_matrix.cpp 91-161, bind_variable_block.cpp 70-139.  Simplification: the
      array is converted before, not after, the subscripts. *)
  Definition setitem_array (m : vmat E) (y : pyobj) (i j : pyidx) (a : array) : outcome (vmat E) :=
    let* v := first_type [F64; F32; I64; I32] (OArr a) in
    match v with Some v => setitem m y i j (VMat (fun _ => v)) | None => AssertFail end.

  (** VariableMatrix(a) for an array a: bind_variable_matrix.cpp 50-53 takes arrays of double and float,
      variable_matrix.hpp 155-166 copies the elements.  Simplification: arrays of integers are left out; whether nanobind
      takes them for lists of lists (48-49) is not modelled. *)
  Definition construct (a : array) : outcome (vmat E) :=
    let* v := first_type [F64; F32] (OArr a) in
    match v with Some v => mat_of_like v | None => AssertFail end.
End Np.

Section SetValue.
  Context {D V : Type} (mem : Z -> option D) (num : D -> V).
  (** variable_matrix.hpp 293-303, variable_block.hpp 178-187: x.set_value(values).  Entries are variables, numbered;
      [st] is the value each one has (variable.hpp 125-138). *)
  Definition set_values (x : mlike nat) (v : mlike V) (st : nat -> V) : outcome (nat -> V) :=
    oassert ((ml_rows x =? ml_rows v) && (ml_cols x =? ml_cols v)) (
    for_rc (ml_rows v) (ml_cols v)
      (fun i j st => let* k := ml_get x i j in let* d := ml_get v i j in
         Ok (fun k' => if Nat.eqb k' k then d else st k')) st).
  (** x.set_value(a) for an array a: bind_variable_matrix.cpp 58-81, bind_variable_block.cpp 45-57. *)
  Definition set_value_array (x : mlike nat) (a : array) (st : nat -> V) : outcome (nat -> V) :=
    let* v := first_type mem num [F64; F32; I64; I32] (OArr a) in
    match v with Some v => set_values x v st | None => AssertFail end.
End SetValue.
Arguments obj : clear implicits.
Arguments res : clear implicits.
