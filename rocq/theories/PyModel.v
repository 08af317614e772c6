(** Model of the Python bindings: subscripting, iteration (python/cpp/autodiff/bind_variable_matrix.cpp,
    bind_variable_block.cpp) and the keyword arguments of solve() (python/cpp/optimization/bind_problem.cpp).

    [AssertFail] stands for any exception the caller sees: in this build slp_assert throws (assert.hpp 5-20, CMakeLists.txt
    295), and the bindings throw.  Simplification: the kind of exception is not modelled.  Subscripts are Python ints and
    slices of ints; other objects are rejected by nanobind. *)
From Coq Require Import ZArith List Bool.
From Verif Require Import Base SliceModel MatrixModel.
Import ListNotations.
Open Scope Z_scope.

(** A subscript in one dimension: a Python int, or start:stop:step with Python ints or omitted. *)
Inductive pyidx := IInt (i : Z) | ISlice (start stop step : option Z).

(** Py_ssize_t. *)
Definition PY_MAX : Z := 9223372036854775807.
Definition PY_MIN : Z := -9223372036854775808.
(** PySlice_Unpack (CPython, external): values outside Py_ssize_t are clipped. *)
Definition clip (z : Z) : Z := Z.max PY_MIN (Z.min PY_MAX z).
(** PySlice_AdjustIndices (CPython, external), start and stop. *)
Definition adjust_py (n step b : Z) : Z :=
  if b <? 0 then let b := b + n in if b <? 0 then (if step <? 0 then -1 else 0) else b
  else if n <=? b then (if step <? 0 then n - 1 else n) else b.
(** nb::slice::compute(n) (nanobind, external): PySlice_Unpack, then PySlice_AdjustIndices; the result is (start, stop,
    step, length). *)
Definition compute (n : Z) (start stop step : option Z) : outcome (Z * Z * Z * Z) :=
  let step := match step with None => 1 | Some s => Z.max (- PY_MAX) (clip s) end in
  oassert (negb (step =? 0)) (
  let start := match start with None => if step <? 0 then PY_MAX else 0 | Some b => clip b end in
  let stop := match stop with None => if step <? 0 then PY_MIN else PY_MAX | Some b => clip b end in
  let start := adjust_py n step start in
  let stop := adjust_py n step stop in
  let len :=
    if step <? 0 then if stop <? start then (start - stop - 1) / - step + 1 else 0
    else if start <? stop then (stop - start - 1) / step + 1 else 0 in
  Ok (start, stop, step, len)).

(** Conversion of a Py_ssize_t to int (modulo 2^32). *)
Definition to_int (z : Z) : Z := (z + 2147483648) mod 4294967296 - 2147483648.
(** Slice{t.get<0>(), t.get<1>(), t.get<2>()} with Py_ssize_t arguments: slice.hpp 78-111. *)
Definition slice_of (start stop step : Z) : outcome slice :=
  oassert (negb (step =? 0)) (
  let step := to_int step in
  Ok (mkSlice (to_int start) (to_int stop) (if step =? INT_MIN then - INT_MAX else step))).

(** bind_variable_matrix.cpp 104-118, 120-133, 216-229; bind_variable_block.cpp 83-97, 98-112, 184-198, 199-213: one
    dimension of a subscript, of length [n].  [neg] is whether negative ints count from the end: they do everywhere but
    for the rows in VariableMatrix.__getitem__, bind_variable_matrix.cpp 203-213. *)
Definition pick (neg : bool) (n : Z) (i : pyidx) : outcome (slice * Z) :=
  match i with
  | ISlice a b s =>
      let* (((start, stop), step), len) := compute n a b s in
      let* sl := slice_of start stop step in Ok (sl, to_int len)
  | IInt i =>
      oassert (in_int i) (
      let* i := if neg && (i <? 0) then int (i + n) else Ok i in
      let* stop := int (i + 1) in
      let* sl := slice_make (Some i) (Some stop) (Some 1) in Ok (sl, 1))
  end.

Section Py.
  Context {E : Type}.

  (** A VariableMatrix, or a VariableBlock of it. *)
  Inductive pyobj := OMat | OBlock (v : view).
  Definition o_rows (m : vmat E) (x : pyobj) : Z := match x with OMat => m_rows m | OBlock v => v_rl v end.
  Definition o_cols (m : vmat E) (x : pyobj) : Z := match x with OMat => m_cols m | OBlock v => v_cl v end.

  (** self[row, col]. *)
  Definition o_get (m : vmat E) (x : pyobj) (row col : Z) : outcome E :=
    match x with OMat => mat_get m row col | OBlock v => view_get m v row col end.
  (** self[row_slice, row_length, col_slice, col_length]: variable_matrix.hpp 414-420, variable_block.hpp 332-344. *)
  Definition o_sub (x : pyobj) (rs : slice) (rl : Z) (cs : slice) (cl : Z) : outcome view :=
    match x with OMat => Ok (mkView rs rl cs cl) | OBlock v => view_slice_raw v rs rl cs cl end.

  (** What a subscript yields: a Variable or a VariableBlock. *)
  Inductive pyres := RVar (e : E) | RBlock (v : view).

  (** A negative int from the end; used with both subscripts ints. *)
  Definition from_end (n i : Z) : outcome Z := if i <? 0 then int (i + n) else Ok i.
  (** x[i, j] with slices: bind_variable_matrix.cpp 198-233, bind_variable_block.cpp 179-217. *)
  Definition get_block (m : vmat E) (x : pyobj) (i j : pyidx) : outcome pyres :=
    let* (rs, rl) := pick (match x with OMat => false | OBlock _ => true end) (o_rows m x) i in
    let* (cs, cl) := pick true (o_cols m x) j in
    let* v := o_sub x rs rl cs cl in Ok (RBlock v).
  (** x[i, j]: bind_variable_matrix.cpp 172-233, bind_variable_block.cpp 151-217. *)
  Definition getitem (m : vmat E) (x : pyobj) (i j : pyidx) : outcome pyres :=
    match i, j with
    | IInt row, IInt col =>
        if in_int row && in_int col then
          oassert (negb ((o_rows m x <=? row) || (o_cols m x <=? col))) (
          let* row := from_end (o_rows m x) row in
          let* col := from_end (o_cols m x) col in
          let* e := o_get m x row col in Ok (RVar e))
        else get_block m x i j
    | _, _ => get_block m x i j
    end.
  (** x[k]: bind_variable_matrix.cpp 162-171, bind_variable_block.cpp 140-149. *)
  Definition getitem1 (m : vmat E) (x : pyobj) (k : Z) : outcome E :=
    oassert (in_int k) (
    let* k := if k <? 0 then let* n := int (o_rows m x * o_cols m x) in int (k + n) else Ok k in
    match x with OMat => mat_get1 m k | OBlock v => view_get1 m v k end).

  (** The right-hand side of an assignment: a matrix or block (perhaps of the same matrix) or array, or a Variable or
      number. *)
  Inductive pyval := VMat (src : vmat E -> mlike E) | VScalar (e : E).
  (** x[i, j] = value: bind_variable_matrix.cpp 91-161, bind_variable_block.cpp 70-139. *)
  Definition setitem (m : vmat E) (x : pyobj) (i j : pyidx) (a : pyval) : outcome (vmat E) :=
    let* (rs, rl) := pick true (o_rows m x) i in
    let* (cs, cl) := pick true (o_cols m x) j in
    let* v := o_sub x rs rl cs cl in
    match a with VMat src => view_assign m v src | VScalar e => view_assign_scalar m v e end.

  (** len(x): bind_variable_matrix.cpp 494-495, bind_variable_block.cpp 448-449. *)
  Definition py_len (m : vmat E) (x : pyobj) : Z := o_rows m x.
  (** for e in x: bind_variable_matrix.cpp 497-503, bind_variable_block.cpp 451-458. *)
  Definition py_iter (m : vmat E) (x : pyobj) : outcome (list (option E)) :=
    match x with OMat => Ok (mat_iterate m) | OBlock v => let* l := view_iterate m v in Ok (map Some l) end.
End Py.
Arguments pyres : clear implicits.
Arguments pyval : clear implicits.

(** The keyword arguments of solve(), bind_problem.cpp 80-119. *)
Section Kwargs.
  (** Python objects, and nanobind's conversions of them to double, int and bool (external): nothing when rejected. *)
  Context {obj D : Type} (to_double : obj -> option D) (to_i : obj -> option Z) (to_bool : obj -> option bool).
  (** options.hpp 12-36, and bind_problem.cpp 83. *)
  Record kwopts := mkKw { k_tol : D; k_iter : Z; k_timeout : D; k_feas : bool; k_diag : bool; k_spy : bool }.
  (** The names a caller can pass: the six the code compares with, and all others. *)
  Inductive key := KTolerance | KMaxIterations | KTimeout | KFeasibleIpm | KDiagnostics | KSpy | KOther.
  Definition oget {A} (o : option A) : outcome A := match o with Some a => Ok a | None => AssertFail end.
  (** 85-108, one pass of the loop. *)
  Definition kw_set (o : kwopts) (kv : key * obj) : outcome kwopts :=
    let v := snd kv in
    match fst kv with
    | KTolerance => let* a := oget (to_double v) in Ok (mkKw a (k_iter o) (k_timeout o) (k_feas o) (k_diag o) (k_spy o))
    | KMaxIterations => let* a := oget (to_i v) in Ok (mkKw (k_tol o) a (k_timeout o) (k_feas o) (k_diag o) (k_spy o))
    | KTimeout => let* a := oget (to_double v) in Ok (mkKw (k_tol o) (k_iter o) a (k_feas o) (k_diag o) (k_spy o))
    | KFeasibleIpm => let* a := oget (to_bool v) in Ok (mkKw (k_tol o) (k_iter o) (k_timeout o) a (k_diag o) (k_spy o))
    | KDiagnostics => let* a := oget (to_bool v) in Ok (mkKw (k_tol o) (k_iter o) (k_timeout o) (k_feas o) a (k_spy o))
    | KSpy => let* a := oget (to_bool v) in Ok (mkKw (k_tol o) (k_iter o) (k_timeout o) (k_feas o) (k_diag o) a)
    | KOther => AssertFail
    end.
  (** bind_problem.cpp 85-108: the loop. *)
  Fixpoint kw_all (o : kwopts) (kvs : list (key * obj)) : outcome kwopts :=
    match kvs with [] => Ok o | kv :: kvs => let* o := kw_set o kv in kw_all o kvs end.
  (** 80-112: the options solve() is then called with; [defaults] are the member initializers. *)
  Definition solve_kwargs {A} (defaults : kwopts) (kvs : list (key * obj)) (solve : kwopts -> outcome A) : outcome A :=
    let* o := kw_all defaults kvs in solve o.
End Kwargs.
