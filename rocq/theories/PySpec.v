(** What Python users expect of x[i, j] on a two-dimensional array (NumPy), in terms of subscripts only. *)
From Coq Require Import ZArith List Bool.
From Verif Require Import Base SliceModel SliceSpec MatrixModel MatrixSpec PyModel.
Import ListNotations.
Open Scope Z_scope.

(** In a dimension of length [n], subscript [i] selects [len] indices, the t-th being [f t]. *)
Inductive selects (n : Z) : pyidx -> Z -> (Z -> Z) -> Prop :=
| sel_int i : - n <= i < n -> selects n (IInt i) 1 (fun _ => if i <? 0 then i + n else i)
| sel_slice a b s len f : eff_step s <> 0 -> 0 <= len ->
    (forall t x, py_selects n a b (eff_step s) t x <-> 0 <= t < len /\ x = f t) -> selects n (ISlice a b s) len f.
(** Subscripts an array refuses. *)
Definition refuses (n : Z) (i : pyidx) : Prop :=
  match i with IInt i => ~ (- n <= i < n) | ISlice _ _ s => eff_step s = 0 end.

Definition is_slice (i : pyidx) : Prop := match i with ISlice _ _ _ => True | IInt _ => False end.
(** A step no longer than the dimension; a longer one selects at most one index. *)
Definition modest (n : Z) (i : pyidx) : Prop := match i with ISlice _ _ s => Z.abs (eff_step s) <= Z.max 1 n | IInt _ => True end.
(** M[-k, start:stop:step] of a VariableMatrix. *)
Definition odd_row (x : pyobj) (i j : pyidx) : Prop :=
  match x, i with OMat, IInt i => i < 0 /\ is_slice j | _, _ => False end.

(** Matrices with at most 2^28 rows and columns. *)
Definition moderate (r c : Z) : Prop := r <= 268435456 /\ c <= 268435456.

(** v = x[i, j] for a nonempty x and subscripts that select [li] x [lj] entries, not of the form M[-k, start:stop:step]. *)
Definition subscript {E} (m : vmat E) (x : pyobj) (i j : pyidx) (li : Z) (f : Z -> Z) (lj : Z) (g : Z -> Z) (v : view) : Prop :=
  1 <= o_rows m x /\ 1 <= o_cols m x /\ selects (o_rows m x) i li f /\ selects (o_cols m x) j lj g /\
  modest (o_rows m x) i /\ modest (o_cols m x) j /\ ~ odd_row x i j /\ getitem m x i j = Ok (RBlock v).

(** What a program can hold: the matrix, and the blocks obtained from it by subscripts, one after another. *)
Inductive held {E} (m : vmat E) : pyobj -> Prop :=
| held_mat : held m OMat
| held_sub x i j li f lj g v : held m x -> subscript m x i j li f lj g v -> held m (OBlock v).

(** x[a, b] is the matrix' entry (r, c): x[I, J][a, b] is x[I_a, J_b]. *)
Inductive entry {E} (m : vmat E) : pyobj -> Z -> Z -> Z -> Z -> Prop :=
| entry_mat r c : inr (m_rows m) (m_cols m) r c -> entry m OMat r c r c
| entry_sub x i j li f lj g v a b r c : subscript m x i j li f lj g v -> inr li lj a b -> entry m x (f a) (g b) r c ->
    entry m (OBlock v) a b r c.

(** x[f a, g b] has become [G a b] for all a, b, and all other entries of the matrix are what they were. *)
Definition written {E} (m m' : vmat E) (x : pyobj) (li lj : Z) (f g : Z -> Z) (G : Z -> Z -> E) : Prop :=
  m_rows m' = m_rows m /\ m_cols m' = m_cols m /\
  (forall a b, inr li lj a b -> getitem m' x (IInt (f a)) (IInt (g b)) = Ok (RVar (G a b))) /\
  (forall r c, inr (m_rows m) (m_cols m) r c -> (forall a b, inr li lj a b -> ~ entry m x (f a) (g b) r c) ->
     getitem m' OMat (IInt r) (IInt c) = getitem m OMat (IInt r) (IInt c)).

(** Keyword arguments: [val] is what argument [k] gives, or the default when it was not passed. *)
Definition gives {obj A} (kvs : list (key * obj)) (k : key) (cast : obj -> option A) (default val : A) : Prop :=
  (exists v, In (k, v) kvs /\ cast v = Some val) \/ ((forall v, ~ In (k, v) kvs) /\ val = default).
(** A keyword argument solve() knows, with a value it can use. *)
Definition usable {obj D} (to_double : obj -> option D) (to_i : obj -> option Z) (to_bool : obj -> option bool) (kv : key * obj) : Prop :=
  match fst kv with
  | KTolerance | KTimeout => to_double (snd kv) <> None
  | KMaxIterations => to_i (snd kv) <> None
  | KFeasibleIpm | KDiagnostics | KSpy => to_bool (snd kv) <> None
  | KOther => False
  end.
