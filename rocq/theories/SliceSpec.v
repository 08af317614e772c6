(** Independent specification: the index sequence of a Python slice.

    Python language reference, [slice.indices(n)] and "The slice of s from i to j with step k is
    the sequence of items with index x = i + t*k such that 0 <= t < (j-i)/k": i and j are clamped into
    [lower, upper], with (lower, upper) = (0, n) for k > 0 and (-1, n-1) for k < 0, omitted values
    are "end" values depending on the sign of k, negative values have n added first. *)
From Coq Require Import ZArith.
From Verif Require Import SliceModel.
Open Scope Z_scope.

(** Values a C++ [int] can hold. *)
Definition is_int (z : Z) : Prop := INT_MIN <= z <= INT_MAX.
Definition is_int_opt (o : option Z) : Prop :=
  match o with Some z => is_int z | None => True end.

(** An omitted step means 1. *)
Definition eff_step (step : option Z) : Z := match step with Some s => s | None => 1 end.

Definition py_lower (step : Z) : Z := if step <? 0 then -1 else 0.
Definition py_upper (n step : Z) : Z := if step <? 0 then n - 1 else n.

Definition py_clamp (n step b : Z) : Z :=
  Z.max (py_lower step) (Z.min (py_upper n step) (if b <? 0 then b + n else b)).

Definition py_start (n : Z) (start : option Z) (step : Z) : Z :=
  match start with
  | Some b => py_clamp n step b
  | None => if step <? 0 then py_upper n step else py_lower step
  end.

Definition py_stop (n : Z) (stop : option Z) (step : Z) : Z :=
  match stop with
  | Some b => py_clamp n step b
  | None => if step <? 0 then py_lower step else py_upper n step
  end.

(** "the t-th index selected by slice(start, stop, step) from a sequence of length n is x". *)
Definition py_selects (n : Z) (start stop : option Z) (step : Z) (t x : Z) : Prop :=
  0 <= t /\
  x = py_start n start step + t * step /\
  (0 < step -> x < py_stop n stop step) /\
  (step < 0 -> py_stop n stop step < x).
