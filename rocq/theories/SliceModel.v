(** Model of include/sleipnir/autodiff/slice.hpp.

    [int] is a 32-bit two's complement integer; signed overflow is undefined behaviour, so every
    arithmetic operation on [int] goes through a range check that yields [UB]. *)
From Coq Require Import ZArith Lia Bool.
From Verif Require Import Base.
Open Scope Z_scope.

(** [std::numeric_limits<int>::max()] / [min()] for 32-bit int. *)
Definition INT_MAX : Z := 2147483647.
Definition INT_MIN : Z := -2147483648.
Definition in_int (z : Z) : bool := (INT_MIN <=? z) && (z <=? INT_MAX).

(** A C++ [int] expression: the mathematical result if it is representable, else UB. *)
Definition int (z : Z) : outcome Z := if in_int z then Ok z else UB.

(** slice.hpp 25-34: the data members. *)
Record slice := mkSlice { sl_start : Z; sl_stop : Z; sl_step : Z }.

(** slice.hpp 37: the default constructor (members 28, 31, 34). *)
Definition slice_default : slice := mkSlice 0 0 1.

(** slice.hpp 78-111: [Slice(Start, Stop, Step)]; [None] is [slicing::none_t].
    ([Slice(Start, Stop)], 63-64, delegates with step 1.) *)
Definition slice_make (start stop step : option Z) : outcome slice :=
  let* st :=
    match step with
    | None => Ok 1
    | Some st => oassert (negb (st =? 0)) (Ok st)
    end in
  let st := if st =? INT_MIN then - INT_MAX else st in
  let s :=
    match start with
    | None => if st <? 0 then INT_MAX else 0
    | Some s => s
    end in
  let e :=
    match stop with
    | None => if st <? 0 then INT_MIN else INT_MAX
    | Some e => e
    end in
  Ok (mkSlice s e st).

(** slice.hpp 63-64. *)
Definition slice_make2 (start stop : option Z) : outcome slice :=
  slice_make start stop (Some 1).

(** slice.hpp 41-42: [Slice(none_t)]. *)
Definition slice_all : outcome slice := slice_make (Some 0) (Some INT_MAX) (Some 1).

(** slice.hpp 48-52: [Slice(int start)]; [start + 1] may overflow. *)
Definition slice_index (start : Z) : outcome slice :=
  let* stop := if start =? -1 then Ok INT_MAX else int (start + 1) in
  Ok (mkSlice start stop 1).

(** slice.hpp 122-130 (for start) and 132-140 (for stop): the same clamping code. *)
Definition clamp_bound (step length b : Z) : outcome Z :=
  if b <? 0 then
    let* b := int (b + length) in
    if b <? 0 then Ok (if step <? 0 then -1 else 0) else Ok b
  else if length <=? b then
    (if step <? 0 then int (length - 1) else Ok length)
  else Ok b.

(** slice.hpp 118-155: [adjust(length)]; returns the slice with its members updated and the
    selected length.  C++ [/] truncates towards zero, as [Z.quot]. *)
Definition adjust (sl : slice) (length : Z) : outcome (slice * Z) :=
  oassert (negb (sl_step sl =? 0)) (
  oassert (- INT_MAX <=? sl_step sl) (
    let step := sl_step sl in
    let* start := clamp_bound step length (sl_start sl) in
    let* stop := clamp_bound step length (sl_stop sl) in
    let* len :=
      (if step <? 0 then
         if stop <? start then
           let* d := int (start - stop) in
           let* d := int (d - 1) in
           let* nstep := int (- step) in
           int (Z.quot d nstep + 1)
         else Ok 0
       else
         if start <? stop then
           let* d := int (stop - start) in
           let* d := int (d - 1) in
           int (Z.quot d step + 1)
         else Ok 0) in
    Ok (mkSlice start stop step, len))).
