(** Properties C01, C02. *)
From Coq Require Import ZArith Lia.
From Verif Require Import Base SliceModel SliceSpec SliceProofs.
Open Scope Z_scope.

(** C01: for every dimension length and every optional int start/stop and nonzero step, constructing
    and adjusting the slice succeeds and the selected sequence is Python's; all indices are in range. *)
Theorem C01_slice_is_python n start stop step :
  0 <= n <= INT_MAX -> is_int_opt start -> is_int_opt stop -> is_int_opt step ->
  eff_step step <> 0 ->
  exists sl sl' len,
    slice_make start stop step = Ok sl /\
    adjust sl n = Ok (sl', len) /\
    0 <= len <= n /\
    (forall t x, py_selects n start stop (eff_step step) t x <->
                 (0 <= t < len /\ x = sl_start sl' + t * sl_step sl')) /\
    (forall t, 0 <= t < len -> 0 <= sl_start sl' + t * sl_step sl' < n).
Proof. exact (slice_python n start stop step). Qed.
Print Assumptions C01_slice_is_python.

(** Non-trivial instance: the slice [-2::-3] of a length-9 sequence meets the hypotheses. *)
Example C01_example : 0 <= 9 <= INT_MAX /\ is_int_opt (Some (-2)) /\ is_int_opt None /\
  is_int_opt (Some (-3)) /\ eff_step (Some (-3)) <> 0 /\
  exists sl, slice_make (Some (-2)) None (Some (-3)) = Ok sl /\
             adjust sl 9 = Ok (mkSlice 7 (-1) (-3), 3).
Proof.
  unfold is_int_opt, is_int, eff_step, INT_MIN, INT_MAX.
  repeat split; try lia. eexists. split; reflexivity.
Qed.

(** C02 (part): single-integer slices inside the dimension select exactly that element. *)
Theorem C02_slice_index_partial n i :
  0 < n <= INT_MAX -> - n <= i < n ->
  exists sl sl',
    slice_index i = Ok sl /\ adjust sl n = Ok (sl', 1) /\
    sl_start sl' = (if i <? 0 then i + n else i) /\ sl_step sl' = 1.
Proof. exact (slice_index_selects n i). Qed.
Print Assumptions C02_slice_index_partial.

Example C02_example : exists sl, slice_index (-1) = Ok sl /\ adjust sl 5 = Ok (mkSlice 4 5 1, 1).
Proof. eexists; split; reflexivity. Qed.

(** C02 (full claim is false): constructing a slice from the int INT_MAX overflows. *)
Theorem C02_slice_index_refuted : exists i, is_int i /\ slice_index i = UB.
Proof. exists INT_MAX. split; [unfold is_int, INT_MIN, INT_MAX; lia | exact slice_index_overflow]. Qed.
Print Assumptions C02_slice_index_refuted.
