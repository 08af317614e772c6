(** Model of include/sleipnir/util/print_diagnostics.hpp: the lists of violated constraints, power_of_10 and
    histogram.  Not modelled: the text around them, number formatting, the iteration table. *)
From Coq Require Import ZArith Reals List Bool.
From Verif Require Import Base ExprModel ExprReal ExprXR NumModel.
Import ListNotations.

(** The printed lines: row + 1, number of rows, value. *)
Definition line := (nat * nat * XR)%type.
(** 97-101, 119-124, 142-147 (the three loops are the same). *)
Fixpoint violated_from (row rows : nat) (c : list XR) : list line :=
  match c with
  | [] => []
  | v :: c => (if X_ltb v (Fin 0) then [(S row, rows, v)] else []) ++ violated_from (S row) rows c
  end.
(** print_diagnostics.hpp 97-101: the loop over all rows. *)
Definition print_violated (c : list XR) : list line := violated_from 0 (length c) c.
Definition print_too_few_dofs_error := print_violated.               (* 93-102 *)
Definition print_c_e_local_infeasibility_error := print_violated.    (* 114-125 *)
Definition print_c_i_local_infeasibility_error := print_violated.    (* 137-148 *)

(** Characters of power_of_10. *)
Inductive sym := Space | Digit (d : Z) | SupMinus | Sup (d : Z).

(** static_cast<int> of a real: truncation toward zero. *)
Definition trunc (x : R) : Z := if Rle_dec 0 x then Int_part x else (- Int_part (- x))%Z.

(** 60-66: least significant digit first. *)
Fixpoint digits (fuel : nat) (n : Z) : outcome (list Z) :=
  match fuel with
  | O => OutOfFuel
  | S fuel =>
      if (0 <? n / 10)%Z then let* ds := digits fuel (n / 10) in Ok (n mod 10 :: ds)%Z else Ok [(n mod 10)%Z]
  end.
(** 68-80; an index outside the ten strings is undefined behaviour. *)
Fixpoint superscripts (ds : list Z) : outcome (list sym) :=
  match ds with
  | [] => Ok []
  | d :: ds => if (0 <=? d)%Z && (d <? 10)%Z then let* r := superscripts ds in Ok (Sup d :: r) else UB
  end.
(** 49-84; log10 of a negative value is NaN, whose conversion to int is undefined behaviour. *)
Definition power_of_10 (value : R) : outcome (list sym) :=
  if Req_EM_T value 0 then Ok [Space; Digit 0]
  else if Rlt_dec value 0 then UB
  else
    let exponent := trunc (R_log10 value) in
    if (exponent =? 0)%Z then Ok [Space; Digit 1]
    else if (exponent =? 1)%Z then Ok [Digit 1; Digit 0]
    else
      let* ds := digits (S (Z.to_nat (Z.abs exponent))) (Z.abs exponent) in
      let* sup := superscripts (rev ds) in
      Ok ([Digit 1; Digit 0] ++ (if (exponent <? 0)%Z then [SupMinus] else []) ++ sup).

(** 257-283: cells filled by eighths; [value] a real (a NaN would be undefined behaviour in the cast of 263). *)
Fixpoint hist_full (fuel : nat) (index ipart : Z) : outcome (list Z * Z) :=      (* 269-272 *)
  match fuel with
  | O => OutOfFuel
  | S fuel =>
      if (index <? ipart)%Z then let* (r, i) := hist_full fuel (index + 1) ipart in Ok (8%Z :: r, i) else Ok ([], index)
  end.
Fixpoint hist_pad (fuel : nat) (index width : Z) : outcome (list Z) :=           (* 277-280 *)
  match fuel with
  | O => OutOfFuel
  | S fuel => if (index <? width)%Z then let* r := hist_pad fuel (index + 1) width in Ok (0%Z :: r) else Ok []
  end.
(** print_diagnostics.hpp 259-283. *)
Definition histogram (width : Z) (value : R) : outcome (list Z) :=
  let value := if Rlt_dec value 0 then 0%R else if Rlt_dec 1 value then 1%R else value in
  let scaled := (value * IZR width)%R in
  let ipart := Int_part scaled in
  let fpart := Int_part ((scaled - IZR ipart) * 8) in
  let fuel := S (Z.to_nat width) in
  let* (full, index) := hist_full fuel 0 ipart in
  let mid := if (0 <? fpart)%Z then [fpart] else [] in
  let index := if (0 <? fpart)%Z then (index + 1)%Z else index in
  let* pad := hist_pad fuel index width in
  Ok (full ++ mid ++ pad).
