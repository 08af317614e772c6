(** Lists as matrices, for C103. *)
From Coq Require Import ZArith List.
Import ListNotations.
Open Scope Z_scope.

(** [L] lists the rows of the r x c matrix [F]. *)
Definition rows_of_matrix {E} (L : list (list E)) (r c : Z) (F : Z -> Z -> E) : Prop :=
  Z.of_nat (length L) = r /\ 0 < r /\
  forall i, 0 <= i < r -> exists row, nth_error L (Z.to_nat i) = Some row /\ Z.of_nat (length row) = c /\
    forall j, 0 <= j < c -> nth_error row (Z.to_nat j) = Some (F i j).
