(** Specification vocabulary for C65, C71 and C72: what the printed text says. *)
From Coq Require Import ZArith Reals List.
From Verif Require Import ExprReal ExprXR DiagModel.
Import ListNotations.

(** The lines listed are those of the rows satisfying [P], in order, numbered from one. *)
Definition lists_rows (P : R -> Prop) (c : list R) (out : list line) : Prop :=
  (forall k n v, In (k, n, v) out <->
     exists r i, nth_error c i = Some r /\ P r /\ k = S i /\ n = length c /\ v = Fin r) /\
  (forall i j ki kj ni nj vi vj, (i < j)%nat -> nth_error out i = Some (ki, ni, vi) ->
     nth_error out j = Some (kj, nj, vj) -> (ki < kj)%nat).

(** Decimal reading of superscript digits, most significant first. *)
Fixpoint read_sup (acc : Z) (l : list sym) : option Z :=
  match l with
  | [] => Some acc
  | Sup d :: l => read_sup (10 * acc + d) l
  | _ => None
  end.
(** The exponent a rendered power of ten shows. *)
Definition shown_exponent (l : list sym) : option Z :=
  match l with
  | [Space; Digit 1] => Some 0%Z
  | [Digit 1; Digit 0] => Some 1%Z
  | Digit 1 :: Digit 0 :: SupMinus :: Sup d :: l => option_map Z.opp (read_sup d l)
  | Digit 1 :: Digit 0 :: Sup d :: l => read_sup d l
  | _ => None
  end.

(** Filled eighths of a bar, and the shape of one: full cells, at most one partly filled, then empty ones. *)
Definition eighths (l : list Z) : Z := fold_right Z.add 0%Z l.
Definition bar_shape (l : list Z) : Prop :=
  exists a m b, l = repeat 8%Z a ++ m ++ repeat 0%Z b /\ (m = [] \/ exists x, m = [x] /\ (0 < x < 8)%Z).
