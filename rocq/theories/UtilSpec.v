(** Vocabulary for C40, C43, C46, C47, C48, C63, C64. *)
From Coq Require Import ZArith Reals List Bool.
From Verif Require Import ExprModel ExprReal ExprXR NumModel LinR UtilModel.
Import ListNotations.
Local Open Scope R_scope.

(** C43: moving by [a p] keeps at least the fraction 1 - tau of every component. *)
Definition keeps (x p : list R) (tau a : R) : Prop :=
  forall i, (i < length x)%nat -> x.[i] + a * p.[i] >= (1 - tau) * x.[i].

(** C40: [f] is the largest factor in (0,1] that makes all the numbers at most 100 in magnitude. *)
Definition scales (f : R) (xs : list R) : Prop :=
  0 < f <= 1 /\ (forall x, In x xs -> Rabs (f * x) <= 100) /\ (f = 1 \/ exists x, In x xs /\ Rabs (f * x) = 100).
(** The stored numbers of row r. *)
Definition row_values (r : nat) (A : list (nat * nat * R)) : list R :=
  map (fun e => snd e) (filter (fun e => Nat.eqb (fst (fst e)) r) A).
(** The same matrix with extended real entries. *)
Definition Fin_entries (A : list (nat * nat * R)) : sparse Xn := map (fun e => (fst e, Fin (snd e) : Xn)) A.

(** C46: pivots by sign, with the tolerance 2^-52. *)
Definition tiny : R := 1 / IZR (2 ^ 52).
Definition count (P : R -> bool) (l : list R) : nat := length (filter P l).
Definition signs (n m : nat) (D : list R) : Prop :=
  count (fun x => R_ltb tiny x) D = n /\ count (fun x => R_ltb x (- tiny)) D = m /\ (forall x, In x D -> tiny < Rabs x).

(** C47: [stored m r c v]: the matrix stores v at (r, c). *)
Definition stored {S} (m : csc S) (r c : nat) (v : S) : Prop := exists es, nth_error (c_cols m) c = Some es /\ In (r, v) es.
Definition before {S} (a b : nat * nat * S) : Prop :=
  let '(ra, ca, _) := a in let '(rb, cb, _) := b in (ca < cb \/ (ca = cb /\ ra < rb))%nat.
Inductive ascending {A} (lt : A -> A -> Prop) : list A -> Prop :=
| asc_nil : ascending lt []
| asc_cons a l : (forall b, In b l -> lt a b) -> ascending lt l -> ascending lt (a :: l).
(** A well-formed compressed matrix: rows strictly increase within each column and are in range. *)
Definition csc_ok {S} (m : csc S) : Prop :=
  forall es, In es (c_cols m) -> ascending (fun a b => (fst a < fst b)%nat) es /\ forall e, In e es -> (fst e < c_rows m)%nat.

(** C48: the elastic barrier objective. *)
Definition elastic (rho mu p n : R) : R := rho * (p + n) - mu * (ln p + ln n).
