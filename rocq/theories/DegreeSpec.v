(** Vocabulary for C21: mathematical value of a graph, polynomials in the decision variables. *)
From Coq Require Import ZArith Reals List.
From Coquelicot Require Import Coquelicot.
From Verif Require Import ExprModel GraphSpec MathSpec.
Import ListNotations.
Open Scope R_scope.

(** [GEv ns lv n v]: with leaf values [lv] every operation below [n] is defined, and the value is [v]. *)
Inductive GEv (ns : list node) (lv : nat -> R) : nat -> R -> Prop :=
| GEv_const n t : nth_error ns n = Some (mkN KConst t) -> GEv ns lv n (lv n)
| GEv_var n t : nth_error ns n = Some (mkN KVar t) -> GEv ns lv n (lv n)
| GEv_un n u a t x v : nth_error ns n = Some (mkN (KUn u a) t) -> GEv ns lv a x -> math_un u x v -> GEv ns lv n v
| GEv_bin n b l r t x y v : nth_error ns n = Some (mkN (KBin b l r) t) -> GEv ns lv l x -> GEv ns lv r y ->
    math_bin b x y v -> GEv ns lv n v.

(** A polynomial: monomials, each a coefficient and the variables multiplied. *)
Definition poly := list (R * list nat).
Fixpoint mon (lv : nat -> R) (vs : list nat) : R :=
  match vs with [] => 1 | w :: vs => lv w * mon lv vs end.
Fixpoint peval (lv : nat -> R) (p : poly) : R :=
  match p with [] => 0 | (c, vs) :: p => c * mon lv vs + peval lv p end.

(** Every monomial has at most [d] factors, all of them decision variables. *)
Definition degree_le (ns : list node) (d : nat) (p : poly) : Prop :=
  forall c vs, In (c, vs) p -> (length vs <= d)%nat /\ List.Forall (is_kvar ns) vs.

(** The degree each type promises. *)
Definition promised (t : etype) : option nat :=
  match t with CONSTANT => Some 0%nat | LINEAR => Some 1%nat | QUADRATIC => Some 2%nat | NONE | NONLINEAR => None end.

(** [d] is the partial derivative, at [lv] and with respect to leaf [w], of the mathematical function the
    graph denotes, wherever that function is defined around [lv]. *)
Definition gpartial (ns : list node) (lv : nat -> R) (r w : nat) (d : R) : Prop :=
  forall F, locally (lv w) (fun t => GEv ns (upd lv w t) r (F t)) -> is_derive F (lv w) d.
