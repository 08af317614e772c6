(** Vocabulary for C16-C18: reachability, topological order, evaluation of a graph. *)
From Coq Require Import ZArith List Arith.
From Verif Require Import Base ExprModel.
Import ListNotations.

(** Operands of node [n]. *)
Definition args (ns : list node) (n : nat) : list nat :=
  match nth_error ns n with Some nd => n_args nd | None => [] end.

(** Operands are older than their users (so the graph is finite and acyclic). *)
Definition acyclic_nodes (ns : list node) : Prop := forall n a, In a (args ns n) -> a < n.

Inductive reach (ns : list node) (r : nat) : nat -> Prop :=
| reach_refl : reach ns r r
| reach_arg n a : reach ns r n -> In a (args ns n) -> reach ns r a.

(** [l] lists the nodes reachable from [r] exactly once each, every node before its operands. *)
Definition topological (ns : list node) (r : nat) (l : list nat) : Prop :=
  NoDup l /\ (forall n, In n l <-> reach ns r n) /\
  (forall l1 n l2, l = l1 ++ n :: l2 -> forall a, In a (args ns n) -> In a l2) /\
  exists rest, l = r :: rest.

(** [Ev ns lv n v]: evaluating the expression rooted at [n] with leaf values [lv] gives [v]. *)
Inductive Ev {S : sops} (ns : list node) (lv : nat -> S) : nat -> S -> Prop :=
| Ev_const n t : nth_error ns n = Some (mkN KConst t) -> Ev ns lv n (lv n)
| Ev_var n t : nth_error ns n = Some (mkN KVar t) -> Ev ns lv n (lv n)
| Ev_un n u a t x : nth_error ns n = Some (mkN (KUn u a) t) -> Ev ns lv a x ->
    Ev ns lv n (un_value u x)
| Ev_bin n b l r t x y : nth_error ns n = Some (mkN (KBin b l r) t) -> Ev ns lv l x -> Ev ns lv r y ->
    Ev ns lv n (bin_value b x y).

(** Constants and decision variables. *)
Definition is_kconst (ns : list node) (n : nat) : Prop := exists nd, nth_error ns n = Some nd /\ n_kind nd = KConst.
Definition is_kvar (ns : list node) (n : nat) : Prop := exists nd, nth_error ns n = Some nd /\ n_kind nd = KVar.

(** Leaf values that give every constant its stored value. *)
Definition agrees {S : sops} (s : st S) (lv : nat -> S) : Prop := forall n, is_kconst (st_nodes s) n -> lv n = st_val s n.
(** Leaf values equal to the stored ones on all leaves. *)
Definition leafvals {S : sops} (s : st S) (lv : nat -> S) : Prop :=
  forall n, is_kconst (st_nodes s) n \/ is_kvar (st_nodes s) n -> lv n = st_val s n.

