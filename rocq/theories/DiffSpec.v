(** Vocabulary for C21-C30: where operators are differentiable, partial derivatives of graphs,
    polynomials of degree one and two. *)
From Coq Require Import ZArith Reals List.
From Coquelicot Require Import Coquelicot.
From Verif Require Import Base ExprModel GraphSpec ExprReal MathSpec.
Import ListNotations.
Open Scope R_scope.

(** The derivative formula of the operator makes sense at the operands. *)
Definition regular_un (u : uop) (x : R) : Prop :=
  match u with
  | UAcos | UAsin => -1 < x < 1
  | UCbrt => x <> 0
  | ULog | ULog10 | USqrt => 0 < x
  | UTan => cos x <> 0
  | _ => True
  end.
Definition regular_bin (b : bop) (x y : R) : Prop :=
  match b with
  | BDiv => y <> 0
  | BAtan2 | BHypot => x <> 0 \/ y <> 0
  | BPow => 0 < x
  | _ => True
  end.
(** Powers with a constant integer exponent. *)
Definition int_power (x p : R) : Prop := exists z, p = IZR z /\ (x <> 0 \/ (1 <= z)%Z).

(** Points where the operator is not differentiable although its derivative formula makes sense. *)
Definition kink_un (u : uop) (x : R) : Prop :=
  match u with UAbs | UIsNonneg | UIsPos | USign => x = 0 | _ => False end.
Definition kink_bin (b : bop) (x y : R) : Prop :=
  match b with BMax | BMin => x = y | BAtan2 => x = 0 /\ y < 0 | _ => False end.

(** The operator of node [n] is used at a regular (smooth) point. *)
Definition node_regular (ns : list node) (lv : nat -> R) (n : nat) : Prop :=
  forall nd, nth_error ns n = Some nd ->
  match n_kind nd with
  | KConst | KVar => True
  | KUn u a => forall x, Ev (S := R_ops) ns lv a x -> regular_un u x
  | KBin b l r => forall x y, Ev (S := R_ops) ns lv l x -> Ev (S := R_ops) ns lv r y ->
      regular_bin b x y \/ (b = BPow /\ is_kconst ns r /\ int_power x y)
  end.
Definition node_smooth (ns : list node) (lv : nat -> R) (n : nat) : Prop :=
  node_regular ns lv n /\
  forall nd, nth_error ns n = Some nd ->
  match n_kind nd with
  | KConst | KVar => True
  | KUn u a => forall x, Ev (S := R_ops) ns lv a x -> ~ kink_un u x
  | KBin b l r => forall x y, Ev (S := R_ops) ns lv l x -> Ev (S := R_ops) ns lv r y -> ~ kink_bin b x y
  end.
(** ... in the whole expression rooted at [r]. *)
Definition regular (ns : list node) (lv : nat -> R) (r : nat) : Prop := forall n, reach ns r n -> node_regular ns lv n.
Definition smooth (ns : list node) (lv : nat -> R) (r : nat) : Prop := forall n, reach ns r n -> node_smooth ns lv n.

(** [d] is the partial derivative of the function rooted at [r] with respect to leaf [w] at [lv]. *)
Definition partial (ns : list node) (lv : nat -> R) (r w : nat) (d : R) : Prop :=
  forall F, (forall t, Ev (S := R_ops) ns (upd lv w t) r (F t)) -> is_derive F (lv w) d.

(** [d] is the second partial derivative with respect to [w] and then [w']. *)
Definition partial2 (ns : list node) (lv : nat -> R) (r w w' : nat) (d : R) : Prop :=
  exists G, locally (lv w') (fun t => partial ns (upd lv w' t) r w (G t)) /\ is_derive G (lv w') d.

(** The relation [P], read as a partial function, is defined around [x] and has derivative [d] there. *)
Definition derivative_at (P : R -> R -> Prop) (x d : R) : Prop :=
  exists f, locally x (fun t => P t (f t)) /\ is_derive f x d.
