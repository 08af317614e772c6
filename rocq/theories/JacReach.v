(** Histories that also build and query Jacobians and Hessians. *)
From Coq Require Import ZArith List.
From Verif Require Import Base ExprModel GraphSpec VarModel VarReach JacModel.
Import ListNotations.

Section Reach.
Context {S : sops}.

(** Variable [i] of the program is decision variable [n]. *)
Definition decides (e : henv) (s : st S) (i n : nat) : Prop :=
  exists v, nth_error e i = Some v /\ v_expr v = Some n /\ is_kvar (st_nodes s) n.

(** Variable [i] of the program is the expression rooted at [n]. *)
Definition holds (e : henv) (i n : nat) : Prop := exists v, nth_error e i = Some v /\ v_expr v = Some n.

(** No decision variable occurs twice in the list. *)
Definition distinct (e : henv) (s : st S) (wrt : list nat) : Prop :=
  forall c c' i i' n, nth_error wrt c = Some i -> nth_error wrt c' = Some i' ->
    decides e s i n -> decides e s i' n -> c = c'.

(** Every variable and matrix a statement mentions exists; wrt lists hold decision variables. *)
Definition jscope (q : jstate S) (o : jop S) : Prop :=
  let '(e, js, s) := q in
  match o with
  | JH o => in_scope (length e) o
  | JMake rows wrt => (forall i, In i rows -> i < length e) /\ (forall i, In i wrt -> exists n, decides e s i n)
  | JHess f wrt _ => f < length e /\ (forall i, In i wrt -> exists n, decides e s i n)
  | JValue k | JGet k => k < length js
  end.

(** set_value() is not called on a constant while some Jacobian exists. *)
Definition keeps_constants (q : jstate S) (o : jop S) : Prop :=
  let '(e, js, s) := q in
  match o with
  | JH (HSet i _) => js = [] \/ forall v n, nth_error e i = Some v -> v_expr v = Some n -> ~ is_kconst (st_nodes s) n
  | _ => True
  end.

Definition jempty : jstate S := ([], [], st_empty S).

Inductive jreach : jstate S -> Prop :=
| jreach_0 : jreach jempty
| jreach_step o q q' out : jreach q -> jscope q o -> keeps_constants q o -> jstep o q = Ok (q', out) -> jreach q'.

(** [q'] is reached from [q] by such statements. *)
Inductive jcareful : jstate S -> jstate S -> Prop :=
| jcareful_refl q : jcareful q q
| jcareful_step q o q1 out q2 : jscope q o -> keeps_constants q o -> jstep o q = Ok (q1, out) -> jcareful q1 q2 ->
    jcareful q q2.

(** Runs of statements that mention only existing things, with what they show. *)
Inductive jruns : jstate S -> list (jop S) -> jstate S -> list (jout S) -> Prop :=
| jruns_nil q : jruns q [] q []
| jruns_cons q o q1 out l q2 out2 : jscope q o -> jstep o q = Ok (q1, out) -> jruns q1 l q2 out2 ->
    jruns q (o :: l) q2 (out ++ out2).

End Reach.
