(** Model of the Variable class (include/sleipnir/autodiff/variable.hpp): construction, operators,
    assignment, set_value and value with its cached graph. *)
From Coq Require Import ZArith List.
From Verif Require Import Base ExprModel.
Import ListNotations.

Section Var.
Context {S : sops}.

(** 270-280: expr, m_graph, m_graph_initialized. *)
Record var := mkVar { v_expr : @ptr; v_graph : list nat; v_init : bool }.

(** A freshly built Variable has no cached graph (275-280); used by 62 (decision variable), 71-75/86-99
    (constants), 104-111 (expression). *)
Definition var_of (p : @ptr) : var := mkVar p [] false.

(** 143-151. *)
Definition var_value (v : var) : E S (S * var) := fun s =>
  let* (v, s) :=
    (if v_init v then Ok (v, s)
     else let* (g, s) := topological_sort (v_expr v) s in Ok (mkVar (v_expr v) g true, s)) in
  let* s := update_values (v_graph v) s in
  let* (x, s) := pval (v_expr v) s in
  Ok ((x, v), s).

(** 125-138 (the warning on stderr is not modelled). *)
Definition var_set_value (v : var) (x : S) : E S unit := fun s =>
  match v_expr v with
  | None => UB
  | Some n => match nth_error (st_nodes s) n with None => UB | Some _ => Ok (tt, set_val s n x) end
  end.

(** A user program: a list of statements over a growing list of variables. *)
Inductive hop :=
| HNew                              (* Variable x;               62, 271-272 *)
| HConst (c : S)                    (* Variable x = c;           71-99 *)
| HUn (u : uop) (i : nat)           (* auto y = u(x_i);          386-702, 258-260 *)
| HBin (b : bop) (i j : nat)        (* auto y = b(x_i, x_j);     182-253, 436-694; scalars become constants first *)
| HHypot3 (i j k : nat)             (* auto y = hypot(x, y, z);  711-714 *)
| HCopy (i : nat)                   (* Variable y = x_i; also unary plus 265-267 *)
| HAssign (i j : nat)               (* x_i = x_j;                implicit copy assignment, also x_i += ... via a temporary *)
| HAssignScalar (i : nat) (c : S)   (* x_i = c;                  114-120 *)
| HSet (i : nat) (x : S)            (* x_i.set_value(x);         125-138 *)
| HValue (i : nat).                 (* x_i.value();              143-151 *)

Definition henv := list var.

Definition hvar (e : henv) (i : nat) : outcome var := match nth_error e i with Some v => Ok v | None => UB end.

(** Assignment to one Variable; helper, no counterpart. *)
Fixpoint hset (e : henv) (i : nat) (v : var) : henv :=
  match e, i with
  | [], _ => []
  | _ :: e, O => v :: e
  | x :: e, Datatypes.S i => x :: hset e i v
  end.

(** sqrt(pow(x, 2) + pow(y, 2) + pow(z, 2)), 711-714, in evaluation order left to right. *)
Definition e_hypot3 (x y z : @ptr) : E S (@ptr) :=
  do two <- constant_ptr (s_ofZ S 2); do a <- e_pow x two;
  do two <- constant_ptr (s_ofZ S 2); do b <- e_pow y two;
  do ab <- e_add a b;
  do two <- constant_ptr (s_ofZ S 2); do c <- e_pow z two;
  do abc <- e_add ab c; e_sqrt abc.

(** One statement; the last component lists the values returned by value(). *)
Definition hstep (o : hop) (e : henv) (s : st S) : outcome (henv * st S * list S) :=
  match o with
  | HNew => let* (p, s) := decision_ptr (s_ofZ S 0) s in Ok (e ++ [var_of p], s, [])
  | HConst c => let* (p, s) := constant_ptr c s in Ok (e ++ [var_of p], s, [])
  | HUn u i => let* v := hvar e i in let* (p, s) := e_un u (v_expr v) s in Ok (e ++ [var_of p], s, [])
  | HBin b i j => let* v := hvar e i in let* w := hvar e j in
                  let* (p, s) := e_bin b (v_expr v) (v_expr w) s in Ok (e ++ [var_of p], s, [])
  | HHypot3 i j k => let* u := hvar e i in let* v := hvar e j in let* w := hvar e k in
                  let* (p, s) := e_hypot3 (v_expr u) (v_expr v) (v_expr w) s in Ok (e ++ [var_of p], s, [])
  | HCopy i => let* v := hvar e i in Ok (e ++ [v], s, [])
  | HAssign i j => let* v := hvar e i in let* w := hvar e j in Ok (hset e i w, s, [])
  | HAssignScalar i c => let* v := hvar e i in let* (p, s) := constant_ptr c s in
                         Ok (hset e i (mkVar p (v_graph v) false), s, [])
  | HSet i x => let* v := hvar e i in let* (_, s) := var_set_value v x s in Ok (e, s, [])
  | HValue i => let* v := hvar e i in let* (r, s) := var_value v s in
                let '(x, v) := r in Ok (hset e i v, s, [x])
  end.

(** A sequence of statements. *)
Fixpoint hrun (l : list hop) (e : henv) (s : st S) : outcome (henv * st S * list S) :=
  match l with
  | [] => Ok (e, s, [])
  | o :: rest =>
      let* (r, out) := hstep o e s in
      let '(e, s) := r in
      let* (r, out') := hrun rest e s in
      Ok (r, out ++ out')
  end.

(** No node has been allocated. *)
Definition st_empty : st S := mkSt [] (fun _ => s_ofZ S 0) (fun _ => s_ofZ S 0) (fun _ => None) (fun _ => (-1)%Z).

End Var.
Arguments hop : clear implicits.
Arguments st_empty : clear implicits.
