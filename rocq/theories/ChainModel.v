(** Model of chained comparisons in Python, a <= x <= b and longer ones, on constraint objects: the bindings give them
    __bool__ (python/cpp/optimization/bind_equality_constraints.cpp 23-26, bind_inequality_constraints.cpp 24-27), which
    Python asks between the links. *)
From Coq Require Import List Arith.
From Verif Require Import Base ExprModel VarModel ProblemModel.
Import ListNotations.

Section Chain.
Context {S : sops}.

(** a c1 b c2 d ... (external, the language reference): a c1 b is computed; if it is the last link or not true it is the
    result, otherwise the rest of the chain from b is.  Each operand is computed once.  The result is the number of the
    constraint object.  A comparison with a number on the left is asked of the right operand, exchanged
    (bind_variable.cpp 128-139, bind_variable_matrix.cpp 455-466); that is the same constraint, variable.hpp 933-1001.
    Simplified: a link between two numbers is a bool in Python; such links are not meant. *)
Fixpoint chain (a : operand S) (links : list (cmp * operand S)) (p : prog S) : outcome (prog S * nat) :=
  match links with
  | [] => AssertFail
  | (c, b) :: rest =>
      let k := length (p_cons p) in
      let* (p, _) := pstep (PCompare c a b) p in
      match rest with
      | [] => Ok (p, k)
      | _ :: _ =>
          let* (p, out) := pstep (PBool k) p in
          match out with
          | [PTest t] => if t then chain b rest p else Ok (p, k)
          | _ => UB
          end
      end
  end.

(** problem.subject_to(a c1 b c2 d ...): bind_problem.cpp 64-71, problem.hpp 196-234. *)
Definition subject_chain (a : operand S) (links : list (cmp * operand S)) (p : prog S) : outcome (prog S) :=
  let* (p, k) := chain a links p in
  let* (p, _) := pstep (PSubject k) p in Ok p.
End Chain.
