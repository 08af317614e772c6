(** Model of include/sleipnir/autodiff/{jacobian,gradient,hessian}.hpp and of histories that use them. *)
From Coq Require Import ZArith List Bool Arith.
From Verif Require Import Base ExprModel VarModel.
Import ListNotations.

Section Jac.
Context {S : sops}.

(** Jacobian members, jacobian.hpp 159-180; the sparse matrix m_J is kept as the triplets it was set from. *)
Record jac := mkJ {
  j_vars : list (@ptr);                 (* m_variables; entries may be null in a Hessian *)
  j_wrt : list nat;                     (* m_wrt *)
  j_lists : list (list nat);            (* m_top_lists *)
  j_outs : list (list (nat * nat));     (* m_output_lists *)
  j_cached : list (@triplet S);         (* m_cached_triplets *)
  j_nonlin : list nat;                  (* m_nonlinear_rows *)
  j_J : list (@triplet S)               (* m_J *)
}.

(** Eigen's setFromTriplets sums duplicates; entries not mentioned are zero. *)
Fixpoint entry_from (acc : option S) (ts : list (@triplet S)) (i j : nat) : S :=
  match ts with
  | [] => match acc with Some x => x | None => s_ofZ S 0 end
  | (a, b, x) :: rest =>
      if Nat.eqb a i && Nat.eqb b j
      then entry_from (Some (match acc with Some y => s_add S y x | None => x end)) rest i j
      else entry_from acc rest i j
  end.
(** Entry of a matrix given by triplets. *)
Definition entry := entry_from None.

(** Range-based for that collects results; helper, no counterpart. *)
Fixpoint emap {A B} (f : A -> E S B) (l : list A) : E S (list B) :=
  match l with
  | [] => eret []
  | x :: rest => do y <- f x; do ys <- emap f rest; eret (y :: ys)
  end.

(** Dereferencing the expressions of wrt (62). *)
Definition deref (p : @ptr) : E S nat := fun s => match p with Some n => Ok (n, s) | None => UB end.

(** 60-63: mark the column of every wrt node (a repeated node keeps the last column). *)
Fixpoint set_cols (wrt : list nat) (col : nat) : E S unit :=
  match wrt with
  | [] => eret tt
  | w :: rest => fun s => set_cols rest (Datatypes.S col) (set_scr s w (Z.of_nat col))
  end.

(** 66-73. *)
Definition out_list (scr : nat -> Z) (l : list nat) : list (nat * nat) :=
  flat_map (fun n => if (scr n =? -1)%Z then [] else [(Z.to_nat (scr n), n)]) l.

(** 76-78. *)
Fixpoint reset_cols (wrt : list nat) : E S unit :=
  match wrt with
  | [] => eret tt
  | w :: rest => fun s => reset_cols rest (set_scr s w (-1))
  end.

(** 80-99: cache linear rows, list the nonlinear ones. *)
Fixpoint jac_rows (row : nat) (vars : list (@ptr)) (lists : list (list nat)) (outs : list (list (nat * nat)))
    (ts : list (@triplet S)) (nl : list nat) : E S (list (@triplet S) * list nat) :=
  match vars, lists, outs with
  | [], _, _ => eret (ts, nl)
  | v :: vars, l :: lists, o :: outs =>
      match v with
      | None => jac_rows (Datatypes.S row) vars lists outs ts nl
      | Some n => fun s =>
          let* (t, s) := ptype v s in
          if etype_eqb t LINEAR then
            let* (ts, s) := append_triplets l o ts row s in
            jac_rows (Datatypes.S row) vars lists outs ts nl s
          else if Nat.ltb (etype_rank LINEAR) (etype_rank t) then
            jac_rows (Datatypes.S row) vars lists outs ts (nl ++ [row]) s
          else jac_rows (Datatypes.S row) vars lists outs ts nl s
      end
  | _, _, _ => eub
  end.

(** 54-105 (also hessian.hpp 55-103 after the gradient tree). *)
Definition jac_make (vars : list (@ptr)) (wrt : list (@ptr)) : E S jac :=
  do w <- emap deref wrt;
  do lists <- emap topological_sort vars;
  do _ <- set_cols w 0;
  do outs <- (fun s => Ok (map (out_list (st_scr s)) lists, s));
  do _ <- reset_cols w;
  do r <- jac_rows 0 vars lists outs [] [];
  let '(ts, nl) := r in
  eret (mkJ vars w lists outs ts nl (match nl with [] => ts | _ => [] end)).

(** hessian.hpp 49-54. *)
Definition hess_make (f : @ptr) (wrt : list (@ptr)) : E S jac :=
  do w <- emap deref wrt;
  do l <- topological_sort f;
  do g <- gradient_tree l w;
  jac_make g wrt.

(** jacobian.hpp 145-150. *)
Fixpoint value_rows (rows : list nat) (lists : list (list nat)) (outs : list (list (nat * nat)))
    (ts : list (@triplet S)) (s : st S) : outcome (list (@triplet S) * st S) :=
  match rows with
  | [] => Ok (ts, s)
  | r :: rest =>
      match nth_error lists r, nth_error outs r with
      | Some l, Some o => let* (ts, s) := append_triplets l o ts r s in value_rows rest lists outs ts s
      | _, _ => UB
      end
  end.

(** 134-156. *)
Definition jac_value (j : jac) : E S (list (@triplet S) * jac) := fun s =>
  match j_nonlin j with
  | [] => Ok ((j_J j, j), s)
  | _ =>
      let* s := each update_values (j_lists j) s in
      let* (ts, s) := value_rows (j_nonlin j) (j_lists j) (j_outs j) (j_cached j) s in
      Ok ((ts, mkJ (j_vars j) (j_wrt j) (j_lists j) (j_outs j) (j_cached j) (j_nonlin j) ts), s)
  end.

(** hessian.hpp 149-154: the lower-triangular variant drops entries above the diagonal. *)
Definition lower_part (ts : list (@triplet S)) : list (@triplet S) :=
  filter (fun '(i, j, _) => Nat.leb j i) ts.

(** 119-125. *)
Definition or_zero (p : @ptr) : E S (@ptr) := match p with None => constant_ptr (s_ofZ S 0) | Some _ => eret p end.

(** 113-129. *)
Definition jac_get (j : jac) : E S (list (list (@ptr))) :=
  emap (fun l => do g <- gradient_tree l (j_wrt j); emap or_zero g) (j_lists j).

(** Programs that also build and query Jacobians (a Gradient is a Jacobian with one row, gradient.hpp 25-66)
    and Hessians. *)
Inductive jop :=
| JH (o : hop S)
| JMake (rows wrt : list nat)                  (* Jacobian J{rows, wrt}; *)
| JHess (f : nat) (wrt : list nat) (lower : bool)  (* Hessian<Scalar, UpLo> H{f, wrt}; *)
| JValue (k : nat)                             (* J.value(); *)
| JGet (k : nat).                              (* auto M = J.get();  the entries become variables, row by row *)

(** What a statement shows the user. *)
Inductive jout := OVal (x : S) | OMat (m : list (@triplet S)).

(** A Jacobian, or a Hessian with its UpLo parameter. *)
Definition jobj := (jac * bool)%type.

Definition hexpr (e : henv) (i : nat) : outcome (@ptr) := let* v := hvar e i in Ok (v_expr v).

(** As emap, outside of expressions. *)
Fixpoint omap {A B} (f : A -> outcome B) (l : list A) : outcome (list B) :=
  match l with
  | [] => Ok []
  | x :: rest => let* y := f x in let* ys := omap f rest in Ok (y :: ys)
  end.

(** Assignment to one object; helper, no counterpart. *)
Fixpoint jset (js : list jobj) (k : nat) (j : jobj) : list jobj :=
  match js, k with
  | [], _ => []
  | _ :: js, O => j :: js
  | x :: js, Datatypes.S k => x :: jset js k j
  end.

(** Variables, Jacobian objects, nodes. *)
Definition jstate := (henv * list jobj * st S)%type.

(** One statement: jacobian.hpp 38-183, hessian.hpp 33-186 through the definitions above. *)
Definition jstep (o : jop) (q : jstate) : outcome (jstate * list jout) :=
  let '(e, js, s) := q in
  match o with
  | JH o => let* (r, out) := hstep o e s in let '(e, s) := r in Ok ((e, js, s), map OVal out)
  | JMake rows wrt =>
      let* vars := omap (hexpr e) rows in
      let* ws := omap (hexpr e) wrt in
      let* (j, s) := jac_make vars ws s in Ok ((e, js ++ [(j, false)], s), [])
  | JHess f wrt lower =>
      let* p := hexpr e f in
      let* ws := omap (hexpr e) wrt in
      let* (j, s) := hess_make p ws s in Ok ((e, js ++ [(j, lower)], s), [])
  | JValue k =>
      match nth_error js k with
      | None => UB
      | Some (j, lower) =>
          let* (r, s) := jac_value j s in
          let '(m, j) := r in
          Ok ((e, jset js k (j, lower), s), [OMat (if lower then lower_part m else m)])
      end
  | JGet k =>
      match nth_error js k with
      | None => UB
      | Some (j, _) => let* (m, s) := jac_get j s in Ok ((e ++ map var_of (concat m), js, s), [])
      end
  end.

End Jac.
Arguments jac : clear implicits.
Arguments jop : clear implicits.
Arguments jout : clear implicits.
Arguments jobj : clear implicits.
Arguments jstate : clear implicits.
