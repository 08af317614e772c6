(** Model of constraint objects (include/sleipnir/autodiff/variable.hpp 715-1014) and of the part of
    include/sleipnir/optimization/problem.hpp that builds a problem (68-272).

    Every Variable object of the program -- the user's, the ones inside constraint objects and the Problem's own
    copies -- is a slot of the variable list [henv] of VarModel.v, so that two copies of a Variable share the
    expression but have their own cached graph, as in the code. *)
From Coq Require Import ZArith List Bool Arith.
From Verif Require Import Base ExprModel VarModel.
Import ListNotations.

Section Problem.
Context {S : sops}.

(** Code that works on the variables of the program. *)
Definition P (A : Type) := henv -> st S -> outcome (A * henv * st S).
Definition pret {A} (a : A) : P A := fun e s => Ok (a, e, s).
Definition pbind {A B} (m : P A) (f : A -> P B) : P B := fun e s =>
  let* (r, s) := m e s in let '(a, e) := r in f a e s.
Local Notation "'pdo' x <- m ; k" := (pbind m (fun x => k)) (at level 61, m at next level, right associativity).

(** A statement that creates a Variable; the result is the slot of the new object. *)
Definition pnew (o : hop S) : P nat := fun e s =>
  let* (r, _) := hstep o e s in let '(e', s') := r in Ok (length e, e', s').

(** x.value(), variable.hpp 143-151. *)
Definition pvalue (i : nat) : P S := fun e s =>
  let* (r, out) := hstep (HValue i) e s in let '(e', s') := r in
  match out with [x] => Ok (x, e', s') | _ => UB end.

(** Range-based for that collects results; helper, no counterpart. *)
Fixpoint pmap {A B} (f : A -> P B) (l : list A) : P (list B) :=
  match l with
  | [] => pret []
  | x :: rest => pdo y <- f x; pdo ys <- pmap f rest; pret (y :: ys)
  end.

(** The two sides of a comparison: ScalarLike or MatrixLike, made of Variables or of numbers
    (concepts.hpp; matrices row by row, with as many entries as rows times columns).  Blocks of a VariableMatrix
    are matrices of Variables here: what a block shows is in MatrixModel.v. *)
Inductive operand :=
| OVar (i : nat)
| ONum (c : S)
| OVars (rows cols : nat) (l : list nat)
| ONums (rows cols : nat) (l : list S).

(** rows() and cols() of an operand; none for scalars. *)
Definition oshape (o : operand) : option (nat * nat) :=
  match o with OVar _ | ONum _ => None | OVars r c _ => Some (r, c) | ONums r c _ => Some (r, c) end.

(** The Variable for element (row, col); a scalar stands for every element (738, 754); a number becomes a new constant
    each time it is used (variable.hpp 182-253: the operators take const Variable&). *)
Definition oelem (o : operand) (row col : nat) : P nat :=
  match o with
  | OVar i => pret i
  | ONum c => pnew (HConst c)
  | OVars _ cols l => fun e s => match nth_error l (row * cols + col) with Some i => Ok (i, e, s) | None => UB end
  | ONums _ cols l => match nth_error l (row * cols + col) with Some c => pnew (HConst c) | None => fun _ _ => UB end
  end.

(** for (row ...) for (col ...), row by row. *)
Definition cells (rows cols : nat) : list (nat * nat) := list_prod (seq 0 rows) (seq 0 cols).

Definition sub_at (lhs rhs : operand) (rc : nat * nat) : P nat :=
  pdo a <- oelem lhs (fst rc) (snd rc);
  pdo b <- oelem rhs (fst rc) (snd rc);
  pnew (HBin BSub a b).

(** make_constraints, 721-778. *)
Definition make_constraints (lhs rhs : operand) : P (list nat) :=
  match oshape lhs, oshape rhs with
  | None, None => pmap (sub_at lhs rhs) [(0, 0)]                    (* 721-728 *)
  | None, Some (r, c) => pmap (sub_at lhs rhs) (cells r c)          (* 730-744 *)
  | Some (r, c), None => pmap (sub_at lhs rhs) (cells r c)          (* 746-760 *)
  | Some (r, c), Some (r', c') => fun e s =>                        (* 762-778 *)
      oassert (Nat.eqb r r' && Nat.eqb c c') (pmap (sub_at lhs rhs) (cells r c) e s)
  end.

Inductive cmp := CEq | CLt | CLe | CGt | CGe.

(** A constraint object: true for EqualityConstraints (784-835), false for InequalityConstraints (841-893). *)
Definition cons := (bool * list nat)%type.

(** The comparison operators, 899-1001. *)
Definition compare (c : cmp) (lhs rhs : operand) : P cons :=
  match c with
  | CEq => pdo l <- make_constraints lhs rhs; pret (true, l)        (* 899-926 *)
  | CLt | CLe => pdo l <- make_constraints rhs lhs; pret (false, l) (* 933-952: rhs >= lhs *)
  | CGt | CGe => pdo l <- make_constraints lhs rhs; pret (false, l) (* 959-1001 *)
  end.

(** Copies of a list of Variables. *)
Definition copies (l : list nat) : P (list nat) := pmap (fun i => pnew (HCopy i)) l.

(** The concatenating constructors, 792-811 and 849-868.  The list elements have one C++ type, so they are all
    equality or all inequality constraints. *)
Definition concat_cons (b : bool) (l : list cons) : P cons :=
  fun e s => if forallb (fun c => Bool.eqb (fst c) b) l
             then (pdo r <- copies (flat_map snd l); pret (b, r)) e s else UB.

(** bounds(l, x, u), 1008-1013. *)
Definition bounds (l x u : operand) : P cons :=
  pdo a <- compare CLe l x; pdo b <- compare CLe x u; concat_cons false [a; b].

(** std::ranges::all_of stops at the first element that fails (830-834, 888-892). *)
Fixpoint all_of (test : S -> bool) (l : list nat) : P bool :=
  match l with
  | [] => pret true
  | i :: rest => pdo x <- pvalue i; if test x then all_of test rest else pret false
  end.

(** operator bool, variable.hpp 830-834 and 888-892. *)
Definition cons_bool (c : cons) : P bool :=
  if fst c then all_of (fun x => s_eqb S x (s_ofZ S 0)) (snd c)
  else all_of (fun x => s_leb S (s_ofZ S 0) x) (snd c).

(** A matrix under construction: VariableMatrix{detail::empty, rows, cols} holds null Variables. *)
Fixpoint mput (m : list (option nat)) (k : nat) (i : nat) : list (option nat) :=
  match m, k with
  | [], _ => []
  | _ :: m, O => Some i :: m
  | x :: m, Datatypes.S k => x :: mput m k i
  end.

(** Are all Variables of the matrix set? *)
Fixpoint all_some (m : list (option nat)) : option (list nat) :=
  match m with
  | [] => Some []
  | None :: _ => None
  | Some i :: m => match all_some m with Some l => Some (i :: l) | None => None end
  end.

(** vars[row, col] = m_decision_variables.back(); a write outside the matrix is undefined. *)
Definition put_copy (m : list (option nat)) (k d : nat) : P (list (option nat)) := fun e s =>
  if Nat.ltb k (length m) then (pdo i <- pnew (HCopy d); pret (mput m k i)) e s else UB.

Fixpoint pfold {A B} (f : A -> B -> P B) (l : list A) (b : B) : P B :=
  match l with
  | [] => pret b
  | a :: rest => pdo b' <- f a b; pfold f rest b'
  end.

(** The finished matrix; a null Variable in it would be undefined behaviour. *)
Definition finish (b : list nat * list (option nat)) : P (list nat * list nat) := fun e s =>
  match all_some (snd b) with Some l => Ok ((fst b, l), e, s) | None => UB end.

(** problem.hpp 91-104 (and 77-81 as the one by one case).  The pair is the extended list of decision variables and
    the returned matrix, row by row. *)
Definition decision_variable (dec : list nat) (rows cols : nat) : P (list nat * list nat) :=
  pdo b <- pfold (fun rc b =>
      pdo d <- pnew HNew;
      pdo m <- put_copy (snd b) (fst rc * cols + snd rc) d;
      pret (fst b ++ [d], m)) (cells rows cols) (dec, repeat None (rows * cols));
  finish b.

(** 118-140: only the lower triangle is allocated. *)
Definition lower_cells (rows : nat) : list (nat * nat) :=
  flat_map (fun r => map (fun c => (r, c)) (seq 0 (Datatypes.S r))) (seq 0 rows).

Definition symmetric_decision_variable (dec : list nat) (rows : nat) : P (list nat * list nat) :=
  pdo b <- pfold (fun rc b =>
      pdo d <- pnew HNew;
      pdo m <- put_copy (snd b) (fst rc * rows + snd rc) d;
      pdo m <- put_copy m (snd rc * rows + fst rc) d;
      pret (fst b ++ [d], m)) (lower_cells rows) (dec, repeat None (rows * rows));
  finish b.

(** A program with one Problem: the slots of the user's variables, the constraint objects made so far, and the
    members m_decision_variables, m_f, m_equality_constraints, m_inequality_constraints (742-754). *)
Record prog := mkP {
  p_env : henv; p_st : st S;
  p_user : list nat; p_cons : list cons;
  p_dec : list nat; p_f : option nat; p_eq : list nat; p_ineq : list nat }.

(** A program before its first statement. *)
Definition prog_empty : prog := mkP [] (st_empty S) [] [] [] None [] [].

(** Statements; variables and constraint objects are numbered in order of creation. *)
Inductive pop :=
| PH (o : hop S)                         (* a statement of VarModel.v on the user's variables *)
| PCompare (c : cmp) (lhs rhs : operand) (* auto k = lhs == rhs; and the four other operators *)
| PBounds (l x u : operand)              (* auto k = bounds(l, x, u); *)
| PConcat (b : bool) (ks : list nat)     (* EqualityConstraints{k1, k2, ...} (b) or InequalityConstraints *)
| PBool (k : nat)                        (* bool(k) *)
| PDecision (rows cols : nat)            (* the entries of the matrix become user variables, row by row *)
| PSymmetric (rows : nat)
| PMinimize (i : nat)                    (* 150-161 *)
| PMaximize (i : nat)                    (* 172-187 *)
| PSubject (k : nat).                    (* 193-232 *)

Inductive pout := PVal (x : S) | PTest (b : bool).

Definition uslot (p : prog) (i : nat) : outcome nat :=
  match nth_error (p_user p) i with Some k => Ok k | None => UB end.

(** Statement of the user with their variables replaced by slots. *)
Definition hop_at (f : nat -> outcome nat) (o : hop S) : outcome (hop S) :=
  match o with
  | HNew => Ok HNew
  | HConst c => Ok (HConst c)
  | HUn u i => let* i := f i in Ok (HUn u i)
  | HBin b i j => let* i := f i in let* j := f j in Ok (HBin b i j)
  | HHypot3 i j k => let* i := f i in let* j := f j in let* k := f k in Ok (HHypot3 i j k)
  | HCopy i => let* i := f i in Ok (HCopy i)
  | HAssign i j => let* i := f i in let* j := f j in Ok (HAssign i j)
  | HAssignScalar i c => let* i := f i in Ok (HAssignScalar i c)
  | HSet i x => let* i := f i in Ok (HSet i x)
  | HValue i => let* i := f i in Ok (HValue i)
  end.

(** Does the statement introduce a new variable? *)
Definition creates (o : hop S) : bool :=
  match o with
  | HNew | HConst _ | HUn _ _ | HBin _ _ _ | HHypot3 _ _ _ | HCopy _ => true
  | HAssign _ _ | HAssignScalar _ _ | HSet _ _ | HValue _ => false
  end.

(** The Variables a list of indices refers to. *)
Fixpoint slots (f : nat -> outcome nat) (l : list nat) : outcome (list nat) :=
  match l with
  | [] => Ok []
  | i :: rest => let* k := f i in let* ks := slots f rest in Ok (k :: ks)
  end.

(** The operand a statement refers to. *)
Definition operand_at (f : nat -> outcome nat) (o : operand) : outcome operand :=
  match o with
  | OVar i => let* i := f i in Ok (OVar i)
  | OVars r c l => let* l := slots f l in Ok (OVars r c l)
  | ONum _ | ONums _ _ _ => Ok o
  end.

(** A constraint object a statement refers to. *)
Definition pcons (p : prog) (k : nat) : outcome cons :=
  match nth_error (p_cons p) k with Some c => Ok c | None => UB end.

(** Several of them. *)
Fixpoint pconss (p : prog) (l : list nat) : outcome (list cons) :=
  match l with
  | [] => Ok []
  | k :: rest => let* c := pcons p k in let* cs := pconss p rest in Ok (c :: cs)
  end.

(** Assignment to a component of the program state; likewise the following ones. *)
Definition set_mem (p : prog) (e : henv) (s : st S) : prog :=
  mkP e s (p_user p) (p_cons p) (p_dec p) (p_f p) (p_eq p) (p_ineq p).
(** A new constraint object. *)
Definition add_cons (p : prog) (c : cons) : prog :=
  mkP (p_env p) (p_st p) (p_user p) (p_cons p ++ [c]) (p_dec p) (p_f p) (p_eq p) (p_ineq p).
(** New Variables of the user. *)
Definition add_user (p : prog) (l : list nat) : prog :=
  mkP (p_env p) (p_st p) (p_user p ++ l) (p_cons p) (p_dec p) (p_f p) (p_eq p) (p_ineq p).
(** m_decision_variables. *)
Definition set_dec (p : prog) (l : list nat) : prog :=
  mkP (p_env p) (p_st p) (p_user p) (p_cons p) l (p_f p) (p_eq p) (p_ineq p).
(** m_f. *)
Definition set_f (p : prog) (i : nat) : prog :=
  mkP (p_env p) (p_st p) (p_user p) (p_cons p) (p_dec p) (Some i) (p_eq p) (p_ineq p).
(** m_equality_constraints, problem.hpp 196-213. *)
Definition add_eq (p : prog) (l : list nat) : prog :=
  mkP (p_env p) (p_st p) (p_user p) (p_cons p) (p_dec p) (p_f p) (p_eq p ++ l) (p_ineq p).
(** m_inequality_constraints, problem.hpp 218-234. *)
Definition add_ineq (p : prog) (l : list nat) : prog :=
  mkP (p_env p) (p_st p) (p_user p) (p_cons p) (p_dec p) (p_f p) (p_eq p) (p_ineq p ++ l).

(** One statement of the program: problem.hpp 78-234 through the definitions above. *)
Definition pstep (o : pop) (p : prog) : outcome (prog * list pout) :=
  match o with
  | PH o =>
      let* o := hop_at (uslot p) o in
      let* (r, out) := hstep o (p_env p) (p_st p) in
      let '(e, s) := r in
      let p' := set_mem p e s in
      Ok (if creates o then add_user p' [length (p_env p)] else p', map PVal out)
  | PCompare c lhs rhs =>
      let* lhs := operand_at (uslot p) lhs in
      let* rhs := operand_at (uslot p) rhs in
      let* (r, s) := compare c lhs rhs (p_env p) (p_st p) in
      let '(k, e) := r in Ok (add_cons (set_mem p e s) k, [])
  | PBounds l x u =>
      let* l := operand_at (uslot p) l in
      let* x := operand_at (uslot p) x in
      let* u := operand_at (uslot p) u in
      let* (r, s) := bounds l x u (p_env p) (p_st p) in
      let '(k, e) := r in Ok (add_cons (set_mem p e s) k, [])
  | PConcat b ks =>
      let* l := pconss p ks in
      let* (r, s) := concat_cons b l (p_env p) (p_st p) in
      let '(k, e) := r in Ok (add_cons (set_mem p e s) k, [])
  | PBool k =>
      let* c := pcons p k in
      let* (r, s) := cons_bool c (p_env p) (p_st p) in
      let '(b, e) := r in Ok (set_mem p e s, [PTest b])
  | PDecision rows cols =>
      let* (r, s) := decision_variable (p_dec p) rows cols (p_env p) (p_st p) in
      let '((dec, m), e) := r in Ok (add_user (set_dec (set_mem p e s) dec) m, [])
  | PSymmetric rows =>
      let* (r, s) := symmetric_decision_variable (p_dec p) rows (p_env p) (p_st p) in
      let '((dec, m), e) := r in Ok (add_user (set_dec (set_mem p e s) dec) m, [])
  | PMinimize i =>
      let* i := uslot p i in
      let* (r, s) := pnew (HCopy i) (p_env p) (p_st p) in
      let '(f, e) := r in Ok (set_f (set_mem p e s) f, [])
  | PMaximize i =>
      let* i := uslot p i in
      let* (r, s) := pnew (HUn UNeg i) (p_env p) (p_st p) in
      let '(f, e) := r in Ok (set_f (set_mem p e s) f, [])
  | PSubject k =>
      let* c := pcons p k in
      let* (r, s) := copies (snd c) (p_env p) (p_st p) in
      let '(l, e) := r in
      let p' := set_mem p e s in
      Ok (if fst c then add_eq p' l else add_ineq p' l, [])
  end.

(** A program. *)
Fixpoint prun (l : list pop) (p : prog) : outcome (prog * list pout) :=
  match l with
  | [] => Ok (p, [])
  | o :: rest =>
      let* (p, out) := pstep o p in
      let* (p, out') := prun rest p in
      Ok (p, out ++ out')
  end.

End Problem.
Arguments operand : clear implicits.
Arguments prog : clear implicits.
Arguments prog_empty : clear implicits.
Arguments pop : clear implicits.
Arguments pout : clear implicits.
