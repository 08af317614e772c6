(** What a program that builds a problem means to its user: relations between the expressions they wrote, an
    objective, and which variables are decision variables.  Independent of how the code represents any of it. *)
From Coq Require Import Reals List Bool Arith.
From Verif Require Import ExprModel GraphSpec MathSpec VarModel ExprReal VarSpec ProblemModel.
Import ListNotations.
Open Scope R_scope.

(** One scalar relation "left ? right"; < and > are documented to mean <= and >=. *)
Record urel := mkRel { r_cmp : cmp; r_l : uexp; r_r : uexp }.

Definition cmp_holds (c : cmp) (a b : R) : Prop :=
  match c with CEq => a = b | CLt | CLe => a <= b | CGt | CGe => a >= b end.

(** Both sides have a value at the point. *)
Definition side_defined (rho : nat -> R) (x : uexp) : Prop := no_pow00 rho x /\ exists v, XEv rho x v.
Definition rel_defined (rho : nat -> R) (r : urel) : Prop := side_defined rho (r_l r) /\ side_defined rho (r_r r).

Definition rel_holds (rho : nat -> R) (r : urel) : Prop :=
  exists a b, XEv rho (r_l r) a /\ XEv rho (r_r r) b /\ cmp_holds (r_cmp r) a b.

(** The program's state: the user's variables, constraint objects (true: equality) with their relations, the
    decision variables of the problem in order of creation, the objective (true: maximize), the relations imposed. *)
Record spec := mkS {
  sp_se : senv; sp_cons : list (bool * list urel);
  sp_dec : list nat; sp_goal : option (bool * uexp); sp_eqs : list urel; sp_ineqs : list urel }.

Definition spec_empty : spec := mkS se_empty [] [] None [] [].

(** Element (row, col) of an operand; a scalar stands for every element. *)
Definition oexp (se : senv) (o : operand R_ops) (row col : nat) : option uexp :=
  match o with
  | OVar i => nth_error (se_exp se) i
  | ONum c => Some (XConst c)
  | OVars _ cols l => match nth_error l (row * cols + col) with Some i => nth_error (se_exp se) i | None => None end
  | ONums _ cols l => match nth_error l (row * cols + col) with Some c => Some (XConst c) | None => None end
  end.

(** Every variable of the operand exists, and a matrix has as many entries as its shape says. *)
Definition owf (n : nat) (o : operand R_ops) : bool :=
  match o with
  | OVar i => Nat.ltb i n
  | ONum _ => true
  | OVars rows cols l => Nat.eqb (length l) (rows * cols) && forallb (fun i => Nat.ltb i n) l
  | ONums rows cols l => Nat.eqb (length l) (rows * cols)
  end.

(** Shape of a comparison: two scalars give one relation, a scalar and a matrix one per element of the matrix, two
    matrices one per element if their shapes agree. *)
Definition common_shape (a b : operand R_ops) : option (nat * nat) :=
  match oshape a, oshape b with
  | None, None => Some (1, 1)%nat
  | None, Some s => Some s
  | Some s, None => Some s
  | Some s, Some s' => if Nat.eqb (fst s) (fst s') && Nat.eqb (snd s) (snd s') then Some s else None
  end.

Fixpoint all_opt {A} (l : list (option A)) : option (list A) :=
  match l with
  | [] => Some []
  | None :: _ => None
  | Some x :: l => match all_opt l with Some l => Some (x :: l) | None => None end
  end.

Definition rel_at (se : senv) (c : cmp) (a b : operand R_ops) (row col : nat) : option urel :=
  match oexp se a row col, oexp se b row col with Some x, Some y => Some (mkRel c x y) | _, _ => None end.

(** The relations of a comparison: number k is the one in row k / cols and column k mod cols. *)
Definition rels (se : senv) (c : cmp) (a b : operand R_ops) : option (list urel) :=
  if owf (length (se_exp se)) a && owf (length (se_exp se)) b then
  match common_shape a b with
  | Some (rows, cols) =>
      all_opt (map (fun k => rel_at se c a b (k / cols) (k mod cols)) (seq 0 (rows * cols)))
  | None => None
  end
  else None.

Definition is_eq (c : cmp) : bool := match c with CEq => true | _ => false end.

(** [n] new decision variables with value zero. *)
Definition zeros (rho : nat -> R) (n cnt : nat) : nat -> R := fold_left (fun rho k => upd rho k 0) (seq n cnt) rho.

(** Index of entry (i, j) of a symmetric matrix in its lower triangle, row by row. *)
Definition sym_index (i j : nat) : nat := (Nat.max i j * (Nat.max i j + 1) / 2 + Nat.min i j)%nat.

(** What a statement shows: value() of an expression at a point, or whether relations hold at a point. *)
Inductive pquery := QVal (q : query) | QRel (l : list urel) (rho : nat -> R).

Definition set_se (sp : spec) (se : senv) : spec := mkS se (sp_cons sp) (sp_dec sp) (sp_goal sp) (sp_eqs sp) (sp_ineqs sp).
Definition new_cons (sp : spec) (b : bool) (l : list urel) : spec :=
  mkS (sp_se sp) (sp_cons sp ++ [(b, l)]) (sp_dec sp) (sp_goal sp) (sp_eqs sp) (sp_ineqs sp).
Definition new_vars (sp : spec) (entries : list nat) (cnt : nat) : spec :=
  let n := se_n (sp_se sp) in
  mkS (mkSE (se_exp (sp_se sp) ++ map (fun k => XVar (n + k)) entries) (n + cnt) (zeros (se_val (sp_se sp)) n cnt))
      (sp_cons sp) (sp_dec sp ++ seq n cnt) (sp_goal sp) (sp_eqs sp) (sp_ineqs sp).
Definition set_goal (sp : spec) (b : bool) (x : uexp) : spec :=
  mkS (sp_se sp) (sp_cons sp) (sp_dec sp) (Some (b, x)) (sp_eqs sp) (sp_ineqs sp).
Definition impose (sp : spec) (b : bool) (l : list urel) : spec :=
  mkS (sp_se sp) (sp_cons sp) (sp_dec sp) (sp_goal sp)
      (if b then sp_eqs sp ++ l else sp_eqs sp) (if b then sp_ineqs sp else sp_ineqs sp ++ l).

(** [None]: the statement mentions something that does not exist, compares matrices of different shapes, mixes
    equality and inequality constraints in one object, or sets the value of something that is not a decision
    variable. *)
Definition spec_step (o : pop R_ops) (sp : spec) : option (spec * list pquery) :=
  let get i k := match nth_error (se_exp (sp_se sp)) i with Some x => k x | None => None end in
  match o with
  | PH o => match sstep o (sp_se sp) with Some (se, q) => Some (set_se sp se, map QVal q) | None => None end
  | PCompare c a b => match rels (sp_se sp) c a b with Some l => Some (new_cons sp (is_eq c) l, []) | None => None end
  | PBounds l x u => match rels (sp_se sp) CLe l x, rels (sp_se sp) CLe x u with
                     | Some a, Some b => Some (new_cons sp false (a ++ b), [])
                     | _, _ => None end
  | PConcat b ks => match all_opt (map (nth_error (sp_cons sp)) ks) with
                    | Some l => if forallb (fun c => Bool.eqb (fst c) b) l
                                then Some (new_cons sp b (concat (map snd l)), []) else None
                    | None => None end
  | PBool k => match nth_error (sp_cons sp) k with
               | Some c => Some (sp, [QRel (snd c) (se_val (sp_se sp))]) | None => None end
  | PDecision rows cols => Some (new_vars sp (seq 0 (rows * cols)) (rows * cols), [])
  | PSymmetric n =>
      Some (new_vars sp (map (fun k => sym_index (k / n) (k mod n)) (seq 0 (n * n))) (n * (n + 1) / 2), [])
  | PMinimize i => get i (fun x => Some (set_goal sp false x, []))
  | PMaximize i => get i (fun x => Some (set_goal sp true x, []))
  | PSubject k => match nth_error (sp_cons sp) k with
                  | Some (b, l) => Some (impose sp b l, []) | None => None end
  end.

Fixpoint spec_run (l : list (pop R_ops)) (sp : spec) : option (spec * list pquery) :=
  match l with
  | [] => Some (sp, [])
  | o :: rest =>
      match spec_step o sp with
      | Some (sp, q) => match spec_run rest sp with Some (sp, q') => Some (sp, q ++ q') | None => None end
      | None => None
      end
  end.

(** A value() answer is right wherever the expression is defined; a bool answer is right wherever all sides of the
    relations are defined: true exactly when every relation holds. *)
Definition panswers (q : pquery) (o : pout R_ops) : Prop :=
  match q, o with
  | QVal q, PVal v => answers q v
  | QRel l rho, PTest b => List.Forall (rel_defined rho) l -> (b = true <-> List.Forall (rel_holds rho) l)
  | _, _ => False
  end.

(** For C32, in terms of which decision variable a Variable object shows (its expression node): [p] and [p'] agree on
    everything that existed in [p]. *)
Definition slot_node {S : sops} (p : prog S) (i : nat) : option nat :=
  match nth_error (p_env p) i with Some v => v_expr v | None => None end.
Definition untouched {S : sops} (p p' : prog S) : Prop :=
  (forall i n, slot_node p i = Some n -> slot_node p' i = Some n) /\
  (forall n, (n < length (st_nodes (p_st p)))%nat -> nth_error (st_nodes (p_st p')) n = nth_error (st_nodes (p_st p)) n /\
     st_val (p_st p') n = st_val (p_st p) n) /\
  p_cons p' = p_cons p /\ p_f p' = p_f p /\ p_eq p' = p_eq p /\ p_ineq p' = p_ineq p.

(** [ds] are registered after the decision variables of [p]; they are new, pairwise distinct, and zero. *)
Definition registers {S : sops} (p p' : prog S) (ds : list nat) : Prop :=
  p_dec p' = p_dec p ++ ds /\ NoDup (map (slot_node p') (p_dec p')) /\
  forall d, In d ds -> exists n, slot_node p' d = Some n /\ is_kvar (st_nodes (p_st p')) n /\ st_val (p_st p') n = s_ofZ S 0 /\
    (length (st_nodes (p_st p)) <= n)%nat.
