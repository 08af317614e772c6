(** Model of include/sleipnir/util/intrusive_shared_ptr.hpp and of inc_ref_count / dec_ref_count
    (expression.hpp 718-767): ownership of expression nodes.

    A node is its reference count, its operand handles and its adjoint-expression handle
    (expression.hpp 94-118; values are irrelevant here).  Node ids are allocation numbers and are
    never reused: address reuse by the allocator is the subject of the pool model.  Touching a freed
    node is [UB].  Reference counts are uint32_t and wrap at 2^32. *)
From Coq Require Import ZArith List.
From Verif Require Import Base.
Import ListNotations.
Open Scope Z_scope.

(** The members that hold handles: expression.hpp 99-104, 117. *)
Record rnode := mkR { r_rc : Z; r_adj : option nat; r_args : list nat }.

(** [None] is a freed node. *)
Definition rheap := list (option rnode).

Definition u32 (z : Z) : Z := z mod 2 ^ 32.

(** Access to a node; a freed one is undefined behaviour. *)
Definition r_get (h : rheap) (n : nat) : outcome rnode :=
  match nth_error h n with
  | Some (Some nd) => Ok nd
  | _ => UB
  end.

(** Assignment to a node. *)
Fixpoint r_put (h : rheap) (n : nat) (o : option rnode) : rheap :=
  match h, n with
  | [], _ => []
  | _ :: t, O => o :: t
  | x :: t, S n' => x :: r_put t n' o
  end.

(** expression.hpp 722-725.  (The count is a uint32_t, expression.hpp 117.) *)
Definition inc (h : rheap) (n : nat) : outcome rheap :=
  let* nd := r_get h n in
  Ok (r_put h n (Some (mkR (u32 (r_rc nd + 1)) (r_adj nd) (r_args nd)))).

(** The same through a handle, which may be null: intrusive_shared_ptr.hpp 58-63. *)
Definition inc_opt (h : rheap) (p : option nat) : outcome rheap :=
  match p with None => Ok h | Some n => inc h n end.

(** The handle as a list; helper, no counterpart. *)
Definition opt_list (p : option nat) : list nat := match p with None => [] | Some n => [n] end.

(** expression.hpp 747-754: the handles a node holds, in the order they are pushed. *)
Definition children (nd : rnode) : list nat := opt_list (r_adj nd) ++ r_args nd.

(** expression.hpp 732-767: the explicit stack ([back()] = head); a node whose count reaches zero is
    freed and its children are pushed. *)
Fixpoint dec_loop (fuel : nat) (stack : list nat) (h : rheap) : outcome rheap :=
  match stack with
  | [] => Ok h
  | n :: rest =>
      match fuel with
      | O => OutOfFuel
      | S fuel =>
          let* nd := r_get h n in
          let rc := u32 (r_rc nd - 1) in
          if rc =? 0 then dec_loop fuel (rev (children nd) ++ rest) (r_put h n None)
          else dec_loop fuel rest (r_put h n (Some (mkR rc (r_adj nd) (r_args nd))))
      end
  end.

(** Total number of handles stored in live nodes: bounds the number of iterations. *)
Definition heap_refs (h : rheap) : list nat :=
  flat_map (fun o => match o with Some nd => children nd | None => [] end) h.

Definition dec (h : rheap) (n : nat) : outcome rheap :=
  dec_loop (S (length (heap_refs h))) [n] h.

(** expression.hpp 734-767 through a handle, which may be null. *)
Definition dec_opt (h : rheap) (p : option nat) : outcome rheap :=
  match p with None => Ok h | Some n => dec h n end.

(** Program state: the heap and the handles (Variables) of the program; a destroyed or moved-from
    handle is null. *)
Record rstate := mkS { s_heap : rheap; s_vars : list (option nat) }.

(** Where a handle lives: a program variable, or a slot inside a node. *)
Inductive loc := LVar (i : nat) | LArg (n k : nat) | LAdj (n : nat).

(** Reading a handle's pointer; reading a slot of a freed node is UB. *)
Definition rd (s : rstate) (l : loc) : outcome (option nat) :=
  match l with
  | LVar i => match nth_error (s_vars s) i with Some p => Ok p | None => UB end
  | LArg n k => let* nd := r_get (s_heap s) n in
                match nth_error (r_args nd) k with Some p => Ok (Some p) | None => UB end
  | LAdj n => let* nd := r_get (s_heap s) n in Ok (r_adj nd)
  end.

(** Assignment to an element; helper, no counterpart. *)
Fixpoint put {A} (l : list A) (i : nat) (x : A) : list A :=
  match l, i with
  | [], _ => []
  | _ :: t, O => x :: t
  | y :: t, S i' => y :: put t i' x
  end.

(** Overwriting a handle's pointer (no counting).  Operand slots are never assigned by the library
    after construction, so only variables and adjoint slots are destinations. *)
Definition wr (s : rstate) (l : loc) (p : option nat) : outcome rstate :=
  match l with
  | LVar i => match nth_error (s_vars s) i with
              | Some _ => Ok (mkS (s_heap s) (put (s_vars s) i p))
              | None => UB
              end
  | LAdj n => let* nd := r_get (s_heap s) n in
              Ok (mkS (r_put (s_heap s) n (Some (mkR (r_rc nd) p (r_args nd)))) (s_vars s))
  | LArg _ _ => UB
  end.

(** Pointer comparison, intrusive_shared_ptr.hpp 85. *)
Definition same_ptr (p q : option nat) : bool :=
  match p, q with Some a, Some b => Nat.eqb a b | None, None => true | _, _ => false end.

(** intrusive_shared_ptr.hpp 83-100: copy assignment.  The source is re-read after the old pointee
    has been released. *)
Definition copy_assign (s : rstate) (dst src : loc) : outcome rstate :=
  let* p := rd s dst in
  let* q := rd s src in
  if same_ptr p q then Ok s
  else
    let* h := dec_opt (s_heap s) p in
    let s := mkS h (s_vars s) in
    let* q := rd s src in
    let* s := wr s dst q in
    let* h := inc_opt (s_heap s) q in
    Ok (mkS h (s_vars s)).

(** intrusive_shared_ptr.hpp 147-156: move assignment swaps. *)
Definition move_assign (s : rstate) (dst src : loc) : outcome rstate :=
  let* p := rd s dst in
  let* q := rd s src in
  if same_ptr p q then Ok s
  else
    let* s := wr s dst q in
    wr s src p.

(** A variable holding a non-null handle. *)
Definition deref (s : rstate) (i : nat) : outcome nat :=
  match nth_error (s_vars s) i with Some (Some n) => Ok n | _ => UB end.

Inductive rop :=
| ONew (args : list nat)        (* make_expression_ptr from copies of the given variables; new variable *)
| OCopy (i : nat)               (* new variable, copy-constructed *)
| OMove (i : nat)               (* new variable, move-constructed *)
| OAssign (i j : nat)           (* variable i = variable j *)
| OMoveAssign (i j : nat)       (* variable i = std::move(variable j) *)
| ODestroy (i : nat)            (* destructor *)
| OSetAdj (i j : nat)           (* i->adjoint_expr = j *)
| OClearAdj (i : nat)           (* i->adjoint_expr = nullptr *)
| OTakeAdj (i : nat).           (* new variable = std::move(i->adjoint_expr) *)

Fixpoint inc_all (h : rheap) (l : list nat) : outcome rheap :=
  match l with
  | [] => Ok h
  | n :: rest => let* h := inc h n in inc_all h rest
  end.

(** Access through several handles. *)
Fixpoint derefs (s : rstate) (l : list nat) : outcome (list nat) :=
  match l with
  | [] => Ok []
  | i :: rest => let* n := deref s i in let* ns := derefs s rest in Ok (n :: ns)
  end.

(** One program step. *)
Definition rstep (s : rstate) (o : rop) : outcome rstate :=
  match o with
  | ONew is =>
      (* intrusive_shared_ptr.hpp 43-47, 58-63, 273-279; expression.hpp 45-57, 129-141: operand handles
         are copied into the node, the node starts at count 0 and the returned handle counts it *)
      let* ns := derefs s is in
      let* h := inc_all (s_heap s) ns in
      Ok (mkS (h ++ [Some (mkR 1 None ns)]) (s_vars s ++ [Some (length h)]))
  | OCopy i =>
      (* 58-63 *)
      let* p := rd s (LVar i) in
      let* h := inc_opt (s_heap s) p in
      Ok (mkS h (s_vars s ++ [p]))
  | OMove i =>
      (* 131-132 *)
      let* p := rd s (LVar i) in
      Ok (mkS (s_heap s) (put (s_vars s) i None ++ [p]))
  | OAssign i j => copy_assign s (LVar i) (LVar j)
  | OMoveAssign i j => move_assign s (LVar i) (LVar j)
  | ODestroy i =>
      (* 49-53 *)
      let* p := rd s (LVar i) in
      let* h := dec_opt (s_heap s) p in
      Ok (mkS h (put (s_vars s) i None))
  | OSetAdj i j =>
      let* n := deref s i in copy_assign s (LAdj n) (LVar j)
  | OClearAdj i =>
      (* a null temporary is move-assigned (swapped) and then destroyed *)
      let* n := deref s i in
      let* p := rd s (LAdj n) in
      let* s := wr s (LAdj n) None in
      let* h := dec_opt (s_heap s) p in
      Ok (mkS h (s_vars s))
  | OTakeAdj i =>
      let* n := deref s i in
      let* p := rd s (LAdj n) in
      let* s := wr s (LAdj n) None in
      Ok (mkS (s_heap s) (s_vars s ++ [p]))
  end.

(** Nothing allocated yet. *)
Definition rinit : rstate := mkS [] [].
