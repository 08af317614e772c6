(** User-level meaning of a history: each variable stands for the expression written to build it; decision
    variables have current values. *)
From Coq Require Import Reals List Bool.
From Verif Require Import ExprModel MathSpec VarModel ExprReal.
Import ListNotations.
Open Scope R_scope.

(** Expression of every variable, number of decision variables, current value of each. *)
Record senv := mkSE { se_exp : list uexp; se_n : nat; se_val : nat -> R }.

Definition xsq (e : uexp) : uexp := XBin BPow e (XConst 2).

Fixpoint sset (e : list uexp) (i : nat) (v : uexp) : list uexp :=
  match e, i with
  | [], _ => []
  | _ :: e, O => v :: e
  | x :: e, S i => x :: sset e i v
  end.

(** A value() query: which expression at which point. *)
Definition query := (uexp * (nat -> R))%type.

(** The meaning of one statement; [None] when the statement refers to a variable that does not exist or
    calls set_value on something that is not a decision variable. *)
Definition sstep (o : hop R_ops) (e : senv) : option (senv * list query) :=
  let add x := Some (mkSE (se_exp e ++ [x]) (se_n e) (se_val e), []) in
  let get i k := match nth_error (se_exp e) i with Some x => k x | None => None end in
  match o with
  | HNew => Some (mkSE (se_exp e ++ [XVar (se_n e)]) (S (se_n e)) (upd (se_val e) (se_n e) 0), [])
  | HConst c => add (XConst c)
  | HUn u i => get i (fun x => add (XUn u x))
  | HBin b i j => get i (fun x => get j (fun y => add (XBin b x y)))
  | HHypot3 i j k => get i (fun x => get j (fun y => get k (fun z =>
      add (XUn USqrt (XBin BAdd (XBin BAdd (xsq x) (xsq y)) (xsq z))))))
  | HCopy i => get i add
  | HAssign i j => get i (fun _ => get j (fun y => Some (mkSE (sset (se_exp e) i y) (se_n e) (se_val e), [])))
  | HAssignScalar i c => get i (fun _ => Some (mkSE (sset (se_exp e) i (XConst c)) (se_n e) (se_val e), []))
  | HSet i v => get i (fun x => match x with
                                | XVar k => Some (mkSE (se_exp e) (se_n e) (upd (se_val e) k v), [])
                                | _ => None end)
  | HValue i => get i (fun x => Some (e, [(x, se_val e)]))
  end.

Fixpoint srun (l : list (hop R_ops)) (e : senv) : option (senv * list query) :=
  match l with
  | [] => Some (e, [])
  | o :: rest =>
      match sstep o e with
      | Some (e, q) => match srun rest e with Some (e, q') => Some (e, q ++ q') | None => None end
      | None => None
      end
  end.

Definition se_empty : senv := mkSE [] 0 (fun _ => 0).

(** No sub-expression is zero to the power zero at this point. *)
Fixpoint no_pow00 (rho : nat -> R) (e : uexp) : Prop :=
  match e with
  | XVar _ | XConst _ => True
  | XUn _ a => no_pow00 rho a
  | XBin b x y => no_pow00 rho x /\ no_pow00 rho y /\
      (b = BPow -> forall vx vy, XEv rho x vx -> XEv rho y vy -> ~ (vx = 0 /\ vy = 0))
  end.

(** The answer to a query is right: wherever the expression is defined, it is its value. *)
Definition answers (q : query) (v : R) : Prop :=
  no_pow00 (snd q) (fst q) -> forall v0, XEv (snd q) (fst q) v0 -> v = v0.
