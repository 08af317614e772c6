(** User-level meaning of programs with Jacobians and Hessians (C22, C29): what each value() has to show. *)
From Coq Require Import Reals List Bool.
From Verif Require Import ExprModel MathSpec VarModel ExprReal ExprXR VarSpec Faith JacModel SmoothSpec.
Import ListNotations.
Local Open Scope nat_scope.

(** A Jacobian of some expressions, or a Hessian of one, with respect to some decision variables. *)
Inductive uobj := UJac (xs : list uexp) (ks : list nat) | UHess (x : uexp) (ks : list nat) (lower : bool).

(** A value() query: of an expression, or of a Jacobian or Hessian, at a point. *)
Inductive uquery := QExp (x : uexp) (rho : nat -> R) | QObj (o : uobj) (rho : nat -> R).

Fixpoint gets (e : list uexp) (is : list nat) : option (list uexp) :=
  match is with
  | [] => Some []
  | i :: is => match nth_error e i, gets e is with Some x, Some xs => Some (x :: xs) | _, _ => None end
  end.
Fixpoint vars_of (xs : list uexp) : option (list nat) :=
  match xs with
  | [] => Some []
  | XVar k :: xs => match vars_of xs with Some ks => Some (k :: ks) | None => None end
  | _ => None
  end.
(** The variables named by a wrt list: decision variables, none twice. *)
Definition wrt_of (e : senv) (is : list nat) : option (list nat) :=
  match gets (se_exp e) is with
  | Some xs => match vars_of xs with
               | Some ks => if list_eq_dec PeanoNat.Nat.eq_dec (nodup PeanoNat.Nat.eq_dec ks) ks then Some ks else None
               | None => None
               end
  | None => None
  end.

Definition ustate := (senv * list uobj)%type.

(** The meaning of one statement; [None] when it mentions something that does not exist, sets the value of something that
    is not a decision variable, or differentiates with respect to something that is not a decision variable or occurs twice;
    get() is not covered. *)
Definition ustep (o : jop R_ops) (q : ustate) : option (ustate * list uquery) :=
  let '(e, os) := q in
  match o with
  | JH h => match sstep h e with Some (e', qs) => Some ((e', os), map (fun p => QExp (fst p) (snd p)) qs) | None => None end
  | JMake rows wrt => match gets (se_exp e) rows, wrt_of e wrt with
                      | Some xs, Some ks => Some ((e, os ++ [UJac xs ks]), [])
                      | _, _ => None
                      end
  | JHess f wrt lower => match nth_error (se_exp e) f, wrt_of e wrt with
                         | Some x, Some ks => Some ((e, os ++ [UHess x ks lower]), [])
                         | _, _ => None
                         end
  | JValue k => match nth_error os k with Some ob => Some (q, [QObj ob (se_val e)]) | None => None end
  | JGet _ => None
  end.
Fixpoint urun (l : list (jop R_ops)) (q : ustate) : option (ustate * list uquery) :=
  match l with
  | [] => Some (q, [])
  | o :: rest =>
      match ustep o q with
      | Some (q, a) => match urun rest q with Some (q, b) => Some (q, a ++ b) | None => None end
      | None => None
      end
  end.
Definition uempty : ustate := (se_empty, []).

(** The user's statements with their numbers embedded in another scalar type. *)
Definition jinj {K : sops} {FK : faith K} (o : jop R_ops) : jop K :=
  match o with
  | JH h => JH (hinj h)
  | JMake rows wrt => JMake rows wrt
  | JHess f wrt lower => JHess f wrt lower
  | JValue k => JValue k
  | JGet k => JGet k
  end.

(** The expression as a function of the variables. *)
Definition fn (x : uexp) : ufun := fun rho v => XEv rho x v.

(** The matrix shown by value() is right at [rho]: wherever the expression is smooth, entries are finite and are its partial
    derivatives. [K] is the scalar type, [J] the numbers in it. *)
Section Right.
Context {K : sops} (J : R -> K).
Definition jac_right (xs : list uexp) (ks : list nat) (rho : nat -> R) (m : list (@triplet K)) : Prop :=
  (forall i c y, In (i, c, y) m -> i < length xs /\ c < length ks) /\
  forall i c x k v, nth_error xs i = Some x -> nth_error ks c = Some k -> XSm rho x v ->
    exists d, entry m i c = J d /\ pd k (fn x) rho d.
(** Second derivatives in either order; the whole matrix is symmetric; the lower triangle has zeros above the diagonal. *)
Definition hess_right (x : uexp) (ks : list nat) (lower : bool) (rho : nat -> R) (m : list (@triplet K)) : Prop :=
  (forall i c y, In (i, c, y) m -> i < length ks /\ c < length ks) /\
  (lower = true -> forall i c, i < c -> entry m i c = J 0%R) /\
  forall v, XSm rho x v ->
    (forall i c a b, nth_error ks i = Some a -> nth_error ks c = Some b -> lower = false \/ c <= i ->
       exists d, entry m i c = J d /\ pd b (pd a (fn x)) rho d /\ pd a (pd b (fn x)) rho d) /\
    (lower = false -> forall i c, i < length ks -> c < length ks -> entry m i c = entry m c i).
Definition right_out (q : uquery) (o : jout K) : Prop :=
  match q, o with
  | QExp x rho, OVal v => no_pow00 rho x -> forall v0, XEv rho x v0 -> v = J v0
  | QObj (UJac xs ks) rho, OMat m => jac_right xs ks rho m
  | QObj (UHess x ks lower) rho, OMat m => hess_right x ks lower rho m
  | _, _ => False
  end.
End Right.
