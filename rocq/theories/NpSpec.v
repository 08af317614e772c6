(** What NumPy users expect of arrays as operands: an array stands for its elements, however it is laid out in memory. *)
From Coq Require Import ZArith List Reals.
From Verif Require Import Base MatrixModel MatrixSpec NpModel.
Import ListNotations.
Open Scope Z_scope.

(** The arrays a program can make, and their elements: array [a] has [r] rows, [c] columns, and element [F i j] in row i,
    column j.  Views are as NumPy documents them. *)
Inductive shows {D} (mem : Z -> option D) : array -> Z -> Z -> (Z -> Z -> D) -> Prop :=
| shows_new t p r c F :                                     (* np.array([[...], ...]) *)
    (forall i j, inr r c i j -> mem (p + (i * c + j)) = Some (F i j)) ->
    0 <= r -> 0 <= c -> shows mem (mkArr t p [r; c] [c; 1]) r c F
| shows_T t p r c s0 s1 F :                                 (* a.T *)
    shows mem (mkArr t p [r; c] [s0; s1]) r c F -> shows mem (mkArr t p [c; r] [s1; s0]) c r (fun i j => F j i)
| shows_rows t p r c s0 s1 F start step len :               (* a[start:stop:step, :], of len rows *)
    shows mem (mkArr t p [r; c] [s0; s1]) r c F -> 0 <= len ->
    (forall i, 0 <= i < len -> 0 <= start + i * step < r) ->
    shows mem (mkArr t (p + start * s0) [len; c] [step * s0; s1]) len c (fun i j => F (start + i * step) j)
| shows_broadcast t p c s0 s1 F n :                         (* np.broadcast_to(a, (n, c)) of a single row *)
    shows mem (mkArr t p [1; c] [s0; s1]) 1 c F -> 0 <= n ->
    shows mem (mkArr t p [n; c] [0; s1]) n c (fun _ j => F 0 j).

(** Element types that are taken. *)
Definition taken (a : array) : Prop := a_type a <> Others.

(** Shapes an operator takes; the result has [r] rows and [c] columns, and [k] is the inner dimension of a product. *)
Definition fits (o : op) (r1 c1 r2 c2 r k c : Z) : Prop :=
  match o with
  | Matmul => c1 = r2 /\ r = r1 /\ k = c1 /\ c = c2
  | _ => r1 = r2 /\ c1 = c2 /\ r = r1 /\ c = c1
  end.
(** Shapes it does not take. *)
Definition clash (o : op) (r1 c1 r2 c2 : Z) : Prop :=
  match o with Matmul => c1 <> r2 | _ => r1 <> r2 \/ c1 <> c2 end.

Section Spec.
  Context {E : Type} (val : E -> R).
  Local Open Scope R_scope.
  (** The result of an operator on matrices of values [A] and [B]: entries, or constraints that are met exactly when the
      comparison holds entry by entry (strict comparisons stand for the others). *)
  Definition computes (o : op) (r k c : Z) (A B : Z -> Z -> R) (x : res E) : Prop :=
    let entries m f := exists H, represents m r c H /\ forall i j, inr r c i j -> val (H i j) = f i j in
    let all (P : Z -> Z -> Prop) := forall i j, inr r c i j -> P i j in
    match o, x with
    | Matmul, RMat m => entries m (fun i j => Rsum (Z.to_nat k) (fun t => A i (Z.of_nat t) * B (Z.of_nat t) j))
    | Add, RMat m => entries m (fun i j => A i j + B i j)
    | Sub, RMat m => entries m (fun i j => A i j - B i j)
    | Eq, RCon true l => (forall e, In e l -> val e = 0) <-> all (fun i j => A i j = B i j)
    | Lt, RCon false l | Le, RCon false l => (forall e, In e l -> 0 <= val e) <-> all (fun i j => A i j <= B i j)
    | Gt, RCon false l | Ge, RCon false l => (forall e, In e l -> 0 <= val e) <-> all (fun i j => A i j >= B i j)
    | _, _ => False
    end.
End Spec.
