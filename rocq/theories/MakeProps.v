(** C103: constructing matrices of variables. *)
From Coq Require Import ZArith List Lia.
From Verif Require Import Base SliceModel Loops MatrixModel MatrixSpec MatrixProofs MakeModel MakeSpec MakeProofs.
Import ListNotations.
Open Scope Z_scope.

(** A nested list gives the matrix with these rows; rows of different lengths are refused. *)
Theorem C103_list : forall E (L : list (list E)) r c F, rows_of_matrix L r c F -> dims r c -> exists m, make_list L = Ok m /\ represents m r c F.
Proof. exact @list_ok. Qed.
Print Assumptions C103_list.

Theorem C103_ragged : forall E (L : list (list E)) first rest row, L = first :: rest -> In row rest -> length row <> length first ->
  Z.of_nat (length L) <= INT_MAX -> Z.of_nat (length first) <= INT_MAX -> make_list L = AssertFail.
Proof. exact @list_ragged. Qed.
Print Assumptions C103_ragged.

(** A diagonal matrix. *)
Theorem C103_diagonal : forall E z (d : list E) n (F : Z -> E), Z.of_nat (length d) = n -> (forall i, 0 <= i < n -> nth_error d (Z.to_nat i) = Some (F i)) -> dims n n ->
  exists m, make_diag z d = Ok m /\ represents m n n (fun i j => if i =? j then F i else z).
Proof. exact @diag_ok. Qed.
Print Assumptions C103_diagonal.

(** A span read row by row; a span of another length is refused; a span as a column. *)
Theorem C103_span : forall E (l : list E) r c F, Z.of_nat (length l) = r * c -> (forall i j, inr r c i j -> nth_error l (Z.to_nat (i * c + j)) = Some (F i j)) -> dims r c ->
  exists m, make_span l r c = Ok m /\ represents m r c F.
Proof. exact @span_ok. Qed.
Print Assumptions C103_span.

Theorem C103_span_refuses : forall E (l : list E) r c, dims r c -> Z.of_nat (length l) <> r * c -> make_span l r c = AssertFail.
Proof. exact @span_refuses. Qed.
Print Assumptions C103_span_refuses.

Theorem C103_column : forall E (l : list E) n F, Z.of_nat (length l) = n -> (forall i, 0 <= i < n -> nth_error l (Z.to_nat i) = Some (F i)) -> n <= INT_MAX ->
  exists m, make_column l = Ok m /\ represents m n 1 (fun i _ => F i).
Proof. exact @column_ok. Qed.
Print Assumptions C103_column.

(** zero(), one() and constant(). *)
Theorem C103_constant : forall E r c (e : E), dims r c -> exists m, make_constant r c e = Ok m /\ represents m r c (fun _ _ => e).
Proof. exact @constant_ok. Qed.
Print Assumptions C103_constant.

(** identity(). *)
Theorem C103_identity : forall E (zero one : E) n, dims n n -> exists m, mat_identity zero one n = Ok m /\ represents m n n (fun i j => if i =? j then one else zero).
Proof. exact @mat_identity_ok. Qed.
Print Assumptions C103_identity.

Example C103_list_case : rows_of_matrix [[1; 2; 3]; [4; 5; 6]] 2 3 (fun i j => i * 3 + j + 1) /\ make_list [[1; 2; 3]; [4; 5; 6]] = Ok (mkMat 2 3 (map Some [1; 2; 3; 4; 5; 6])) /\
  make_list [[1; 2; 3]; [4; 5]] = AssertFail.
Proof.
  split; [|split; reflexivity]. split; [reflexivity|]. split; [reflexivity|]. intros i Hi. assert (i = 0 \/ i = 1) as [->| ->] by lia; eexists; (split; [reflexivity|]; split; [reflexivity|]);
    intros j Hj; assert (j = 0 \/ j = 1 \/ j = 2) as [->|[->| ->]] by lia; reflexivity.
Qed.
Example C103_diagonal_case : make_diag 0 [7; 8] = Ok (mkMat 2 2 (map Some [7; 0; 0; 8])) /\ make_span [1; 2; 3; 4; 5; 6] 3 2 = Ok (mkMat 3 2 (map Some [1; 2; 3; 4; 5; 6])) /\
  make_column [1; 2] = Ok (mkMat 2 1 (map Some [1; 2])) /\ make_constant 2 1 5 = Ok (mkMat 2 1 [Some 5; Some 5]) /\ mat_identity 0 1 2 = Ok (mkMat 2 2 (map Some [1; 0; 0; 1])).
Proof. repeat split. Qed.
