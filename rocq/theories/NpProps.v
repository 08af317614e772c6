(** C101: NumPy arrays as operands of VariableMatrix and VariableBlock in Python. *)
From Coq Require Import ZArith List Reals.
From Verif Require Import Base SliceModel Loops MatrixModel MatrixSpec PyModel PySpec NpModel NpSpec NpProofs NpEx.
Import ListNotations.
Open Scope Z_scope.

Section C101.
  (** The values of expressions; the operators on expressions compute sums, differences and products. *)
  Context {D E : Type} (num : D -> E) (val : E -> R) (e_zero : E) (e_add e_sub e_mul : E -> E -> E).
  Hypotheses (v_zero : val e_zero = 0%R)
    (v_add : forall a b, val (e_add a b) = (val a + val b)%R)
    (v_sub : forall a b, val (e_sub a b) = (val a - val b)%R)
    (v_mul : forall a b, val (e_mul a b) = (val a * val b)%R).

  (** a o x and x o a for every operator, every array a program can make and all variables x: what the elements say when
      the shapes fit, an exception when they do not. *)
  Theorem C101_operands : forall (mem : Z -> option D) o a x ra ca F rx cx G,
    shows mem a ra ca F -> dims ra ca -> taken a -> denotes x rx cx G ->
    (forall r k c, fits o ra ca rx cx r k c -> dims r c -> exists y, array_left mem num e_zero e_add e_sub e_mul o a x = Ok y /\
       computes val o r k c (fun i j => val (num (F i j))) (fun i j => val (G i j)) y) /\
    (forall r k c, fits o rx cx ra ca r k c -> dims r c -> exists y, array_right mem num e_zero e_add e_sub e_mul o x a = Ok y /\
       computes val o r k c (fun i j => val (G i j)) (fun i j => val (num (F i j))) y) /\
    (clash o ra ca rx cx -> array_left mem num e_zero e_add e_sub e_mul o a x = AssertFail) /\
    (clash o rx cx ra ca -> array_right mem num e_zero e_add e_sub e_mul o x a = AssertFail).
  Proof. exact (fun mem => operands_ok mem num e_zero e_add e_sub e_mul val v_zero v_add v_sub v_mul). Qed.

  (** An array of another element type, or not of two dimensions: an exception. *)
  Theorem C101_refuses : forall (mem : Z -> option D) o a x, a_type a = Others \/ length (a_shape a) <> 2%nat ->
    array_left mem num e_zero e_add e_sub e_mul o a x = AssertFail /\
    array_right mem num e_zero e_add e_sub e_mul o x a = AssertFail.
  Proof. exact (fun mem => operands_refused mem num e_zero e_add e_sub e_mul). Qed.

  (** Every other ufunc (np.multiply, np.sin, ...) and every method other than the call (np.add.reduce, ...): an
      exception, never a result. *)
  Theorem C101_other_ufuncs : forall (mem : Z -> option D) u call inputs out, u = UOther \/ call = false ->
    ufunc_call mem num e_zero e_add e_sub e_mul u call inputs out = AssertFail.
  Proof. exact (fun mem => ufunc_refused mem num e_zero e_add e_sub e_mul). Qed.

  (** y[I, J] = array writes the elements of the array to the selected entries and nothing else. *)
  Theorem C101_assign : forall (mem : Z -> option D) (m : vmat E) r c H y i j li f lj g a F, represents m r c H -> moderate r c -> held m y ->
    1 <= o_rows m y -> 1 <= o_cols m y ->
    selects (o_rows m y) i li f -> selects (o_cols m y) j lj g -> modest (o_rows m y) i -> modest (o_cols m y) j ->
    shows mem a li lj F -> dims li lj -> taken a ->
    exists m', setitem_array mem num m y i j a = Ok m' /\ written m m' y li lj f g (fun p q => num (F p q)).
  Proof. exact (fun mem => set_ok mem num). Qed.

  Theorem C101_assign_refuses : forall (mem : Z -> option D) (m : vmat E) y i j a, a_type a = Others \/ length (a_shape a) <> 2%nat ->
    setitem_array mem num m y i j a = AssertFail.
  Proof. exact (fun mem => set_refused mem num). Qed.

  (** VariableMatrix(array): constants, one for each element. *)
  Theorem C101_construct : forall (mem : Z -> option D) a r c F, shows mem a r c F -> dims r c -> a_type a = F64 \/ a_type a = F32 ->
    exists m, construct mem num a = Ok m /\ represents m r c (fun i j => num (F i j)).
  Proof. exact (fun mem => construct_ok mem num). Qed.
End C101.

(** X.set_value(array), X being distinct variables: each takes the value of its element, and no other variable changes;
    an exception when the shapes differ. *)
Theorem C101_set_value : forall (D V : Type) (mem : Z -> option D) (num : D -> V) (x : mlike nat) a ra ca F rx cx G st,
  shows mem a ra ca F -> dims ra ca -> taken a -> denotes x rx cx G ->
  (ra = rx -> ca = cx -> (forall i j i' j', inr rx cx i j -> inr rx cx i' j' -> G i j = G i' j' -> i = i' /\ j = j') ->
   exists st', set_value_array mem num x a st = Ok st' /\ (forall i j, inr rx cx i j -> st' (G i j) = num (F i j)) /\
     forall k, (forall i j, inr rx cx i j -> G i j <> k) -> st' k = st k) /\
  (ra <> rx \/ ca <> cx -> set_value_array mem num x a st = AssertFail).
Proof. exact (fun D V => @set_value_ok D V). Qed.
Print Assumptions C101_set_value.
Print Assumptions C101_construct.
Print Assumptions C101_operands.
Print Assumptions C101_refuses.
Print Assumptions C101_other_ufuncs.
Print Assumptions C101_assign.
Print Assumptions C101_assign_refuses.

(** A transposed and reversed view of an array of integers times a matrix of variables, both ways. *)
Example C101_operands_case : shows ex_mem ex_view 3 2 (fun i j => j * 3 + (2 + i * -1) + 1) /\ taken ex_view /\
  denotes ex_x 2 3 (fun i j => 100 + i * 3 + j) /\ fits Matmul 3 2 2 3 3 2 3 /\ fits Matmul 2 3 3 2 2 3 2 /\ clash Add 3 2 2 3 /\
  array_left ex_mem (fun d => d) 0 Z.add Z.sub Z.mul Matmul ex_view ex_x =
    Ok (RMat (mkMat 3 3 [Some 918; Some 927; Some 936; Some 715; Some 722; Some 729; Some 512; Some 517; Some 522])) /\
  array_right ex_mem (fun d => d) 0 Z.add Z.sub Z.mul Matmul ex_x ex_view = Ok (RMat (mkMat 2 2 [Some 604; Some 1513; Some 622; Some 1558])).
Proof.
  refine (conj ex_view_shows (conj _ (conj ex_x_denotes (conj _ (conj _ (conj _ ex_products)))))); cbn; try discriminate; auto; try (left; discriminate).
Qed.
Example C101_assign_case : setitem_array ex_mem (fun d => d) ex_y OMat (ISlice None None None) (ISlice None None None) ex_view =
  Ok (mkMat 3 2 [Some 3; Some 6; Some 2; Some 5; Some 1; Some 4]).
Proof. exact ex_set. Qed.

(** np.add(a, b, out=x) should be refused or be a + b; it is a + x. *)
Theorem C101_out_refuted : exists (mem : Z -> option Z) a b x y r c F B G,
  shows mem a r c F /\ shows mem b r c B /\ taken a /\ taken b /\ denotes x r c G /\
  ufunc_call mem (fun d => d) 0 Z.add Z.sub Z.mul (UFunc Add) true [OArr a; OArr b] [OVars x] = Ok y /\
  ~ computes IZR Add r 0 c (fun i j => IZR (F i j)) (fun i j => IZR (B i j)) y.
Proof. exact ex_out_wrong. Qed.
Print Assumptions C101_out_refuted.

Example C101_set_value_case : shows ex_mem ex_view 3 2 (fun i j => j * 3 + (2 + i * -1) + 1) /\ denotes ex_ids 3 2 (fun i j => Z.to_nat (i * 2 + j)) /\
  (forall i j i' j', inr 3 2 i j -> inr 3 2 i' j' -> Z.to_nat (i * 2 + j) = Z.to_nat (i' * 2 + j') -> i = i' /\ j = j') /\
  match set_value_array ex_mem (fun d => d) ex_ids ex_view (fun _ => 7) with
  Ok st => map st [0; 1; 2; 3; 4; 5; 6]%nat = [3; 6; 2; 5; 1; 4; 7] | _ => False end.
Proof. exact (conj ex_view_shows (conj ex_ids_denotes (conj ex_ids_distinct ex_set_value))). Qed.
Example C101_construct_case : shows ex_mem ex_a 1 3 (fun i j => 1 + i * 3 + j) /\ construct ex_mem (fun d => d) ex_a = Ok (mkMat 1 3 [Some 1; Some 2; Some 3]).
Proof. exact (conj ex_a_shows ex_construct). Qed.
