(** NumPy arrays as operands: concrete cases. *)
From Coq Require Import ZArith List Reals Lia Lra Bool.
From Verif Require Import Base SliceModel Loops MatrixModel MatrixSpec MatrixProofs PyModel PySpec NpModel NpSpec NpProofs.
Import ListNotations.
Open Scope Z_scope.

(** np.array([[1, 2, 3], [4, 5, 6]]) at address 10. *)
Definition ex_mem (p : Z) : option Z := if (10 <=? p) && (p <? 16) then Some (p - 9) else None.
(** a.T[::-1, :]: the columns as rows, backwards: [[3, 6], [2, 5], [1, 4]]. *)
Definition ex_view : array := mkArr I64 (10 + 2 * 1) [3; 2] [-1 * 1; 3].
Lemma ex_view_shows : shows ex_mem ex_view 3 2 (fun i j => j * 3 + (2 + i * -1) + 1).
Proof.
  apply (shows_rows ex_mem I64 10 3 2 1 3 (fun i j => j * 3 + i + 1) 2 (-1) 3); [|lia|intros; lia].
  apply (shows_T ex_mem I64 10 2 3 3 1 (fun i j => i * 3 + j + 1)).
  apply (shows_new ex_mem I64 10 2 3); [|lia|lia]. intros i j Hij. unfold inr in Hij. unfold ex_mem.
  replace ((10 <=? 10 + (i * 3 + j)) && (10 + (i * 3 + j) <? 16))%bool with true; [f_equal; lia|].
  symmetry. apply Bool.andb_true_iff. split; [apply Z.leb_le|apply Z.ltb_lt]; lia.
Qed.
(** X = [[100, 101, 102], [103, 104, 105]]. *)
Definition ex_x : mlike Z := mkLike 2 3 (fun i j => Ok (100 + i * 3 + j)).
Lemma ex_x_denotes : denotes ex_x 2 3 (fun i j => 100 + i * 3 + j).
Proof. split; [reflexivity|]. split; [reflexivity|]. split; [unfold dims, INT_MAX; lia|]. reflexivity. Qed.

(** a.T[::-1, :] @ X and X @ a.T[::-1, :]. *)
Lemma ex_products :
  array_left ex_mem (fun d => d) 0 Z.add Z.sub Z.mul Matmul ex_view ex_x =
    Ok (RMat (mkMat 3 3 [Some 918; Some 927; Some 936; Some 715; Some 722; Some 729; Some 512; Some 517; Some 522])) /\
  array_right ex_mem (fun d => d) 0 Z.add Z.sub Z.mul Matmul ex_x ex_view = Ok (RMat (mkMat 2 2 [Some 604; Some 1513; Some 622; Some 1558])).
Proof. split; vm_compute; reflexivity. Qed.

(** Y[:, :] = a.T[::-1, :] for a 3 x 2 matrix Y. *)
Definition ex_y : vmat Z := mkMat 3 2 [Some 0; Some 0; Some 0; Some 0; Some 0; Some 0].
Lemma ex_set : setitem_array ex_mem (fun d => d) ex_y OMat (ISlice None None None) (ISlice None None None) ex_view =
  Ok (mkMat 3 2 [Some 3; Some 6; Some 2; Some 5; Some 1; Some 4]).
Proof. vm_compute. reflexivity. Qed.

(** np.add([[1, 2, 3]], [[4, 5, 6]], out=X) with X = [[100, 101, 102]]. *)
Definition ex_a : array := mkArr F64 10 [1; 3] [3; 1].
Definition ex_b : array := mkArr F64 13 [1; 3] [3; 1].
Definition ex_out : mlike Z := mkLike 1 3 (fun i j => Ok (100 + j)).
Lemma ex_a_shows : shows ex_mem ex_a 1 3 (fun i j => 1 + i * 3 + j).
Proof.
  apply (shows_new ex_mem F64 10 1 3); [|lia|lia]. intros i j Hij. unfold inr in Hij. unfold ex_mem.
  replace ((10 <=? 10 + (i * 3 + j)) && (10 + (i * 3 + j) <? 16))%bool with true; [f_equal; lia|].
  symmetry. apply Bool.andb_true_iff. split; [apply Z.leb_le|apply Z.ltb_lt]; lia.
Qed.
Lemma ex_b_shows : shows ex_mem ex_b 1 3 (fun i j => 4 + i * 3 + j).
Proof.
  apply (shows_new ex_mem F64 13 1 3); [|lia|lia]. intros i j Hij. unfold inr in Hij. unfold ex_mem.
  replace ((10 <=? 13 + (i * 3 + j)) && (13 + (i * 3 + j) <? 16))%bool with true; [f_equal; lia|].
  symmetry. apply Bool.andb_true_iff. split; [apply Z.leb_le|apply Z.ltb_lt]; lia.
Qed.
Lemma ex_out_denotes : denotes ex_out 1 3 (fun i j => 100 + j).
Proof. split; [reflexivity|]. split; [reflexivity|]. split; [unfold dims, INT_MAX; lia|]. reflexivity. Qed.
Lemma ex_out_run : ufunc_call ex_mem (fun d => d) 0 Z.add Z.sub Z.mul (UFunc Add) true [OArr ex_a; OArr ex_b] [OVars ex_out] =
  Ok (RMat (mkMat 1 3 [Some 101; Some 103; Some 105])).
Proof. vm_compute. reflexivity. Qed.
Lemma ex_out_wrong : exists (mem : Z -> option Z) a b x y r c F B G,
  shows mem a r c F /\ shows mem b r c B /\ taken a /\ taken b /\ denotes x r c G /\
  ufunc_call mem (fun d => d) 0 Z.add Z.sub Z.mul (UFunc Add) true [OArr a; OArr b] [OVars x] = Ok y /\
  ~ computes IZR Add r 0 c (fun i j => IZR (F i j)) (fun i j => IZR (B i j)) y.
Proof.
  exists ex_mem, ex_a, ex_b, ex_out. eexists. exists 1, 3, (fun i j => 1 + i * 3 + j), (fun i j => 4 + i * 3 + j), (fun i j => 100 + j).
  split; [exact ex_a_shows|]. split; [exact ex_b_shows|]. split; [discriminate|]. split; [discriminate|]. split; [exact ex_out_denotes|].
  split; [exact ex_out_run|]. intros (H & (_ & _ & _ & _ & R) & V). specialize (R 0 0 ltac:(unfold inr; lia)). specialize (V 0 0 ltac:(unfold inr; lia)).
  cbn in R. injection R as R. rewrite <- R in V. rewrite <- plus_IZR in V. apply eq_IZR in V. lia.
Qed.

(** Y.set_value(a.T[::-1, :]) for the variables 0, ..., 5; a variable 6 is not in Y. *)
Definition ex_ids : mlike nat := mkLike 3 2 (fun i j => Ok (Z.to_nat (i * 2 + j))).
Lemma ex_ids_denotes : denotes ex_ids 3 2 (fun i j => Z.to_nat (i * 2 + j)).
Proof. split; [reflexivity|]. split; [reflexivity|]. split; [unfold dims, INT_MAX; lia|]. reflexivity. Qed.
Lemma ex_ids_distinct i j i' j' : inr 3 2 i j -> inr 3 2 i' j' -> Z.to_nat (i * 2 + j) = Z.to_nat (i' * 2 + j') -> i = i' /\ j = j'.
Proof. unfold inr. lia. Qed.
Lemma ex_set_value : match set_value_array ex_mem (fun d => d) ex_ids ex_view (fun _ => 7) with
  Ok st => map st [0; 1; 2; 3; 4; 5; 6]%nat = [3; 6; 2; 5; 1; 4; 7] | _ => False end.
Proof. vm_compute. reflexivity. Qed.
(** VariableMatrix([[1, 2, 3]]). *)
Lemma ex_construct : construct ex_mem (fun d => d) ex_a = Ok (mkMat 1 3 [Some 1; Some 2; Some 3]).
Proof. vm_compute. reflexivity. Qed.
