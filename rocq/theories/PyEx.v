(** The Python bindings: a concrete matrix, and the cases where they do not do what an array would. *)
From Coq Require Import ZArith List Lia Bool Permutation.
From Verif Require Import Base SliceModel SliceSpec SliceProofs MatrixModel MatrixSpec MatrixProofs PyModel PySpec PyProofs PyUse.
Import ListNotations.
Open Scope Z_scope.

Lemma selects_compute n a b s p q st len : 0 <= n <= LIM -> eff_step s <> 0 -> Z.abs (eff_step s) <= Z.max 1 n ->
  compute n a b s = Ok (p, q, st, len) -> selects n (ISlice a b s) len (fun t => p + t * st).
Proof.
  intros Hn Hs Hm H. destruct (compute_ok n a b s Hn Hs Hm) as (len' & E & R & C & _). rewrite E in H. injection H as <- <- <- <-.
  constructor; [exact Hs|lia|]. intros t x. unfold py_selects. split.
  - intros (Ht & -> & P1 & P2). split; [|reflexivity]. split; [exact Ht|]. apply C; auto.
  - intros ((Ht & L) & ->). split; [exact Ht|]. split; [reflexivity|]. apply C; auto.
Qed.

(** Every slice with a step selects something definite. *)
Lemma selects_exists n a b s : 0 <= n <= LIM -> eff_step s <> 0 -> Z.abs (eff_step s) <= Z.max 1 n ->
  exists len f, selects n (ISlice a b s) len f.
Proof.
  intros Hn Hs Hm. destruct (compute_ok n a b s Hn Hs Hm) as (len & E & _). eexists _, _. eapply selects_compute; eassumption.
Qed.

(** 0 1 2 / 3 4 5 / 6 7 8. *)
Definition M : vmat Z := mkMat 3 3 (map Some [0; 1; 2; 3; 4; 5; 6; 7; 8]).
Lemma M_rep : represents M 3 3 (fun i j => 3 * i + j).
Proof.
  repeat split; try (cbn; unfold INT_MAX; lia). intros i j [Hi Hj].
  assert (i = 0 \/ i = 1 \/ i = 2) as [-> | [-> | ->]] by lia; assert (j = 0 \/ j = 1 \/ j = 2) as [-> | [-> | ->]] by lia; reflexivity.
Qed.
Lemma M_mod : moderate 3 3. Proof. unfold moderate. lia. Qed.

Definition all : pyidx := ISlice None None None.
Definition upto (k : Z) : pyidx := ISlice None (Some k) None.
Definition back : pyidx := ISlice None None (Some (-1)).
Lemma sel_all n : 0 <= n <= LIM -> selects n all n (fun t => 0 + t * 1).
Proof.
  intros Hn. constructor; [discriminate|lia|]. intros t x. unfold py_selects, py_start, py_stop, py_lower, py_upper. cbn -[Z.mul].
  split; [intros (A & B & C & D)|intros [A B]]; lia.
Qed.
Lemma sel_upto2 : selects 3 (upto 2) 2 (fun t => 0 + t * 1).
Proof. eapply selects_compute; [unfold LIM; lia|discriminate|cbn; lia|reflexivity]. Qed.
Lemma sel_back3 : selects 3 back 3 (fun t => 2 + t * -1).
Proof. eapply selects_compute; [unfold LIM; lia|discriminate|cbn; lia|reflexivity]. Qed.

(** B = M[:2, ::-1]. *)
Definition B : view := mkView (mkSlice 0 2 1) 2 (mkSlice 2 (-1) (-1)) 3.
Lemma B_sub : subscript M OMat (upto 2) back 2 (fun t => 0 + t * 1) 3 (fun t => 2 + t * -1) B.
Proof.
  unfold subscript. cbn [o_rows o_cols]. cbn [M m_rows m_cols]. split; [lia|]. split; [lia|]. split; [exact sel_upto2|]. split; [exact sel_back3|].
  split; [cbn; lia|]. split; [cbn; lia|]. split; [intros []|reflexivity].
Qed.
Lemma B_held : held M (OBlock B). Proof. exact (held_sub M OMat _ _ _ _ _ _ B (held_mat M) B_sub). Qed.
Lemma B_entry a b : inr 2 3 a b -> entry M (OBlock B) a b a (2 - b).
Proof.
  intros I. apply (entry_sub M OMat (upto 2) back 2 (fun t => 0 + t * 1) 3 (fun t => 2 + t * -1) B a b a (2 - b) B_sub I).
  replace (0 + a * 1) with a by lia. replace (2 + b * -1) with (2 - b) by lia. constructor. destruct I. split; cbn [M m_rows m_cols]; lia.
Qed.

(** M[-1, :]. *)
Lemma row_refuted : exists (m : vmat Z) r c F i j li f lj g v e, represents m r c F /\ moderate r c /\
  selects (o_rows m OMat) i li f /\ selects (o_cols m OMat) j lj g /\ modest (o_rows m OMat) i /\ modest (o_cols m OMat) j /\ inr li lj 0 0 /\
  getitem m OMat i j = Ok (RBlock v) /\ getitem m OMat (IInt (f 0)) (IInt (g 0)) = Ok (RVar e) /\
  getitem m (OBlock v) (IInt 0) (IInt 0) = AssertFail.
Proof.
  exists M, 3, 3, (fun i j => 3 * i + j), (IInt (-1)), all, 1, (fun _ => if -1 <? 0 then -1 + 3 else -1), 3, (fun t => 0 + t * 1). eexists _, _.
  split; [exact M_rep|]. split; [exact M_mod|]. split; [apply (sel_int 3 (-1)); lia|]. split; [apply sel_all; unfold LIM; cbn; lia|].
  split; [exact I|]. split; [cbn; lia|]. split; [split; lia|]. split; [reflexivity|]. split; reflexivity.
Qed.

(** B[2, 0:1] with B = M[:2, ::-1]: an entry of M that is not in B. *)
Lemma outside_refuted : exists (m : vmat Z) r c F x i j v e, represents m r c F /\ moderate r c /\ held m x /\ refuses (o_rows m x) i /\
  getitem m x i j = Ok (RBlock v) /\ getitem m (OBlock v) (IInt 0) (IInt 0) = Ok (RVar e) /\
  forall a b, inr (o_rows m x) (o_cols m x) a b -> getitem m x (IInt a) (IInt b) <> Ok (RVar e).
Proof.
  exists M, 3, 3, (fun i j => 3 * i + j), (OBlock B), (IInt 2), (upto 1). eexists _, _.
  split; [exact M_rep|]. split; [exact M_mod|]. split; [exact B_held|]. split; [cbn; lia|]. split; [reflexivity|]. split; [reflexivity|].
  cbn [o_rows o_cols B v_rl v_cl]. intros a b [Ha Hb].
  assert (a = 0 \/ a = 1) as [-> | ->] by lia; assert (b = 0 \/ b = 1 \/ b = 2) as [-> | [-> | ->]] by lia; vm_compute; discriminate.
Qed.
(** M[5, :]: no exception. *)
Lemma lax_refuted : exists (m : vmat Z) r c F i j v, represents m r c F /\ moderate r c /\ refuses (o_rows m OMat) i /\ getitem m OMat i j = Ok (RBlock v).
Proof.
  exists M, 3, 3, (fun i j => 3 * i + j), (IInt 5), all. eexists.
  split; [exact M_rep|]. split; [exact M_mod|]. split; [cbn; lia|]. reflexivity.
Qed.
(** M[2147483647, :] and M[::2, :][::1073741824, :]: signed overflow. *)
Definition B2 : view := mkView (mkSlice 0 3 2) 2 (mkSlice 0 3 1) 3.
Lemma B2_held : held M (OBlock B2).
Proof.
  apply (held_sub M OMat (ISlice None None (Some 2)) all 2 (fun t => 0 + t * 2) 3 (fun t => 0 + t * 1) B2 (held_mat M)).
  unfold subscript. cbn [o_rows o_cols]. cbn [M m_rows m_cols]. split; [lia|]. split; [lia|].
  split; [eapply selects_compute; [unfold LIM; lia|discriminate|cbn; lia|reflexivity]|]. split; [apply sel_all; unfold LIM; lia|].
  split; [cbn; lia|]. split; [cbn; lia|]. split; [intros []|reflexivity].
Qed.
Lemma overflow_refuted : exists (m : vmat Z) r c F x i j li f lj g, represents m r c F /\ moderate r c /\ held m x /\
  selects (o_rows m x) i li f /\ selects (o_cols m x) j lj g /\ getitem m x i j = UB.
Proof.
  exists M, 3, 3, (fun i j => 3 * i + j), (OBlock B2), (ISlice None None (Some 1073741824)), all, 1, (fun t => 0 + t * 1073741824), 3, (fun t => 0 + t * 1).
  split; [exact M_rep|]. split; [exact M_mod|]. split; [exact B2_held|].
  split. { cbn [o_rows B2 v_rl]. constructor; [discriminate|lia|]. intros t x. unfold py_selects, py_start, py_stop, py_lower, py_upper. cbn -[Z.mul]. split; [intros (H1 & H2 & H3 & H4)|intros [H1 H2]]; lia. }
  split; [apply sel_all; unfold LIM; cbn; lia|]. vm_compute. reflexivity.
Qed.

(** B[2, 0:1] = 9 with B = M[:2, ::-1]: changes an entry of M that is not in B. *)
Lemma outside_write_refuted : exists (m : vmat Z) r c F x i j e m' p q, represents m r c F /\ moderate r c /\ held m x /\ refuses (o_rows m x) i /\
  setitem m x i j (VScalar e) = Ok m' /\ (forall a b, ~ entry m x a b p q) /\
  getitem m OMat (IInt p) (IInt q) <> getitem m' OMat (IInt p) (IInt q).
Proof.
  exists M, 3, 3, (fun i j => 3 * i + j), (OBlock B), (IInt 2), (upto 1), 9. eexists _, 2, 2.
  split; [exact M_rep|]. split; [exact M_mod|]. split; [exact B_held|]. split; [cbn; lia|]. split; [vm_compute; reflexivity|]. split; [|vm_compute; discriminate].
  intros a b H. destruct (entry_pos M (fun i j => 3 * i + j) M_rep M_mod _ _ _ _ _ H) as (_ & [Ha Hb] & E1 & E2). cbn in Ha, Hb, E1. unfold sel in E1. cbn in E1. lia.
Qed.

(** M[1:3, :] = M[0:2, :]. *)
Definition W : view := mkView (mkSlice 0 2 1) 2 (mkSlice 0 3 1) 3.
Lemma W_held : held M (OBlock W).
Proof.
  apply (held_sub M OMat (upto 2) all 2 (fun t => 0 + t * 1) 3 (fun t => 0 + t * 1) W (held_mat M)).
  unfold subscript. cbn [o_rows o_cols]. cbn [M m_rows m_cols]. split; [lia|]. split; [lia|]. split; [exact sel_upto2|].
  split; [apply sel_all; unfold LIM; lia|]. split; [cbn; lia|]. split; [cbn; lia|]. split; [intros []|reflexivity].
Qed.
Lemma overlap_refuted : exists (m : vmat Z) r c F w i j li f lj g m' a b e e', represents m r c F /\ moderate r c /\ held m (OBlock w) /\
  selects (o_rows m OMat) i li f /\ selects (o_cols m OMat) j lj g /\ modest (o_rows m OMat) i /\ modest (o_cols m OMat) j /\
  o_rows m (OBlock w) = li /\ o_cols m (OBlock w) = lj /\ inr li lj a b /\
  setitem m OMat i j (VMat (fun m => like_view m w)) = Ok m' /\
  getitem m (OBlock w) (IInt a) (IInt b) = Ok (RVar e) /\ getitem m' OMat (IInt (f a)) (IInt (g b)) = Ok (RVar e') /\ e <> e'.
Proof.
  exists M, 3, 3, (fun i j => 3 * i + j), W, (ISlice (Some 1) (Some 3) None), all, 2, (fun t => 1 + t * 1), 3, (fun t => 0 + t * 1). eexists _, 1, 0, 3, 0.
  split; [exact M_rep|]. split; [exact M_mod|]. split; [exact W_held|]. split; [eapply selects_compute; [unfold LIM; cbn; lia|discriminate|cbn; lia|reflexivity]|].
  split; [apply sel_all; unfold LIM; cbn; lia|]. split; [cbn; lia|]. split; [cbn; lia|]. split; [reflexivity|]. split; [reflexivity|]. split; [split; lia|].
  split; [vm_compute; reflexivity|]. split; [reflexivity|]. split; [reflexivity|discriminate].
Qed.

(** len(M) = 3 and list(M) has nine elements. *)
Lemma len_refuted : exists (m : vmat Z) r c F l, represents m r c F /\ moderate r c /\ py_iter m OMat = Ok l /\ Z.of_nat (length l) <> py_len m OMat.
Proof. exists M, 3, 3, (fun i j => 3 * i + j). eexists. split; [exact M_rep|]. split; [exact M_mod|]. split; [reflexivity|]. cbn. lia. Qed.
