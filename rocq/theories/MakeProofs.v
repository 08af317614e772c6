(** Proofs about the constructors of VariableMatrix. *)
From Coq Require Import ZArith List Bool Lia.
From Verif Require Import Base SliceModel SliceSpec SliceProofs Loops MatrixModel MatrixSpec MatrixProofs MakeModel MakeSpec.
Import ListNotations.
Open Scope Z_scope.

Section Make.
  Context {E : Type}.

  Lemma pushes_ok r c (f : Z -> Z -> outcome E) F : dims r c -> (forall i j, inr r c i j -> f i j = Ok (F i j)) ->
    exists d, pushes r c f = Ok d /\ represents (mkMat r c d) r c F.
  Proof.
    intros Hd Hf. pose proof Hd as (Hr & Hc & Hrc). unfold pushes.
    destruct (for_rc_inv (fun a b (d : list (option E)) => Z.of_nat (length d) = a * c + b /\ b <= c /\
        forall i j, inr r c i j -> (i < a \/ (i = a /\ j < b)) -> nth_error d (Z.to_nat (i * c + j)) = Some (Some (F i j)))
      (fun row col d => let* e := f row col in Ok (d ++ [Some e])) r c []) as (d & E1 & Hl & _ & H); [lia|lia| | | |].
    - split; [reflexivity|]. split; [lia|]. unfold inr. intros i j ? ?. lia.
    - intros a d Ha (Hl & _ & H). split; [lia|]. split; [lia|]. unfold inr in *. intros i j Hij Hlt. apply H; [exact Hij|lia].
    - intros a b d Ha Hb (Hl & _ & H). rewrite Hf by (unfold inr; lia). cbn [obind]. eexists. split; [reflexivity|]. rewrite app_length. cbn [length].
      split; [lia|]. split; [lia|]. intros i j Hij Hlt. pose proof Hij as Hij'. unfold inr in Hij'. destruct (Z.eq_dec i a) as [->|Hn]; [destruct (Z.eq_dec j b) as [->|Hm]|].
      + rewrite nth_error_app2 by lia. replace (Z.to_nat (a * c + b) - length d)%nat with 0%nat by lia. reflexivity.
      + rewrite nth_error_app1 by lia. apply H; [exact Hij|lia].
      + rewrite nth_error_app1 by nia. apply H; [exact Hij|lia].
    - exists d. split; [exact E1|]. unfold represents. cbn. split; [reflexivity|]. split; [reflexivity|]. split; [exact Hd|]. split; [lia|].
      intros i j Hij. apply H; [exact Hij|]. unfold inr in Hij. lia.
  Qed.

  Lemma concat_nth n : forall (L : list (list E)) i j row, Forall (fun row => length row = n) L -> nth_error L i = Some row -> (j < n)%nat ->
    nth_error (concat L) (i * n + j) = nth_error row j.
  Proof.
    induction L as [|r0 L IH]; intros i j row F Hi Hj; [destruct i; discriminate Hi|]. inversion F as [|? ? F1 F2]; subst. cbn [concat]. destruct i as [|i]; cbn [nth_error] in Hi.
    - injection Hi as <-. cbn. rewrite nth_error_app1 by lia. reflexivity.
    - rewrite nth_error_app2 by lia. rewrite <- (IH i j row F2 Hi Hj). f_equal. lia.
  Qed.
  Lemma concat_len n : forall (L : list (list E)), Forall (fun row => length row = n) L -> length (concat L) = (length L * n)%nat.
  Proof. induction L as [|r0 L IH]; intros F; [reflexivity|]. inversion F as [|? ? F1 F2]; subst. cbn [concat length]. rewrite app_length, (IH F2). lia. Qed.

  Lemma list_ok (L : list (list E)) r c F : rows_of_matrix L r c F -> dims r c -> exists m, make_list L = Ok m /\ represents m r c F.
  Proof.
    intros (Hl & Hr0 & H) Hd. pose proof Hd as (Hr & Hc & Hrc). unfold make_list. rewrite int_ok by (unfold is_int, INT_MIN, INT_MAX in *; lia). cbn [obind].
    assert (Fa : Forall (fun row => Z.of_nat (length row) = c) L).
    { apply Forall_forall. intros row Hin. apply In_nth_error in Hin. destruct Hin as (k & Hk). assert (k < length L)%nat by (apply nth_error_Some; congruence).
      destruct (H (Z.of_nat k) ltac:(lia)) as (row' & E1 & E2 & _). rewrite Nat2Z.id in E1. congruence. }
    assert (Hc1 : match L with [] => Ok 0 | row :: _ => int (Z.of_nat (length row)) end = Ok c).
    { destruct L as [|row L]; [cbn in Hl; lia|]. inversion Fa as [|? ? F1 _]; subst. apply int_ok. unfold is_int, INT_MIN, INT_MAX in *. lia. }
    rewrite Hc1. cbn [obind].
    replace (forallb _ L) with true by (symmetry; apply forallb_forall; intros row Hin; rewrite Forall_forall in Fa; rewrite (Fa row Hin); apply Z.eqb_refl).
    cbn [oassert]. rewrite Hl, int_ok by (unfold is_int, INT_MIN, INT_MAX in *; nia). cbn [obind]. eexists. split; [reflexivity|].
    assert (Fn : Forall (fun row => length row = Z.to_nat c) L) by (eapply Forall_impl; [|exact Fa]; cbn; intros; lia).
    unfold represents. cbn. split; [reflexivity|]. split; [reflexivity|]. split; [exact Hd|]. split.
    - rewrite map_length, (concat_len _ L Fn). nia.
    - intros i j Hij. unfold inr in Hij. destruct (H i ltac:(lia)) as (row & E1 & _ & E2). rewrite nth_error_map.
      replace (Z.to_nat (i * c + j)) with (Z.to_nat i * Z.to_nat c + Z.to_nat j)%nat by nia.
      rewrite (concat_nth _ L _ _ row Fn E1) by lia. rewrite E2 by lia. reflexivity.
  Qed.
  Lemma list_ragged (L : list (list E)) first rest row : L = first :: rest -> In row rest -> length row <> length first ->
    Z.of_nat (length L) <= INT_MAX -> Z.of_nat (length first) <= INT_MAX -> make_list L = AssertFail.
  Proof.
    intros -> Hin Hne H1 H2. unfold make_list. rewrite !int_ok by (unfold is_int, INT_MIN, INT_MAX in *; lia). cbn [obind].
    destruct (forallb _ _) eqn:Q; [|reflexivity]. rewrite forallb_forall in Q. specialize (Q row (or_intror Hin)). cbn in Q. lia.
  Qed.
  Lemma diag_ok z (d : list E) n (F : Z -> E) : Z.of_nat (length d) = n -> (forall i, 0 <= i < n -> nth_error d (Z.to_nat i) = Some (F i)) -> dims n n ->
    exists m, make_diag z d = Ok m /\ represents m n n (fun i j => if i =? j then F i else z).
  Proof.
    intros Hl H Hd. unfold make_diag. rewrite int_ok by (unfold dims, is_int, INT_MIN, INT_MAX in *; lia). cbn [obind]. rewrite Hl.
    match goal with |- context [pushes n n ?f] => destruct (pushes_ok n n f (fun i j => if i =? j then F i else z) Hd) as (data & Ep & R) end; [|rewrite Ep; cbn [obind]; eexists; split; [reflexivity|exact R]].
    intros i j Hij. unfold inr in Hij. destruct (i =? j); [|reflexivity]. rewrite H by lia. reflexivity.
  Qed.
  Lemma span_ok (l : list E) r c F : Z.of_nat (length l) = r * c -> (forall i j, inr r c i j -> nth_error l (Z.to_nat (i * c + j)) = Some (F i j)) -> dims r c ->
    exists m, make_span l r c = Ok m /\ represents m r c F.
  Proof.
    intros Hl H Hd. pose proof Hd as (Hr & Hc & Hrc). unfold make_span. rewrite int_ok by (unfold is_int, INT_MIN, INT_MAX in *; nia). cbn [obind]. rewrite Hl, Z.eqb_refl. cbn [oassert].
    match goal with |- context [pushes r c ?f] => destruct (pushes_ok r c f F Hd) as (data & Ep & R) end; [|rewrite Ep; cbn [obind]; eexists; split; [reflexivity|exact R]].
    intros i j Hij. pose proof Hij as Hij'. unfold inr in Hij'. rewrite int_ok by (unfold is_int, INT_MIN, INT_MAX in *; nia). cbn [obind]. rewrite int_ok by (unfold is_int, INT_MIN, INT_MAX in *; nia). cbn [obind].
    rewrite H by exact Hij. reflexivity.
  Qed.
  Lemma span_refuses (l : list E) r c : dims r c -> Z.of_nat (length l) <> r * c -> make_span l r c = AssertFail.
  Proof.
    intros (Hr & Hc & Hrc) H. unfold make_span. rewrite int_ok by (unfold is_int, INT_MIN, INT_MAX in *; nia). cbn [obind]. replace (_ =? _) with false by lia. reflexivity.
  Qed.
  Lemma column_ok (l : list E) n F : Z.of_nat (length l) = n -> (forall i, 0 <= i < n -> nth_error l (Z.to_nat i) = Some (F i)) -> n <= INT_MAX ->
    exists m, make_column l = Ok m /\ represents m n 1 (fun i _ => F i).
  Proof.
    intros Hl H Hn. unfold make_column. rewrite int_ok by (unfold is_int, INT_MIN, INT_MAX in *; lia). cbn [obind]. rewrite Hl. apply span_ok; [lia| |unfold dims, INT_MAX in *; lia].
    intros i j Hij. unfold inr in Hij. replace (i * 1 + j) with i by lia. apply H. lia.
  Qed.
  Lemma constant_ok r c (e : E) : dims r c -> exists m, make_constant r c e = Ok m /\ represents m r c (fun _ _ => e).
  Proof.
    intros Hd. pose proof Hd as (Hr & Hc & Hrc). unfold make_constant, mat_empty. rewrite int_ok by (unfold is_int, INT_MIN, INT_MAX in *; nia). cbn [obind]. eexists. split; [reflexivity|].
    unfold represents. cbn. split; [reflexivity|]. split; [reflexivity|]. split; [exact Hd|]. rewrite map_length, repeat_length. split; [nia|].
    intros i j Hij. unfold inr in Hij. rewrite nth_error_map. rewrite (nth_error_repeat None) by nia. reflexivity.
  Qed.
End Make.
