From Coq Require Import ZArith List Lia Bool ZifyBool Reals Lra.
From Verif Require Import Base SliceModel SliceSpec Loops MatrixModel MatrixSpec MatrixProofs MatrixProofs2 MatrixProofs3
  SolveModel SolveSpec.
Import ListNotations.
Open Scope Z_scope.

Lemma Rsum_ext n f g : (forall k, (k < n)%nat -> f k = g k) -> Rsum n f = Rsum n g.
Proof. induction n; intros H; cbn; [reflexivity|]. rewrite IHn by (intros; apply H; lia). rewrite H by lia. reflexivity. Qed.

Lemma Rsum_plus n f g : Rsum n (fun k => f k + g k)%R = (Rsum n f + Rsum n g)%R.
Proof. induction n; cbn; [lra|]. rewrite IHn. lra. Qed.

Lemma Rsum_scal n c f : Rsum n (fun k => c * f k)%R = (c * Rsum n f)%R.
Proof. induction n; cbn; [lra|]. rewrite IHn. lra. Qed.

Lemma Rsum_zero n : Rsum n (fun _ => 0%R) = 0%R.
Proof. induction n; cbn; [lra|]. rewrite IHn. lra. Qed.

Lemma Rsum_swap n m (f : nat -> nat -> R) :
  Rsum n (fun i => Rsum m (fun j => f i j)) = Rsum m (fun j => Rsum n (fun i => f i j)).
Proof.
  induction n; cbn; [symmetry; apply Rsum_zero|]. rewrite IHn, <- Rsum_plus. reflexivity.
Qed.

Lemma Rsum_pick n i (f : nat -> R) : (i < n)%nat -> (forall k, (k < n)%nat -> k <> i -> f k = 0%R) -> Rsum n f = f i.
Proof.
  induction n; intros H Hz; [lia|]. cbn. destruct (Nat.eq_dec i n) as [->|N].
  - rewrite (Rsum_ext n f (fun _ => 0%R)) by (intros; apply Hz; lia). rewrite Rsum_zero. lra.
  - rewrite IHn by (try lia; intros; apply Hz; lia). rewrite (Hz n) by lia. lra.
Qed.

Lemma mat_lit_rep r c l : dims r c -> Z.of_nat (length l) = r * c ->
  represents (mat_lit r c l) r c (fun i j => nth (Z.to_nat (i * c + j)) l 0%R).
Proof.
  intros D L. split; [reflexivity|]. split; [reflexivity|]. split; [exact D|].
  split; [cbn; rewrite map_length; exact L|]. intros i j H. pose proof (off_range r c i j H).
  cbn. rewrite nth_error_map. rewrite (nth_error_nth' l 0%R) by lia. reflexivity.
Qed.

Lemma lsum_Rsum n f : lsum 0%R Rplus n f = Rsum n f.
Proof. induction n; cbn; [reflexivity|]. rewrite IHn. reflexivity. Qed.

Lemma adj_solve_ok n p adj ADJ d B F G :
  represents adj n n ADJ -> represents B n p G -> d <> 0%R ->
  (forall i l, inr n n i l ->
     Rsum (Z.to_nat n) (fun k => F i (Z.of_nat k) * ADJ (Z.of_nat k) l)%R = if i =? l then d else 0%R) ->
  exists m X, adj_solve adj d B = Ok m /\ represents m n p X /\ solves n p F X G.
Proof.
  intros HA HB Hd Hid. unfold adj_solve.
  destruct (mat_divs_ok Rdiv (like_mat adj) d n n ADJ (represents_denotes _ _ _ _ HA)) as (q & E1 & R1).
  rewrite E1. cbn [obind].
  assert (D : dims n p) by apply HB.
  destruct (mat_mul_ok 0%R Rplus Rmult (like_mat q) (like_mat B) n n p _ _ (represents_denotes _ _ _ _ R1)
     (represents_denotes _ _ _ _ HB) D) as (m & E2 & R2).
  eexists m, _. split; [exact E2|]. split; [exact R2|].
  intros i j Hij. unfold inr in Hij.
  rewrite (Rsum_ext _ _ (fun k => Rsum (Z.to_nat n)
     (fun t => (F i (Z.of_nat k) * (ADJ (Z.of_nat k) (Z.of_nat t) / d * G (Z.of_nat t) j)))%R)).
  2:{ intros k Hk. rewrite lsum_Rsum, <- Rsum_scal. reflexivity. }
  rewrite Rsum_swap.
  rewrite (Rsum_ext _ _ (fun t => ((if i =? Z.of_nat t then d else 0) / d * G (Z.of_nat t) j)%R)).
  2:{ intros t Ht. rewrite <- (Hid i (Z.of_nat t)) by (unfold inr; lia).
      rewrite (Rsum_ext _ _ (fun k => (G (Z.of_nat t) j / d) * (F i (Z.of_nat k) * ADJ (Z.of_nat k) (Z.of_nat t)))%R).
      - rewrite Rsum_scal. unfold Rdiv. ring.
      - intros. unfold Rdiv. ring. }
  rewrite (Rsum_pick _ (Z.to_nat i)); [|lia|].
  - rewrite Z2Nat.id by lia. rewrite Z.eqb_refl. field. exact Hd.
  - intros k Hk Hne. replace (i =? Z.of_nat k) with false by lia. unfold Rdiv. ring.
Qed.

Ltac small_dims := unfold dims, INT_MAX; lia.
Ltac get_all H :=
  repeat (match goal with
  | |- context [mat_get ?A ?i ?j] =>
      let G := fresh in
      pose proof (proj2 (proj2 (proj2 (represents_denotes A _ _ _ H))) i j ltac:(unfold inr; lia)) as G;
      cbn [ml_get like_mat] in G; rewrite G; clear G; cbn [obind]
  end).

Ltac solve_entries i l :=
  match goal with Hij : inr _ _ i l |- _ =>
    destruct Hij as [? ?];
    let rec go x := (match goal with
      | H : 0 <= x < 1 |- _ => assert (x = 0) by lia
      | H : 0 <= x < 2 |- _ => assert (x = 0 \/ x = 1) as [?|?] by lia
      | H : 0 <= x < 3 |- _ => assert (x = 0 \/ x = 1 \/ x = 2) as [?|[?|?]] by lia
      | H : 0 <= x < 4 |- _ => assert (x = 0 \/ x = 1 \/ x = 2 \/ x = 3) as [?|[?|[?|?]]] by lia
      end) in go i; go l; subst;
    cbv -[Rplus Rmult Rminus Ropp Rdiv IZR]; ring
  end.

Lemma solve2_ok A B p F G : represents A 2 2 F -> represents B 2 p G -> det 2 F <> 0%R ->
  exists m X, solve2 A B = Ok m /\ represents m 2 p X /\ solves 2 p F X G.
Proof.
  intros HA HB Hd. unfold solve2. get_all HA.
  eapply adj_solve_ok; [apply mat_lit_rep; [small_dims|reflexivity]|exact HB| |].
  - intros E. apply Hd. rewrite <- E. cbn -[Rplus Rmult Rminus Ropp Rdiv IZR]. cbn. ring.
  - intros i l Hij. solve_entries i l.
Qed.

Lemma solve3_ok A B p F G : represents A 3 3 F -> represents B 3 p G -> det 3 F <> 0%R ->
  exists m X, solve3 A B = Ok m /\ represents m 3 p X /\ solves 3 p F X G.
Proof.
  intros HA HB Hd. unfold solve3. get_all HA. cbv zeta.
  eapply adj_solve_ok; [apply mat_lit_rep; [small_dims|reflexivity]|exact HB| |].
  - intros E. apply Hd. rewrite <- E. cbn -[Rplus Rmult Rminus Ropp Rdiv IZR]. cbn. ring.
  - intros i l Hij. solve_entries i l.
Qed.

Lemma solve4_ok A B p F G : represents A 4 4 F -> represents B 4 p G -> det 4 F <> 0%R ->
  exists m X, solve4 A B = Ok m /\ represents m 4 p X /\ solves 4 p F X G.
Proof.
  intros HA HB Hd. unfold solve4. get_all HA. cbv zeta.
  eapply adj_solve_ok; [apply mat_lit_rep; [small_dims|reflexivity]|exact HB| |].
  - intros E. apply Hd. rewrite <- E. cbn -[Rplus Rmult Rminus Ropp Rdiv IZR]. cbn. ring.
  - intros i l Hij. solve_entries i l.
Qed.

Lemma solve_ok n p A B F G : (n = 2 \/ n = 3 \/ n = 4 \/ (n = 1 /\ p = 1)) ->
  represents A n n F -> represents B n p G -> det (Z.to_nat n) F <> 0%R ->
  exists m X, solve A B = Some (Ok m) /\ represents m n p X /\ solves n p F X G.
Proof.
  intros Hn HA HB Hd. unfold solve.
  pose proof HA as (A1 & A2 & _). pose proof HB as (B1 & B2 & _). rewrite A1, A2, B1, Z.eqb_refl. cbn [negb].
  destruct Hn as [->|[->|[->|(-> & ->)]]]; cbn [Z.eqb Pos.eqb andb].
  - destruct (solve2_ok A B p F G HA HB Hd) as (m & X & E & R & S). exists m, X. rewrite E. auto.
  - destruct (solve3_ok A B p F G HA HB Hd) as (m & X & E & R & S). exists m, X. rewrite E. auto.
  - destruct (solve4_ok A B p F G HA HB Hd) as (m & X & E & R & S). exists m, X. rewrite E. auto.
  - get_all HB. get_all HA. eexists _, _. split; [reflexivity|].
    split; [apply mat_lit_rep; [small_dims|reflexivity]|].
    intros i j [Hi Hj]. assert (i = 0) by lia. assert (j = 0) by lia. subst.
    cbv -[Rplus Rmult Rminus Ropp Rdiv IZR not] in Hd |- *. field.
    intros E. apply Hd. rewrite E. ring.
Qed.
