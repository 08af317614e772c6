(** Counted loops [for (int i = 0; i < n; ++i) body] over a state, with early exit on errors. *)
From Coq Require Import ZArith List Lia.
From Verif Require Import Base.
Open Scope Z_scope.

Section Loops.
  Context {S : Type}.

  Fixpoint for_from (i : Z) (k : nat) (body : Z -> S -> outcome S) (s : S) : outcome S :=
    match k with
    | O => Ok s
    | Datatypes.S k' => let* s' := body i s in for_from (i + 1) k' body s'
    end.

  (** [for (int i = 0; i < n; ++i)]; zero iterations when [n <= 0]. *)
  Definition for_z (n : Z) (body : Z -> S -> outcome S) (s : S) : outcome S :=
    for_from 0 (Z.to_nat n) body s.

  (** [for (row...) for (col...)]. *)
  Definition for_rc (rows cols : Z) (body : Z -> Z -> S -> outcome S) (s : S) : outcome S :=
    for_z rows (fun r s => for_z cols (fun c s => body r c s) s) s.

  Lemma for_from_inv (P : Z -> S -> Prop) body k : forall i s,
    P i s ->
    (forall j s, i <= j < i + Z.of_nat k -> P j s -> exists s', body j s = Ok s' /\ P (j + 1) s') ->
    exists s', for_from i k body s = Ok s' /\ P (i + Z.of_nat k) s'.
  Proof.
    induction k; intros i s H0 Hstep.
    - exists s. simpl. rewrite Z.add_0_r. auto.
    - destruct (Hstep i s ltac:(lia) H0) as (s' & E & H1).
      destruct (IHk (i + 1) s' H1) as (s'' & E' & H2).
      { intros j t Hj Ht. apply Hstep; [lia|assumption]. }
      exists s''. cbn [for_from]. rewrite E. cbn [obind]. rewrite E'. split; [reflexivity|].
      replace (i + Z.of_nat (Datatypes.S k)) with (i + 1 + Z.of_nat k) by lia. exact H2.
  Qed.

  Lemma for_z_inv (P : Z -> S -> Prop) body n s :
    0 <= n -> P 0 s ->
    (forall j s, 0 <= j < n -> P j s -> exists s', body j s = Ok s' /\ P (j + 1) s') ->
    exists s', for_z n body s = Ok s' /\ P n s'.
  Proof.
    intros Hn H0 Hstep. unfold for_z.
    destruct (for_from_inv P body (Z.to_nat n) 0 s H0) as (s' & E & H).
    - intros j t Hj Ht. apply Hstep; [lia|assumption].
    - exists s'. split; [exact E|]. replace n with (0 + Z.of_nat (Z.to_nat n)) by lia. exact H.
  Qed.

  (** Invariant indexed by the next (row, col) to process, in row-major order. *)
  Lemma for_rc_inv (P : Z -> Z -> S -> Prop) body rows cols s :
    0 <= rows -> 0 <= cols ->
    P 0 0 s ->
    (forall r s, 0 <= r < rows -> P r cols s -> P (r + 1) 0 s) ->
    (forall r c s, 0 <= r < rows -> 0 <= c < cols -> P r c s ->
       exists s', body r c s = Ok s' /\ P r (c + 1) s') ->
    exists s', for_rc rows cols body s = Ok s' /\ P rows 0 s'.
  Proof.
    intros Hr Hc H0 Hnext Hstep. unfold for_rc.
    apply (for_z_inv (fun r s => P r 0 s)); [lia|assumption|].
    intros r t Hrange Ht.
    destruct (for_z_inv (fun c s => P r c s) (fun c s => body r c s) cols t Hc Ht) as (s' & E & H).
    - intros c u Hcr Hu. apply Hstep; assumption.
    - exists s'. split; [exact E|]. apply Hnext; assumption.
  Qed.
End Loops.
