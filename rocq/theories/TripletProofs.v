(** Proofs for C47. *)
From Coq Require Import ZArith Reals List Bool Lia.
From Verif Require Import Base ExprModel ExprReal NumModel UtilModel UtilSpec.
Import ListNotations.

Section T.
Context {S : nops}.
Implicit Types (ms : list (csc S)) (m : csc S).

Lemma asc_app {A} (lt : A -> A -> Prop) l1 l2 : ascending lt l1 -> ascending lt l2 -> (forall a b, In a l1 -> In b l2 -> lt a b) -> ascending lt (l1 ++ l2).
Proof.
  intros H1 H2 H. induction H1 as [|a l F H1 IH]; auto. cbn. constructor.
  - intros b I. apply in_app_iff in I as [I|I]; auto. apply H; cbn; auto.
  - apply IH. intros; apply H; cbn; auto.
Qed.
Lemma asc_map {A B} (f : A -> B) (lt : A -> A -> Prop) (lt' : B -> B -> Prop) l :
  (forall a b, lt a b -> lt' (f a) (f b)) -> ascending lt l -> ascending lt' (map f l).
Proof.
  intros H H1. induction H1 as [|a l F H1 IH]; cbn; constructor; auto. intros b I. apply in_map_iff in I as (x & <- & I). auto.
Qed.

Definition rows_before (i : nat) ms : nat := list_sum (map (fun m => c_rows m) (firstn i ms)).
Lemma rows_before_S i m ms : rows_before (Datatypes.S i) (m :: ms) = (c_rows m + rows_before i ms)%nat.
Proof. reflexivity. Qed.
(** Entry (r, c, v) comes from matrix number i of [ms]. *)
Definition comes ro co off ms (c : nat) (e : nat * nat * S) : Prop :=
  exists i m r', nth_error ms i = Some m /\ stored m r' c (snd e) /\ fst e = ((ro + (off + rows_before i ms) + r')%nat, (co + c)%nat).

Lemma cols_of_spec ro co col ms off : List.Forall csc_ok ms -> List.Forall (fun m => (col < length (c_cols m))%nat) ms ->
  exists out, cols_of ro co col (row_offsets off ms) ms = Ok out /\ ascending before out /\
    (forall e, In e out <-> comes ro co off ms col e) /\ (forall e, In e out -> (ro + off <= fst (fst e))%nat).
Proof.
  revert off. induction ms as [|m ms IH]; intros off W C.
  { exists []. repeat split; try (constructor); intros; try contradiction.
    destruct H as (i & m & r & E & _). destruct i; discriminate. }
  inversion_clear W as [|? ? Wm W']. inversion_clear C as [|? ? Cm C'].
  destruct (IH (off + c_rows m)%nat W' C') as (out & E & A & M & L). clear IH.
  cbn [row_offsets cols_of]. unfold col_entries. destruct (nth_error (c_cols m) col) as [es|] eqn:Ec; [|apply nth_error_None in Ec; lia].
  cbn [obind]. rewrite E. cbn [obind]. eexists. split; [reflexivity|].
  destruct (Wm es (nth_error_In _ _ Ec)) as [Ae Le]. split; [|split].
  - apply asc_app; auto.
    + eapply asc_map; [|exact Ae]. intros [ra va] [rb vb] H. cbn in *. right. split; lia.
    + intros a b I1 I2. apply in_map_iff in I1 as ([r v] & <- & I1). specialize (Le _ I1). cbn in Le.
      pose proof (proj1 (M b) I2) as (i & m' & r' & _ & _ & Eb). destruct b as [[rb cb] vb]. cbn in Eb |- *. injection Eb as -> ->. right. split; lia.
  - intros e. rewrite in_app_iff, in_map_iff, M. split.
    + intros [([r v] & <- & I)|(i & m' & r' & N & St & Ee)].
      * exists O, m, r. cbn. repeat split; auto. { exists es. auto. } unfold rows_before. cbn. f_equal; lia.
      * exists (Datatypes.S i), m', r'. cbn [nth_error]. repeat split; auto. rewrite Ee, rows_before_S. f_equal; lia.
    + intros (i & m' & r' & N & St & Ee). destruct i as [|i].
      * left. cbn in N. injection N as <-. destruct St as (es' & Es & I). rewrite Ec in Es. injection Es as <-.
        exists (r', snd e). split; auto. cbn. destruct e as [e v]. cbn in *. rewrite Ee. unfold rows_before. cbn. f_equal; f_equal; lia.
      * right. exists i, m', r'. cbn in N. repeat split; auto. rewrite Ee, rows_before_S. f_equal; lia.
  - intros e I. apply in_app_iff in I as [I|I].
    + apply in_map_iff in I as ([r v] & <- & I). cbn. lia.
    + specialize (L e I). lia.
Qed.
Lemma cols_from_spec ro co ms n k col : List.Forall csc_ok ms -> List.Forall (fun m => length (c_cols m) = n) ms -> (col + k = n)%nat ->
  exists out, cols_from ro co col k ms = Ok out /\ ascending before out /\
    (forall e, In e out <-> exists c, (col <= c < n)%nat /\ comes ro co 0 ms c e).
Proof.
  intros W C. revert col. induction k as [|k IH]; intros col Ek.
  { exists []. repeat split; try constructor; intros; try contradiction. destruct H as (c & H & _). lia. }
  destruct (IH (Datatypes.S col) ltac:(lia)) as (out & E & A & M).
  destruct (cols_of_spec ro co col ms 0 W) as (o1 & E1 & A1 & M1 & _).
  { eapply Forall_impl; [|exact C]. cbn. intros; lia. }
  cbn [cols_from]. rewrite E1. cbn [obind]. rewrite E. cbn [obind]. eexists. split; [reflexivity|]. split.
  - apply asc_app; auto. intros a b I1 I2. apply M1 in I1 as (i & m & r & _ & _ & Ea). apply M in I2 as (c & Hc & i' & m' & r' & _ & _ & Eb).
    destruct a as [[ra ca] va], b as [[rb cb] vb]. cbn in *. injection Ea as -> ->. injection Eb as -> ->. left. lia.
  - intros e. rewrite in_app_iff, M1, M. split.
    + intros [H|(c & Hc & H)]; [exists col; split; auto; lia|exists c; split; auto; lia].
    + intros (c & Hc & H). destruct (Nat.eq_dec c col) as [->|D]; auto. right. exists c. split; auto. lia.
Qed.
Lemma c47 : forall (ts : sparse S) ro co ms n, ms <> [] -> List.Forall csc_ok ms -> List.Forall (fun m => length (c_cols m) = n) ms ->
  exists out, append_as_triplets ts ro co ms = Ok (ts ++ out) /\ ascending before out /\
    forall r c v, In (r, c, v) out <->
      exists i m r' c', nth_error ms i = Some m /\ stored m r' c' v /\
        r = (ro + list_sum (map (fun m => c_rows m) (firstn i ms)) + r')%nat /\ c = (co + c')%nat.
Proof.
  intros ts ro co ms n N W C. destruct ms as [|m0 ms]; [contradiction|].
  destruct (cols_from_spec ro co (m0 :: ms) n n 0 W C ltac:(lia)) as (out & E & A & M).
  exists out. unfold append_as_triplets. inversion_clear C as [|? ? C0 C']. rewrite C0, E. cbn [obind]. repeat split; auto.
  - intros I. apply M in I as (c' & Hc & i & m & r' & H1 & H2 & H3). cbn in H3. injection H3 as -> ->. exists i, m, r', c'. auto.
  - intros (i & m & r' & c' & H1 & H2 & -> & ->). apply M. exists c'. split.
    + destruct H2 as (es & H2 & _). assert (length (c_cols m) = n).
      { apply nth_error_In in H1. destruct H1 as [<-|H1]; auto. rewrite Forall_forall in C'. auto. }
      split; [lia|]. rewrite <- H. apply nth_error_Some. congruence.
    + exists i, m, r'. auto.
Qed.
Lemma c47_diag : forall (ts : sparse S) ro co (d : list S),
  exists out, append_diagonal ts ro co d = ts ++ out /\ ascending before out /\
    forall r c v, In (r, c, v) out <-> exists i, nth_error d i = Some v /\ r = (ro + i)%nat /\ c = (co + i)%nat.
Proof.
  intros ts ro co d. unfold append_diagonal. eexists. split; [reflexivity|].
  assert (G : forall k, let out := map (fun p : nat * S => ((ro + fst p)%nat, (co + fst p)%nat, snd p)) (combine (seq k (length d)) d) in
    ascending before out /\ forall r c v, In (r, c, v) out <-> exists i, nth_error d i = Some v /\ r = (ro + (k + i))%nat /\ c = (co + (k + i))%nat).
  { induction d as [|x d IH]; intros k; cbn zeta.
    - split; [constructor|]. intros. cbn. split; [contradiction|]. intros (i & H & _). destruct i; discriminate.
    - cbn [length seq combine map fst snd]. destruct (IH (Datatypes.S k)) as [A M]. split.
      + constructor; auto. intros [[r c] v] I. apply M in I as (i & _ & -> & ->). cbn. left. lia.
      + intros r c v. cbn [In]. rewrite M. split.
        * intros [H|(i & H & -> & ->)]; [injection H as <- <- <-; exists O; cbn; repeat split; auto; lia|exists (Datatypes.S i); cbn; repeat split; auto; lia].
        * intros (i & H & -> & ->). destruct i as [|i]; [left; cbn in H; injection H as <-; rewrite !Nat.add_0_r; auto|right].
          exists i. cbn in H. repeat split; auto; lia. }
  destruct (G O) as [A M]. split; auto.
Qed.
End T.

Lemma c47_ex : let m1 := mkCsc (S := Rn) 2 [[(0%nat, 1%R); (1%nat, 2%R)]; []] in let m2 := mkCsc (S := Rn) 1 [[(0%nat, 3%R)]; [(0%nat, 4%R)]] in
  List.Forall csc_ok [m1; m2] /\
  append_as_triplets (S := Rn) [] 5 7 [m1; m2] = Ok [(5%nat, 7%nat, 1%R); (6%nat, 7%nat, 2%R); (7%nat, 7%nat, 3%R); (7%nat, 8%nat, 4%R)].
Proof.
  cbn zeta. split; [|reflexivity].
  assert (N : forall (lt : nat * Rn -> nat * Rn -> Prop) a, ascending lt [a]) by (intros; constructor; [intros b []|constructor]).
  constructor; [|constructor; [|constructor]]; intros es [<-|[<-|[]]]; (split; [|intros e; cbn; intuition (subst; cbn; lia)]); auto; try constructor.
  - intros b [<-|[]]. cbn. lia.
  - auto.
Qed.
