(** Proofs for C46. *)
From Coq Require Import ZArith Reals List Bool Lra Lia Psatz.
From Verif Require Import Base ExprModel ExprReal ExprXR NumModel LinR UtilModel UtilSpec FilterProofs.
Import ListNotations.
Local Open Scope R_scope.

Definition istep := fun (i : inertia) (e : R) => if R_ltb tiny e then mkIn (S (in_pos i)) (in_neg i) (in_zero i)
                        else if R_ltb e (- tiny) then mkIn (in_pos i) (S (in_neg i)) (in_zero i)
                        else mkIn (in_pos i) (in_neg i) (S (in_zero i)).
Lemma tiny_pos : 0 < tiny.
Proof. unfold tiny. apply Rdiv_lt_0_compat; [lra|apply IZR_lt; reflexivity]. Qed.
Lemma inertia_fold (D : list R) (i : inertia) :
  let i' := fold_left istep D i in
  in_pos i' = (in_pos i + count (fun x => R_ltb tiny x) D)%nat /\ in_neg i' = (in_neg i + count (fun x => R_ltb x (- tiny)) D)%nat /\
  (in_pos i' + in_neg i' + in_zero i' = in_pos i + in_neg i + in_zero i + length D)%nat /\
  (in_zero i' = in_zero i -> forall x, In x D -> tiny < Rabs x) /\
  (in_zero i <= in_zero i')%nat /\ ((forall x, In x D -> tiny < Rabs x) -> in_zero i' = in_zero i).
Proof.
  pose proof tiny_pos as T.
  revert i. induction D as [|e D IH]; intros i; cbn [fold_left]; cbn zeta.
  { cbn. repeat split; auto; try lia; try (intros _ ? []). }
  destruct (IH (istep i e)) as (A & B & C & D1 & E & F). clear IH. unfold count in *. cbn [filter length In].
  unfold istep in *. destruct (R_ltb tiny e) eqn:E1.
  - apply R_ltb_true in E1. replace (R_ltb e (- tiny)) with false in * by (symmetry; apply R_ltb_false; lra).
    cbn [in_pos in_neg in_zero] in *. cbn [length]. repeat split; try lia.
    + intros Z x [<-|I]; auto. rewrite Rabs_pos_eq; lra.
    + intros H. apply F. auto.
  - apply R_ltb_false in E1. destruct (R_ltb e (- tiny)) eqn:E2.
    + apply R_ltb_true in E2. cbn [in_pos in_neg in_zero] in *. cbn [length]. repeat split; try lia.
      * intros Z x [<-|I]; auto. rewrite Rabs_left; lra.
      * intros H. apply F. auto.
    + apply R_ltb_false in E2. cbn [in_pos in_neg in_zero] in *. repeat split; try lia.
      intros H. specialize (H e (or_introl eq_refl)). unfold Rabs in H. destruct (Rcase_abs e); lra.
Qed.
Lemma inertia_of_R (D : list R) : inertia_of (S := Rn) D = fold_left istep D (mkIn 0 0 0).
Proof. reflexivity. Qed.
Lemma inertia_spec (D : list R) : let i := inertia_of (S := Rn) D in
  in_pos i = count (fun x => R_ltb tiny x) D /\ in_neg i = count (fun x => R_ltb x (- tiny)) D /\
  (in_pos i + in_neg i + in_zero i = length D)%nat /\ (in_zero i = 0%nat <-> forall x, In x D -> tiny < Rabs x).
Proof.
  cbn zeta. rewrite inertia_of_R. destruct (inertia_fold D (mkIn 0 0 0)) as (A & B & C & E & F & G). cbn [in_pos in_neg in_zero] in *.
  repeat split; auto.
Qed.
Lemma inertia_eqb_true a b : inertia_eqb a b = true <-> a = b.
Proof.
  unfold inertia_eqb. rewrite !andb_true_iff, !Nat.eqb_eq. destruct a, b; cbn. split; [intros [[-> ->] ->]; auto|intros H; injection H; auto].
Qed.
Lemma ideal_signs n m (D : list R) : inertia_eqb (inertia_of (S := Rn) D) (mkIn n m 0) = true <-> signs n m D.
Proof.
  rewrite inertia_eqb_true. destruct (inertia_spec D) as (A & B & C & E). unfold signs. destruct (inertia_of (S := Rn) D) as [p q z]. cbn [in_pos in_neg in_zero] in *.
  rewrite <- E, <- A, <- B. split; [intros H; injection H; auto|intros (-> & -> & ->); auto].
Qed.

Section Loop.
Variable factor : R -> R -> option (list R).
Variables n m : nat.
Hypothesis dim : forall d g D, factor d g = Some D -> length D = (n + m)%nat.

Definition big : R := IZR (10 ^ 20).
Definition g0 : R := lit (S := Rn) 1 10.
Lemma g0_pos : 0 < g0.
Proof. unfold g0. rewrite <- (Rmult_0_l (/ IZR (10 ^ 10))). change (0 * / IZR (10 ^ 10) < 1 / IZR (10 ^ Z.of_nat 10)). unfold Rdiv. apply Rmult_lt_compat_r; [apply Rinv_0_lt_compat, IZR_lt; reflexivity|lra]. Qed.

(** [room g j]: at most j more enlargements keep g below the limit. *)
Definition room (g : R) (j : nat) : Prop :=
  (g = 0 /\ exists j', j = S j' /\ big < g0 * 10 ^ j') \/ (0 < g /\ big < g * 10 ^ j).
Lemma room_nonneg g j : room g j -> 0 <= g.
Proof. intros [[-> _]|[H _]]; lra. Qed.
Definition up (g : R) : R := if R_eqb g 0 then g0 else g * 10.
Lemma room_up g j : room g j -> big < up g \/ exists j', j = S j' /\ room (up g) j'.
Proof.
  pose proof g0_pos as P. unfold up. intros [(-> & j' & -> & H)|[H1 H2]].
  - right. exists j'. replace (R_eqb 0 0) with true by (symmetry; apply R_eqb_true; auto). split; auto. right. auto.
  - replace (R_eqb g 0) with false by (symmetry; unfold R_eqb; destruct (Req_EM_T g 0); auto; lra).
    destruct j as [|j]; [left; cbn in H2; lra|right]. exists j. split; auto. right. split; [lra|]. cbn in H2. lra.
Qed.

Record good (fuel : nat) (r : outcome (ldlt Rn)) (d g : R) : Prop := {
  good_ok : exists l, r = Ok l /\ d <= ld_d l /\ g <= ld_g l /\
    (ld_ok l = true -> exists D, factor (ld_d l) (ld_g l) = Some D /\ signs n m D) /\
    (ld_ok l = false -> big < ld_d l \/ big < ld_g l) }.

Lemma ldlt_loop_good : forall k j fuel d g, 0 < d -> big < d * 10 ^ k -> room g j -> (k + j < fuel)%nat ->
  good fuel (ldlt_loop (S := Rn) fuel factor (mkIn n m 0) d g) d g.
Proof.
  intros k j fuel. revert k j. induction fuel as [|fuel IH]; intros k j d g Hd Hk Hg HF; [lia|].
  assert (Gnn := room_nonneg _ _ Hg). pose proof g0_pos as G0.
  set (next := fun d g : R => if s_ltb Rn (s_ofZ Rn (10 ^ 20)) d || s_ltb Rn (s_ofZ Rn (10 ^ 20)) g then Ok (mkLd (S := Rn) false d g)
        else ldlt_loop (S := Rn) fuel factor (mkIn n m 0) d g).
  assert (Up : g <= up g).
  { unfold up. destruct (R_eqb g 0) eqn:E; [apply R_eqb_true in E; lra|lra]. }
  assert (N : forall d' g', d <= d' -> g <= g' ->
     (big < d' \/ big < g' \/ exists k' j', 0 < d' /\ big < d' * 10 ^ k' /\ room g' j' /\ (k' + j' < fuel)%nat) ->
     good (S fuel) (next d' g') d g).
  { intros d' g' L1 L2 H. unfold next. cbn [s_ltb s_ofZ Rn nbase R_ops]. fold big.
    destruct (R_ltb big d' || R_ltb big g') eqn:E.
    - constructor. eexists. split; [reflexivity|]. cbn [ld_d ld_g ld_ok]. repeat split; auto; [discriminate|].
      intros _. apply orb_true_iff in E. rewrite !R_ltb_true in E. auto.
    - apply orb_false_iff in E. rewrite !R_ltb_false in E. destruct H as [H|[H|(k' & j' & A & B & C & D)]]; try lra.
      destruct (IH k' j' d' g' A B C D) as [(l & El & P1 & P2 & P3)]. constructor. exists l. rewrite El. split; [reflexivity|]. split; [apply (Rle_trans _ d'); auto|]. split; [apply (Rle_trans _ g'); auto|]. exact P3. }
  assert (Nd : forall g', g <= g' -> (big < g' \/ exists j', (j' <= j)%nat /\ room g' j') -> good (S fuel) (next (d * 10) g') d g).
  { intros g' L H. apply N; auto; [lra|]. destruct H as [H|(j' & Hj & H)]; auto.
    destruct k as [|k]; [left; cbn in Hk; lra|]. right; right. exists k, j'. repeat split; auto; try lra; try lia. cbn in Hk. lra. }
  assert (Ng : good (S fuel) (next d (up g)) d g).
  { apply N; auto; [lra|]. destruct (room_up _ _ Hg) as [H|(j' & -> & H)]; auto.
    right; right. exists k, j'. repeat split; auto. lia. }
  cbn [ldlt_loop]. fold next. destruct (factor d g) as [D|] eqn:EF.
  - cbn zeta. destruct (inertia_eqb (inertia_of (S := Rn) D) (mkIn n m 0)) eqn:EI.
    { constructor. eexists. split; [reflexivity|]. cbn [ld_d ld_g ld_ok]. split; [apply Rle_refl|]. split; [apply Rle_refl|]. split; [|discriminate].
      intros _. exists D. split; auto. apply ideal_signs. auto. }
    destruct (inertia_spec D) as (_ & _ & S & _). specialize (dim _ _ _ EF). rewrite dim in S.
    destruct (inertia_of (S := Rn) D) as [p q z] eqn:EiD. cbn [in_pos in_neg in_zero] in S |- *.
    destruct (Nat.ltb 0 z) eqn:Ez.
    { cbn [s_eqb s_ofZ Rn nbase R_ops]. destruct (R_eqb g 0) eqn:Eg.
      - replace (lit (S := Rn) 1 10) with (up g); auto. unfold up. rewrite Eg. reflexivity.
      - assert (Eu : up g = g * 10) by (unfold up; rewrite Eg; reflexivity). change (good (Datatypes.S fuel) (next (d * 10) (g * 10)) d g). rewrite <- Eu.
        apply Nd; [exact Up|]. destruct (room_up _ _ Hg) as [H|(j' & -> & H)]; [left; exact H|right; exists j'; split; [lia|exact H]]. }
    apply Nat.ltb_ge in Ez.
    destruct (Nat.ltb m q) eqn:Eq. { apply Nd; [lra|]. right. exists j. auto. }
    destruct (Nat.ltb n p) eqn:Ep. { exact Ng. }
    exfalso. apply Nat.ltb_ge in Eq, Ep. assert (p = n /\ q = m /\ z = 0)%nat as (-> & -> & ->) by lia.
    unfold inertia_eqb in EI. cbn in EI. rewrite !Nat.eqb_refl in EI. discriminate.
  - change (good (Datatypes.S fuel) (next (d * 10) (up g)) d g). apply Nd; [exact Up|]. destruct (room_up _ _ Hg) as [H|(j' & -> & H)]; [left; exact H|right; exists j'; split; [lia|exact H]].
Qed.
End Loop.

Lemma archi (x : R) : 0 < x -> exists k, big < x * 10 ^ k.
Proof.
  intros X. destruct (Pow_x_infinity 10 ltac:(rewrite Rabs_pos_eq; lra) (big / x + 1)) as [N H].
  exists N. specialize (H N ltac:(lia)). rewrite Rabs_pos_eq in H by (apply pow_le; lra).
  apply Rlt_le_trans with (x * (big / x + 1)).
  - replace (x * (big / x + 1)) with (big + x) by (field; lra). lra.
  - apply Rmult_le_compat_l; lra.
Qed.
Lemma room_exists g : 0 <= g -> exists j, room g j.
Proof.
  intros H. destruct (Req_dec g 0) as [->|E].
  - destruct (archi g0 g0_pos) as [k K]. exists (S k). left. split; auto. exists k. auto.
  - destruct (archi g ltac:(lra)) as [k K]. exists k. right. split; [lra|auto].
Qed.

(** The first delta tried. *)
Definition start (prev : R) : R := if R_eqb prev 0 then lit (S := Rn) 1 4 else smax (S := Rn) (prev / 2) tiny.
Lemma start_ge prev : tiny <= start prev.
Proof.
  unfold start. destruct (R_eqb prev 0); [|rewrite smax_R; apply Rmax_r].
  unfold tiny, lit. cbn [s_div s_ofZ Rn nbase R_ops]. unfold Rdiv. rewrite !Rmult_1_l.
  apply Rinv_le_contravar; [apply IZR_lt; reflexivity|apply IZR_le; discriminate].
Qed.

Lemma c46 : forall (gmin : R), 0 <= gmin -> exists F, forall (factor : R -> R -> option (list R)) n m (prev : R),
  (forall d g D, factor d g = Some D -> length D = (n + m)%nat) -> forall fuel, (F <= fuel)%nat ->
  exists l, ldlt_compute (S := Rn) fuel factor n m gmin prev = Ok l /\
    (ld_ok l = true -> exists D, factor (ld_d l) (ld_g l) = Some D /\ signs n m D) /\
    (ld_ok l = false -> IZR (10 ^ 20) < ld_d l \/ IZR (10 ^ 20) < ld_g l) /\
    ((ld_ok l = true /\ ld_d l = 0 /\ ld_g l = 0) \/ (tiny <= ld_d l /\ gmin <= ld_g l)) /\
    ((exists D, factor 0 0 = Some D /\ signs n m D /\ forall x, In x D -> 1 / IZR (10 ^ 4) <= Rabs x) ->
       ld_ok l = true /\ ld_d l = 0 /\ ld_g l = 0).
Proof.
  intros gmin G. destruct (room_exists gmin G) as [j J]. destruct (archi tiny tiny_pos) as [k K].
  exists (S (k + j)). intros factor n m prev dim fuel F. pose proof (start_ge prev) as SG. pose proof tiny_pos as T.
  destruct (ldlt_loop_good factor n m dim k j fuel (start prev) gmin) as [(l & E & P1 & P2 & P3 & P4)].
  { lra. } { eapply Rlt_le_trans; [exact K|]. apply Rmult_le_compat_r; auto. apply pow_le. lra. } { auto. } { lia. }
  change (ldlt_compute (S := Rn) fuel factor n m gmin prev) with
    (match factor 0 0 with
     | Some D => if inertia_eqb (inertia_of (S := Rn) D) (mkIn n m 0) && forallb (fun e : R => R_leb (lit (S := Rn) 1 4) (Rabs e)) D
                 then Ok (mkLd (S := Rn) true 0 0) else ldlt_loop (S := Rn) fuel factor (mkIn n m 0) (start prev) gmin
     | None => ldlt_loop (S := Rn) fuel factor (mkIn n m 0) (start prev) gmin end).
  rewrite E.
  assert (Z : (exists D, factor 0 0 = Some D /\ signs n m D /\ forall x, In x D -> 1 / IZR (10 ^ 4) <= Rabs x) <->
    match factor 0 0 with Some D => inertia_eqb (inertia_of (S := Rn) D) (mkIn n m 0) && forallb (fun e : R => R_leb (lit (S := Rn) 1 4) (Rabs e)) D | None => false end = true).
  { destruct (factor 0 0) as [D|]; [|split; [intros (D & H & _); discriminate|discriminate]].
    rewrite andb_true_iff, ideal_signs, forallb_forall. setoid_rewrite R_leb_true.
    split; [intros (D' & H & S & B); injection H as <-; auto|intros [A B]; exists D; auto]. }
  destruct (factor 0 0) as [D|] eqn:E0.
  - destruct (_ && _) eqn:EE.
    + exists (mkLd (S := Rn) true 0 0). cbn [ld_d ld_g ld_ok]. repeat split; auto; try discriminate.
      intros _. destruct (proj2 Z eq_refl) as (D' & H & S & _). exists D'. rewrite E0. auto.
    + exists l. split; [reflexivity|]. split; [exact P3|]. split; [exact P4|]. split; [right; split; [apply (Rle_trans _ (start prev)); auto|exact P2]|].
      intros H. apply Z in H. discriminate.
  - exists l. split; [reflexivity|]. split; [exact P3|]. split; [exact P4|]. split; [right; split; [apply (Rle_trans _ (start prev)); auto|exact P2]|].
    intros H. apply Z in H. discriminate.
Qed.
Lemma c46_ex : let factor := fun d g : R => Some [1 + d; -1 + d - g] in
  (forall d g D, factor d g = Some D -> length D = (2 + 0)%nat) /\ ~ (exists D, factor 0 0 = Some D /\ signs 2 0 D) /\
  exists D, factor 10 0 = Some D /\ signs 2 0 D.
Proof.
  assert (T : tiny < 1).
  { unfold tiny. apply Rmult_lt_reg_r with (IZR (2 ^ 52)); [apply IZR_lt; reflexivity|]. unfold Rdiv.
    rewrite Rmult_assoc, Rinv_l, !Rmult_1_l by (apply not_0_IZR; discriminate). apply IZR_lt; reflexivity. }
  pose proof tiny_pos. cbn zeta. split; [intros d g D H1; injection H1 as <-; reflexivity|]. split.
  - intros (D & H1 & H2). injection H1 as <-. destruct H2 as (A & _). unfold count in A. cbn [filter] in A.
    replace (R_ltb tiny (-1 + 0 - 0)) with false in A by (symmetry; apply R_ltb_false; lra).
    destruct (R_ltb tiny (1 + 0)); discriminate.
  - eexists. split; [reflexivity|]. unfold signs, count. cbn [filter].
    replace (R_ltb tiny (1 + 10)) with true by (symmetry; apply R_ltb_true; lra).
    replace (R_ltb tiny (-1 + 10 - 0)) with true by (symmetry; apply R_ltb_true; lra).
    replace (R_ltb (1 + 10) (- tiny)) with false by (symmetry; apply R_ltb_false; lra).
    replace (R_ltb (-1 + 10 - 0) (- tiny)) with false by (symmetry; apply R_ltb_false; lra).
    repeat split; auto. intros x [<-|[<-|[]]]; rewrite Rabs_pos_eq; lra.
Qed.
