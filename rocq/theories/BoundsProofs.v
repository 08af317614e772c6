(** Proofs for C37-C39. *)
From Coq Require Import ZArith Reals List Bool Arith Lia Lra.
From Verif Require Import Base ExprModel ExprReal ExprXR NumModel FilterProofs BoundsModel BoundsSpec.
Import ListNotations.
Local Open Scope R_scope.

Lemma upd_length {A} (l : list A) : forall i v, length (upd l i v) = length l.
Proof. induction l; intros [|i] v; cbn; auto. Qed.
Lemma upd_same {A} (l : list A) : forall i v, (i < length l)%nat -> nth_error (upd l i v) i = Some v.
Proof. induction l; intros [|i] v H; cbn in *; try lia; auto. apply IHl. lia. Qed.
Lemma upd_other {A} (l : list A) : forall i j v, i <> j -> nth_error (upd l i v) j = nth_error l j.
Proof. induction l; intros [|i] [|j] v H; cbn; auto; try congruence. Qed.

Lemma affine_unique n c i a b i' a' b' : affine_in n c i a b -> affine_in n c i' a' b' -> i = i' /\ a = a' /\ b = b'.
Proof.
  intros (L & E & N & V) (L' & E' & N' & V'). rewrite E in E'. injection E' as <- <-. split; [auto|]. split; [auto|].
  assert (H : nth_error (repeat (Fin 0) n) i = Some (Fin 0)).
  { rewrite nth_error_repeat; auto. }
  specialize (V (repeat (Fin 0) n) 0 (repeat_length _ _) H). specialize (V' (repeat (Fin 0) n) 0 (repeat_length _ _) H).
  rewrite V in V'. injection V' as V'. lra.
Qed.

Definition isbound (c : constr) : bool := k_linear c && Nat.eqb (length (k_row c)) 1.
(** Bound constraints, by sign of their coefficient. *)
Definition lower_b (n : nat) (c : constr) (i : nat) (v : R) : Prop :=
  k_linear c = true /\ exists a b, affine_in n c i a b /\ 0 < a /\ v = - b / a.
Definition upper_b (n : nat) (c : constr) (i : nat) (v : R) : Prop :=
  k_linear c = true /\ exists a b, affine_in n c i a b /\ a < 0 /\ v = - b / a.

Definition lo_ok n done i (lo : XR) (li : Z) : Prop :=
  (lo = MInf \/ exists l k c, lo = Fin l /\ li = Z.of_nat k /\ nth_error done k = Some c /\ lower_b n c i l) /\
  (forall c v, In c done -> lower_b n c i v -> exists l, lo = Fin l /\ v <= l).
Definition hi_ok n done i (hi : XR) (hii : Z) : Prop :=
  (hi = PInf \/ exists u k c, hi = Fin u /\ hii = Z.of_nat k /\ nth_error done k = Some c /\ upper_b n c i u) /\
  (forall c v, In c done -> upper_b n c i v -> exists u, hi = Fin u /\ u <= v).
Definition real n done (p : Z * Z) : Prop :=
  exists k k' c c' i l u, fst p = Z.of_nat k /\ snd p = Z.of_nat k' /\ nth_error done k = Some c /\
    nth_error done k' = Some c' /\ lower_b n c i l /\ upper_b n c' i u /\ u < l.

Definition inv (n : nat) (done : list constr) (s : bstate) : Prop :=
  length (b_bounds s) = n /\ length (b_index s) = n /\ b_mask s = map isbound done /\
  (forall i lo hi li hii, nth_error (b_bounds s) i = Some (lo, hi) -> nth_error (b_index s) i = Some (li, hii) ->
     lo_ok n done i lo li /\ hi_ok n done i hi hii) /\
  List.Forall (real n done) (b_conflicts s) /\
  ((exists i lo hi, nth_error (b_bounds s) i = Some (lo, hi) /\ X_ltb hi lo = true) -> b_conflicts s <> []).

Lemma inv_init n : inv n [] (bounds_init n).
Proof.
  unfold inv, bounds_init. cbn. rewrite !repeat_length. split; [auto|]. split; [auto|]. split; [auto|].
  split; [|split; [constructor|]].
  - intros i lo hi li hii H H'. assert (i < n)%nat by (rewrite <- (repeat_length (MInf, PInf) n); apply nth_error_Some; congruence).
    rewrite nth_error_repeat in H by auto. injection H as <- <-. split; (split; [left; reflexivity|intros c v []]).
  - intros (i & lo & hi & H & L). apply nth_error_In, repeat_spec in H. injection H as -> ->. discriminate.
Qed.

Lemma nth_snoc {A} (l : list A) k x y : nth_error l k = Some y -> nth_error (l ++ [x]) k = Some y.
Proof. intros H. rewrite nth_error_app1; [auto|]. apply nth_error_Some. congruence. Qed.
Lemma nth_last {A} (l : list A) x : nth_error (l ++ [x]) (length l) = Some x.
Proof. rewrite nth_error_app2, Nat.sub_diag by lia. reflexivity. Qed.

Lemma real_snoc n done c p : real n done p -> real n (done ++ [c]) p.
Proof.
  intros (k & k' & c1 & c2 & i & l & u & A & B & C & D & E & F & G). exists k, k', c1, c2, i, l, u.
  repeat split; auto using nth_snoc; try apply E; try apply F.
Qed.
Lemma lo_snoc n done c i lo li : lo_ok n done i lo li -> (forall v, ~ lower_b n c i v) -> lo_ok n (done ++ [c]) i lo li.
Proof.
  intros [A B] N. split.
  - destruct A as [A|(l & k & c' & A1 & A2 & A3 & A4)]; [left; auto|]. right. exists l, k, c'. auto using nth_snoc.
  - intros c' v H Hv. apply in_app_or in H. destruct H as [H|[<-|[]]]; [eauto|]. destruct (N _ Hv).
Qed.
Lemma hi_snoc n done c i lo li : hi_ok n done i lo li -> (forall v, ~ upper_b n c i v) -> hi_ok n (done ++ [c]) i lo li.
Proof.
  intros [A B] N. split.
  - destruct A as [A|(l & k & c' & A1 & A2 & A3 & A4)]; [left; auto|]. right. exists l, k, c'. auto using nth_snoc.
  - intros c' v H Hv. apply in_app_or in H. destruct H as [H|[<-|[]]]; [eauto|]. destruct (N _ Hv).
Qed.

(** A constraint that is no bound leaves the bounds alone. *)
Lemma inv_skip n done c s : inv n done s -> isbound c = false ->
  inv n (done ++ [c]) (mkB (b_bounds s) (b_index s) (b_conflicts s) (b_mask s ++ [false])).
Proof.
  intros (L1 & L2 & M & V & F & X) Hb. unfold inv. cbn. split; [auto|]. split; [auto|].
  split; [rewrite M, map_app; cbn; rewrite Hb; reflexivity|]. split; [|split; [|auto]].
  - intros i lo hi li hii H H'. destruct (V i lo hi li hii H H') as [A B].
    assert (NN : forall a b, k_linear c = true -> ~ affine_in n c i a b).
    { intros a b K (_ & E & _). unfold isbound in Hb. rewrite K, E in Hb. discriminate. }
    split; [apply lo_snoc|apply hi_snoc]; auto; intros v (K & a & b & Ha & _); eapply NN; eauto.
  - eapply Forall_impl; [|exact F]. intros p. apply real_snoc.
Qed.

Lemma constant_of_ok n c x i a b : length x = n -> affine_in n c i a b -> constant_of c x i = Ok (Fin b).
Proof.
  intros L (Hi & E & N & V). unfold constant_of. destruct (nth_error x i) as [v|] eqn:Ev.
  - f_equal. destruct (X_eqb v (Fin 0)) eqn:Ez; cbn [negb].
    + assert (v = Fin 0) as -> by (destruct v; cbn in Ez; try discriminate; apply R_eqb_true in Ez; congruence).
      rewrite (V x 0 L Ev). f_equal. lra.
    + rewrite (V (upd x i (Fin 0)) 0); [f_equal; lra|rewrite upd_length; auto|apply upd_same; lia].
  - apply nth_error_None in Ev. lia.
Qed.

Lemma R_eqb_neq a b : a <> b -> R_eqb a b = false.
Proof. unfold R_eqb. destruct (Req_EM_T a b); auto. intros; contradiction. Qed.

Lemma lower_unique n c i a b v : affine_in n c i a b -> lower_b n c i v -> 0 < a /\ v = - b / a.
Proof. intros H (K & a' & b' & H' & P & E). destruct (affine_unique _ _ _ _ _ _ _ _ H H') as (_ & <- & <-). auto. Qed.
Lemma upper_unique n c i a b v : affine_in n c i a b -> upper_b n c i v -> a < 0 /\ v = - b / a.
Proof. intros H (K & a' & b' & H' & P & E). destruct (affine_unique _ _ _ _ _ _ _ _ H H') as (_ & <- & <-). auto. Qed.
Lemma other_lower n c i j a b v : affine_in n c j a b -> i <> j -> ~ lower_b n c i v.
Proof. intros H N (K & a' & b' & H' & _). destruct (affine_unique _ _ _ _ _ _ _ _ H H') as (E & _). auto. Qed.
Lemma other_upper n c i j a b v : affine_in n c j a b -> i <> j -> ~ upper_b n c i v.
Proof. intros H N (K & a' & b' & H' & _). destruct (affine_unique _ _ _ _ _ _ _ _ H H') as (E & _). auto. Qed.

Lemma xlt_fin a b : X_ltb (Fin a) (Fin b) = true <-> a < b.
Proof. cbn. split; [apply R_ltb_true|]. intros H. destruct (R_ltb a b) eqn:E; auto. apply R_ltb_false in E. lra. Qed.

(** One bound constraint. *)
Lemma inv_bound n done c s j a b x : inv n done s -> length x = n -> k_linear c = true -> affine_in n c j a b ->
  exists s', bounds_step x (length done) c s = Ok s' /\ inv n (done ++ [c]) s'.
Proof.
  intros (L1 & L2 & M & V & F & X) Lx Hl Ha. pose proof Ha as (Hj & Er & Na & _).
  assert (Bc : isbound c = true) by (unfold isbound; rewrite Hl, Er; reflexivity).
  unfold bounds_step. rewrite Hl, Er. cbn [negb]. rewrite (constant_of_ok n c x j a b Lx Ha). cbn [obind].
  unfold oassert. cbn [X_eqb]. rewrite (R_eqb_neq a 0 Na). cbn [negb s_finite Xn].
  destruct (nth_error (b_bounds s) j) as [[lo hi]|] eqn:Eb; [|apply nth_error_None in Eb; lia].
  destruct (nth_error (b_index s) j) as [[li hii]|] eqn:Ei; [|apply nth_error_None in Ei; lia].
  destruct (V j lo hi li hii Eb Ei) as [VL VH].
  cbn [X_opp X_div]. destruct (Req_EM_T a 0) as [Z|_]; [contradiction|].
  set (d := - b / a).
  set (q := if X_ltb (Fin a) (Fin 0) && X_ltb (Fin d) hi then (lo, Fin d, li, Z.of_nat (length done))
            else if X_ltb (Fin 0) (Fin a) && X_ltb lo (Fin d) then (Fin d, hi, Z.of_nat (length done), hii)
            else (lo, hi, li, hii)).
  assert (Q : let '(lo', hi', li', hii') := q in
     lo_ok n (done ++ [c]) j lo' li' /\ hi_ok n (done ++ [c]) j hi' hii' /\
     (X_ltb hi lo = true -> X_ltb hi' lo' = true)).
  { unfold q. destruct (Rlt_dec a 0) as [N|N].
    - assert (C1 : X_ltb (Fin a) (Fin 0) = true) by (apply xlt_fin; auto).
      assert (C2 : X_ltb (Fin 0) (Fin a) = false) by (destruct (X_ltb (Fin 0) (Fin a)) eqn:E; auto; apply xlt_fin in E; lra).
      rewrite C1, C2. cbn [andb].
      assert (UL : lo_ok n (done ++ [c]) j lo li).
      { apply lo_snoc; auto. intros v Hv. destruct (lower_unique _ _ _ _ _ _ Ha Hv). lra. }
      destruct VH as [H1 H2]. destruct (X_ltb (Fin d) hi) eqn:Ed.
      + split; [exact UL|]. split; [split|].
        * right. exists d, (length done), c. rewrite nth_last. split; [auto|]. split; [auto|]. split; [auto|].
          split; [auto|]. exists a, b. auto.
        * intros c' v Hc Hv. exists d. split; [auto|]. apply in_app_or in Hc. destruct Hc as [Hc|[<-|[]]].
          -- destruct (H2 c' v Hc Hv) as (u & -> & Hu). apply xlt_fin in Ed. lra.
          -- destruct (upper_unique _ _ _ _ _ _ Ha Hv) as [_ ->]. unfold d. lra.
        * intros HL. destruct lo as [l| | |], hi as [h| | |]; try discriminate; cbn in *; auto.
          apply R_ltb_true in HL. apply R_ltb_true in Ed. destruct (R_ltb d l) eqn:E; auto. apply R_ltb_false in E. lra.
      + split; [exact UL|]. split; [split|auto].
        * destruct H1 as [H1|(l & k & c' & A1 & A2 & A3 & A4)]; [left; auto|]. right. exists l, k, c'. auto using nth_snoc.
        * intros c' v Hc Hv. apply in_app_or in Hc. destruct Hc as [Hc|[<-|[]]]; [eauto|].
          destruct (upper_unique _ _ _ _ _ _ Ha Hv) as [_ ->]. destruct H1 as [->|(u & k & c' & -> & _)].
          -- discriminate.
          -- exists u. split; [auto|]. destruct (Rle_dec u d); [auto|]. exfalso.
             assert (X_ltb (Fin d) (Fin u) = true) by (apply xlt_fin; lra). congruence.
    - assert (0 < a) by (destruct (Rtotal_order a 0) as [?|[?|?]]; [contradiction..|auto]).
      assert (C1 : X_ltb (Fin 0) (Fin a) = true) by (apply xlt_fin; auto).
      assert (C2 : X_ltb (Fin a) (Fin 0) = false) by (destruct (X_ltb (Fin a) (Fin 0)) eqn:E; auto; apply xlt_fin in E; lra).
      rewrite C1, C2. cbn [andb].
      assert (UL : hi_ok n (done ++ [c]) j hi hii).
      { apply hi_snoc; auto. intros v Hv. destruct (upper_unique _ _ _ _ _ _ Ha Hv). lra. }
      destruct VL as [H1 H2]. destruct (X_ltb lo (Fin d)) eqn:Ed.
      + split; [|split; [exact UL|]].
        * split.
          -- right. exists d, (length done), c. rewrite nth_last. split; [auto|]. split; [auto|]. split; [auto|].
             split; [auto|]. exists a, b. auto.
          -- intros c' v Hc Hv. exists d. split; [auto|]. apply in_app_or in Hc. destruct Hc as [Hc|[<-|[]]].
             ++ destruct (H2 c' v Hc Hv) as (u & -> & Hu). apply xlt_fin in Ed. lra.
             ++ destruct (lower_unique _ _ _ _ _ _ Ha Hv) as [_ ->]. unfold d. lra.
        * intros HL. destruct lo as [l| | |], hi as [h| | |]; try discriminate; cbn in *; auto.
          apply R_ltb_true in HL. apply R_ltb_true in Ed. destruct (R_ltb h d) eqn:E; auto. apply R_ltb_false in E. lra.
      + split; [|split; [exact UL|auto]]. split.
        * destruct H1 as [H1|(l & k & c' & A1 & A2 & A3 & A4)]; [left; auto|]. right. exists l, k, c'. auto using nth_snoc.
        * intros c' v Hc Hv. apply in_app_or in Hc. destruct Hc as [Hc|[<-|[]]]; [eauto|].
          destruct (lower_unique _ _ _ _ _ _ Ha Hv) as [_ ->]. destruct H1 as [->|(u & k & c' & -> & _)].
          -- discriminate.
          -- exists u. split; [auto|]. destruct (Rle_dec d u); [auto|]. exfalso.
             assert (X_ltb (Fin u) (Fin d) = true) by (apply xlt_fin; lra). congruence. }
  destruct q as [[[lo' hi'] li'] hii']. destruct Q as (QL & QH & QX).
  eexists. split; [reflexivity|]. unfold inv. cbn [b_bounds b_index b_conflicts b_mask].
  split; [rewrite upd_length; auto|]. split; [rewrite upd_length; auto|].
  split; [rewrite M, map_app; cbn; rewrite Bc; reflexivity|]. split; [|split].
  - intros i lo0 hi0 li0 hii0 H H'. destruct (Nat.eq_dec i j) as [->|Nij].
    + rewrite upd_same in H by lia. rewrite upd_same in H' by lia. injection H as <- <-. injection H' as <- <-. auto.
    + rewrite upd_other in H by auto. rewrite upd_other in H' by auto. destruct (V i _ _ _ _ H H') as [A B]. split.
      * apply lo_snoc; auto. intros v. eapply other_lower; eauto.
      * apply hi_snoc; auto. intros v. eapply other_upper; eauto.
  - assert (F' : List.Forall (real n (done ++ [c])) (b_conflicts s)) by (eapply Forall_impl; [|exact F]; intros p; apply real_snoc).
    destruct (X_ltb hi' lo') eqn:EX; [|exact F']. apply Forall_app. split; [exact F'|]. constructor; [|constructor].
    destruct QL as [[->|(l & k & c1 & -> & -> & K1 & B1)] _]; [destruct hi'; discriminate|].
    destruct QH as [[->|(u & k' & c2 & -> & -> & K2 & B2)] _]; [discriminate|]. apply xlt_fin in EX.
    exists k, k', c1, c2, j, l, u. cbn [fst snd]. auto 10.
  - intros (i & lo0 & hi0 & H & HX). destruct (X_ltb hi' lo') eqn:EX; [destruct (b_conflicts s); discriminate|].
    destruct (Nat.eq_dec i j) as [->|Nij].
    + rewrite upd_same in H by lia. injection H as <- <-. congruence.
    + rewrite upd_other in H by auto. apply X. eauto.
Qed.

Lemma bounds_loop_ok n x : length x = n -> forall cs done s, inv n done s -> List.Forall (proper n) cs ->
  exists s', bounds_loop x (length done) cs s = Ok s' /\ inv n (done ++ cs) s'.
Proof.
  intros Lx. induction cs as [|c cs IH]; intros done s I P; cbn [bounds_loop].
  - exists s. rewrite app_nil_r. auto.
  - inversion P as [|? ? Pc Pcs]; subst.
    assert (Hs : exists s1, bounds_step x (length done) c s = Ok s1 /\ inv (length x) (done ++ [c]) s1).
    { destruct (k_linear c) eqn:Hl.
      - destruct (Pc Hl) as [(i & a & b & Ha)|H2].
        + eapply inv_bound; eauto.
        + unfold bounds_step. rewrite Hl. cbn [negb]. destruct (k_row c) as [|e [|e' l]] eqn:Er; cbn in H2; try lia.
          destruct e. eexists. split; [reflexivity|]. apply inv_skip; auto. unfold isbound. rewrite Hl, Er. reflexivity.
      - unfold bounds_step. rewrite Hl. cbn [negb]. eexists. split; [reflexivity|]. apply inv_skip; auto.
        unfold isbound. rewrite Hl. reflexivity. }
    destruct Hs as (s1 & E1 & I1). rewrite E1. cbn [obind].
    destruct (IH (done ++ [c]) s1 I1 Pcs) as (s' & E' & I'). rewrite app_length in E'. cbn [length] in E'.
    rewrite Nat.add_1_r in E'. exists s'. rewrite <- app_assoc in I'. auto.
Qed.

Lemma get_bounds_inv x cs : List.Forall (proper (length x)) cs -> exists s, get_bounds x cs = Ok s /\ inv (length x) cs s.
Proof.
  intros P. exact (bounds_loop_ok (length x) x eq_refl cs [] (bounds_init (length x)) (inv_init _) P).
Qed.

(** Bound constraints as half lines. *)
Lemma bound_affine n c i : proper n c -> bound_on c i -> exists a b, affine_in n c i a b.
Proof.
  intros P (K & e & E). destruct (P K) as [(i' & a & b & H)|H].
  - pose proof H as (_ & E' & _). rewrite E in E'. injection E' as -> ->. eauto.
  - rewrite E in H. cbn in H. lia.
Qed.
Lemma satisfied_affine n c i a b y v : affine_in n c i a b -> length y = n -> nth_error y i = Some v ->
  (satisfied c y <-> 0 <= a * v + b).
Proof.
  intros (Hi & E & N & V) L Hv. unfold satisfied.
  rewrite (V (map Fin y) v); [|rewrite map_length; auto|rewrite nth_error_map, Hv; reflexivity].
  split; [intros (r & Er & Hr); injection Er as <-; auto|eauto].
Qed.
Lemma half_pos a b v : 0 < a -> (0 <= a * v + b <-> - b / a <= v).
Proof.
  intros P. assert (E : a * (- b / a) = - b) by (field; lra). split; intros H.
  - apply (Rmult_le_reg_l a); [auto|]. lra.
  - assert (a * (- b / a) <= a * v) by (apply Rmult_le_compat_l; lra). lra.
Qed.
Lemma half_neg a b v : a < 0 -> (0 <= a * v + b <-> v <= - b / a).
Proof.
  intros P. assert (E : a * (- b / a) = - b) by (field; lra). split; intros H.
  - apply Ropp_le_cancel, (Rmult_le_reg_l (- a)); [lra|]. lra.
  - assert ((- a) * v <= (- a) * (- b / a)) by (apply Rmult_le_compat_l; lra). lra.
Qed.

Lemma real_conflict n cs p : real n cs p ->
  exists k k' c c' i, fst p = Z.of_nat k /\ snd p = Z.of_nat k' /\ nth_error cs k = Some c /\ nth_error cs k' = Some c' /\
    (i < n)%nat /\ bound_on c i /\ bound_on c' i /\ forall y, length y = n -> ~ (satisfied c y /\ satisfied c' y).
Proof.
  intros (k & k' & c & c' & i & l & u & A & B & C & D & (K & a & b & H & P & El) & (K' & a' & b' & H' & P' & Eu) & Lt).
  pose proof H as (Hi & E & _). pose proof H' as (_ & E' & _).
  exists k, k', c, c', i. split; [auto|]. split; [auto|]. split; [auto|]. split; [auto|]. split; [auto|].
  split; [split; eauto|]. split; [split; eauto|]. intros y Ly [S1 S2].
  destruct (nth_error y i) as [v|] eqn:Ev; [|apply nth_error_None in Ev; lia].
  apply (satisfied_affine _ _ _ _ _ _ _ H Ly Ev) in S1. apply (satisfied_affine _ _ _ _ _ _ _ H' Ly Ev) in S2.
  apply (half_pos a b v P) in S1. apply (half_neg a' b' v P') in S2. lra.
Qed.

Lemma exists_point (n i : nat) (v : R) : (i < n)%nat -> exists y, length y = n /\ nth_error y i = Some v.
Proof.
  intros H. exists (repeat v n). split; [apply repeat_length|]. apply nth_error_repeat. auto.
Qed.

Lemma c37 x cs : List.Forall (proper (length x)) cs ->
  exists s, get_bounds x cs = Ok s /\ length (b_bounds s) = length x /\
    (forall k c, nth_error cs k = Some c -> exists m, nth_error (b_mask s) k = Some m /\ (m = true <-> exists i, bound_on c i)) /\
    (forall i bd v, nth_error (b_bounds s) i = Some bd ->
       (inside bd v <-> forall c y, In c cs -> bound_on c i -> length y = length x -> nth_error y i = Some v -> satisfied c y)) /\
    (forall l u, In (l, u) (b_conflicts s) -> exists k k' c c' i, l = Z.of_nat k /\ u = Z.of_nat k' /\
       nth_error cs k = Some c /\ nth_error cs k' = Some c' /\ bound_on c i /\ bound_on c' i /\
       forall y, length y = length x -> ~ (satisfied c y /\ satisfied c' y)) /\
    (b_conflicts s <> [] <-> exists c c' i, In c cs /\ In c' cs /\ bound_on c i /\ bound_on c' i /\
       forall y, length y = length x -> ~ (satisfied c y /\ satisfied c' y)) /\
    (b_conflicts s = [] <-> forall i bd, nth_error (b_bounds s) i = Some bd -> exists v, inside bd v).
Proof.
  intros P. destruct (get_bounds_inv x cs P) as (s & E & L1 & L2 & M & V & F & X). exists s.
  rewrite List.Forall_forall in P, F.
  assert (FC : forall l u, In (l, u) (b_conflicts s) -> exists k k' c c' i, l = Z.of_nat k /\ u = Z.of_nat k' /\
       nth_error cs k = Some c /\ nth_error cs k' = Some c' /\ bound_on c i /\ bound_on c' i /\
       forall y, length y = length x -> ~ (satisfied c y /\ satisfied c' y)).
  { intros l u H. destruct (real_conflict _ _ _ (F _ H)) as (k & k' & c & c' & i & A & B & C & D & _ & G & I & J).
    exists k, k', c, c', i. auto 10. }
  assert (IB : forall i bd, nth_error (b_bounds s) i = Some bd -> (i < length x)%nat) by
    (intros i bd H; rewrite <- L1; apply nth_error_Some; congruence).
  assert (VV : forall i bd, nth_error (b_bounds s) i = Some bd -> exists li hii, lo_ok (length x) cs i (fst bd) li /\ hi_ok (length x) cs i (snd bd) hii).
  { intros i [lo hi] H. destruct (nth_error (b_index s) i) as [[li hii]|] eqn:Ei.
    - destruct (V _ _ _ _ _ H Ei). cbn. eauto.
    - apply nth_error_None in Ei. specialize (IB _ _ H). lia. }
  assert (IN : forall i bd v, nth_error (b_bounds s) i = Some bd ->
       (inside bd v <-> forall c y, In c cs -> bound_on c i -> length y = length x -> nth_error y i = Some v -> satisfied c y)).
  { intros i bd v H. destruct (VV i bd H) as (li & hii & [A1 A2] & [B1 B2]). split.
    - intros [I1 I2] c y Hc Hb Ly Hv. destruct (bound_affine _ _ _ (P c Hc) Hb) as (a & b & Ha).
      apply (satisfied_affine _ _ _ _ _ _ _ Ha Ly Hv). pose proof Ha as (_ & _ & Na & _).
      destruct (Rtotal_order a 0) as [N|[N|N]]; [|contradiction|].
      + apply half_neg; auto. destruct (B2 c (- b / a) Hc) as (u & Eu & Hu); [split; [apply Hb|]; eauto|].
        rewrite Eu in I2. cbn in I2. lra.
      + apply half_pos; auto. destruct (A2 c (- b / a) Hc) as (u & Eu & Hu); [split; [apply Hb|]; eauto|].
        rewrite Eu in I1. cbn in I1. lra.
    - intros HH. destruct (exists_point (length x) i v (IB _ _ H)) as (y & Ly & Hy). split.
      + destruct A1 as [->|(l & k & c & -> & _ & Ek & (K & a & b & Ha & Pa & ->))]; [exact I|]. cbn.
        pose proof Ha as (_ & Er & _). apply half_pos; auto. apply (satisfied_affine _ _ _ _ _ _ _ Ha Ly Hy).
        apply HH; auto; [eapply nth_error_In; eauto|split; eauto].
      + destruct B1 as [->|(l & k & c & -> & _ & Ek & (K & a & b & Ha & Pa & ->))]; [exact I|]. cbn.
        pose proof Ha as (_ & Er & _). apply half_neg; auto. apply (satisfied_affine _ _ _ _ _ _ _ Ha Ly Hy).
        apply HH; auto; [eapply nth_error_In; eauto|split; eauto]. }
  assert (EMP : b_conflicts s <> [] -> exists i bd, nth_error (b_bounds s) i = Some bd /\ forall v, ~ inside bd v).
  { destruct (b_conflicts s) as [|[l u] rest] eqn:Ec; [congruence|]. intros _.
    destruct (real_conflict _ _ _ (F _ (or_introl eq_refl))) as (k & k' & c & c' & i & A & B & C & D & Hi & G & G' & J).
    destruct (nth_error (b_bounds s) i) as [bd|] eqn:Eb; [|apply nth_error_None in Eb; lia].
    exists i, bd. split; [auto|]. intros v Hv. destruct (exists_point (length x) i v Hi) as (y & Ly & Hy).
    apply (J y Ly). split; apply (proj1 (IN i bd v Eb) Hv); auto; eapply nth_error_In; eauto. }
  assert (FUL : b_conflicts s = [] -> forall i bd, nth_error (b_bounds s) i = Some bd -> exists v, inside bd v).
  { intros Ec i bd H. destruct (VV i bd H) as (li & hii & [A1 _] & [B1 _]). destruct bd as [lo hi]. cbn [fst snd] in *.
    destruct (X_ltb hi lo) eqn:EX; [exfalso; apply X; eauto|].
    destruct A1 as [->|(l & _ & _ & -> & _)], B1 as [->|(u & _ & _ & -> & _)].
    - exists 0. split; exact I.
    - exists u. split; cbn; [exact I|lra].
    - exists l. split; cbn; [lra|exact I].
    - exists l. assert (~ u < l) by (intros H1; apply xlt_fin in H1; congruence). split; cbn; lra. }
  split; [auto|]. split; [auto|]. split; [|split; [exact IN|split; [exact FC|split]]].
  - intros k c Hk. exists (isbound c). rewrite M, nth_error_map, Hk. split; [reflexivity|]. unfold isbound, bound_on. split.
    + intros H. apply andb_prop in H as [H1 H2]. destruct (k_row c) as [|[i a] [|]]; try discriminate. eauto.
    + intros (i & K & a & Er). rewrite K, Er. reflexivity.
  - split.
    + destruct (b_conflicts s) as [|[l u] rest] eqn:Ec; [congruence|]. intros _.
      destruct (FC l u (or_introl eq_refl)) as (k & k' & c & c' & i & A & B & C & D & G).
      exists c, c', i. split; [eapply nth_error_In; eauto|]. split; [eapply nth_error_In; eauto|]. exact G.
    + intros (c & c' & i & H & H' & G & G' & J) Ec.
      destruct (bound_affine _ _ _ (P c H) G) as (a & b & (Hi & _)).
      destruct (nth_error (b_bounds s) i) as [bd|] eqn:Eb; [|apply nth_error_None in Eb; lia].
      destruct (FUL Ec i bd Eb) as (v & Hv). destruct (exists_point (length x) i v Hi) as (y & Ly & Hy).
      apply (J y Ly). split; apply (proj1 (IN i bd v Eb) Hv); auto.
  - split; [exact FUL|]. intros HH. destruct (b_conflicts s) eqn:Ec; [auto|]. exfalso.
    destruct EMP as (i & bd & H & Hn); [congruence|]. destruct (HH i bd H) as (v & Hv). exact (Hn v Hv).
Qed.

Lemma c37_inf x cs s : List.Forall (proper (length x)) cs -> get_bounds x cs = Ok s -> b_conflicts s <> [] ->
  forall y, length y = length x -> ~ (forall c, In c cs -> satisfied c y).
Proof.
  intros P E N y Ly H. destruct (c37 x cs P) as (s' & E' & _ & _ & _ & _ & (C & _) & _). rewrite E in E'. injection E' as <-.
  destruct (C N) as (c & c' & i & Hc & Hc' & _ & _ & J). apply (J y Ly). auto.
Qed.

(** Projection. *)
Lemma fin_max a b : smax (S := Xn) (Fin a) (Fin b) = Fin (Rmax a b).
Proof.
  unfold smax. change (s_ltb Xn (Fin a) (Fin b)) with (X_ltb (Fin a) (Fin b)). unfold Rmax.
  destruct (X_ltb (Fin a) (Fin b)) eqn:E; destruct (Rle_dec a b) as [H|H]; auto.
  - apply xlt_fin in E. lra.
  - assert (~ a < b) by (intros H1; apply xlt_fin in H1; congruence). f_equal. lra.
Qed.
Lemma fin_min a b : smin (S := Xn) (Fin a) (Fin b) = Fin (Rmin a b).
Proof.
  unfold smin. change (s_ltb Xn (Fin b) (Fin a)) with (X_ltb (Fin b) (Fin a)). unfold Rmin.
  destruct (X_ltb (Fin b) (Fin a)) eqn:E; destruct (Rle_dec a b) as [H|H]; auto.
  - apply xlt_fin in E. lra.
  - assert (~ b < a) by (intros H1; apply xlt_fin in H1; congruence). lra.
Qed.

Definition good_point (k1 : R) (b : XR * XR) (v w : R) : Prop :=
  inside b w /\ (roomy b -> strictly_above (fst b) w /\ strictly_below w (snd b)) /\ (clear k1 b v -> w = v).

Lemma project_one_ok k1 k2 lo hi v : 0 < k1 -> 0 < k2 -> k2 < 1 / 2 -> interval (lo, hi) ->
  exists w, project_one (Fin k1) (Fin k2) lo hi (Fin v) = Ok (Fin w) /\ good_point k1 (lo, hi) v w.
Proof.
  intros P1 P2 P3 I. unfold project_one.
  destruct lo as [l| | |], hi as [u| | |]; cbn in I; try contradiction.
  - assert (El : X_leb (Fin l) (Fin u) = true).
    { unfold X_leb. destruct (X_ltb (Fin l) (Fin u)) eqn:E; [reflexivity|]. cbn.
      assert (~ l < u) by (intros H; apply xlt_fin in H; congruence). unfold R_eqb. destruct (Req_EM_T l u); auto. lra. }
    rewrite El. unfold oassert. change (s_finite Xn (Fin l)) with true. change (s_finite Xn (Fin u)) with true. cbn [andb].
    change (s_abs Xn (Fin l)) with (Fin (Rabs l)). change (s_abs Xn (Fin u)) with (Fin (Rabs u)).
    rewrite !fin_max. cbn [X_mul X_sub X_opp X_add]. rewrite !fin_min. cbn [X_opp X_add]. rewrite fin_max, fin_min.
    eexists. split; [reflexivity|]. unfold good_point, inside, roomy, clear. cbn [fst snd above below strictly_above strictly_below].
    set (A := k1 * Rmax 1 (Rabs l)). set (B := k1 * Rmax 1 (Rabs u)). set (W := k2 * (u + - l)).
    assert (0 < A) by (apply Rmult_lt_0_compat; auto; pose proof (Rmax_l 1 (Rabs l)); lra).
    assert (0 < B) by (apply Rmult_lt_0_compat; auto; pose proof (Rmax_l 1 (Rabs u)); lra).
    assert (0 <= W) by (apply Rmult_le_pos; lra).
    assert (W2 : 2 * W <= u - l).
    { unfold W. assert (2 * k2 * (u + - l) <= 1 * (u + - l)) by (apply Rmult_le_compat_r; lra). lra. }
    assert (W3 : l < u -> 0 < W /\ 2 * W < u - l).
    { intros Hlu. unfold W. split; [apply Rmult_lt_0_compat; lra|].
      assert (2 * k2 * (u + - l) < 1 * (u + - l)) by (apply Rmult_lt_compat_r; lra). lra. }
    clearbody W. set (m1 := Rmin A W). set (m2 := Rmin B W).
    assert (M1 : m1 <= A /\ m1 <= W /\ 0 <= m1 /\ (0 < W -> 0 < m1)) by (unfold m1, Rmin; destruct (Rle_dec A W); repeat split; lra).
    assert (M2 : m2 <= B /\ m2 <= W /\ 0 <= m2 /\ (0 < W -> 0 < m2)) by (unfold m2, Rmin; destruct (Rle_dec B W); repeat split; lra).
    destruct M1 as (M11 & M12 & M13 & M14). destruct M2 as (M21 & M22 & M23 & M24). clearbody m1 m2.
    set (w := Rmin (Rmax (l + m1) v) (u + - m2)).
    assert (Hw1 : l + m1 <= w /\ w <= u - m2).
    { unfold w, Rmin, Rmax. destruct (Rle_dec (l + m1) v); destruct (Rle_dec _ (u + - m2)); split; lra. }
    assert (Hw2 : l + m1 <= v -> v <= u - m2 -> w = v).
    { intros G1 G2. unfold w, Rmin, Rmax. destruct (Rle_dec (l + m1) v); destruct (Rle_dec _ (u + - m2)); lra. }
    clearbody w. destruct Hw1 as [Hw0 Hw1].
    split; [split; lra|]. split.
    + intros Hr. destruct (W3 Hr) as [W4 W5]. specialize (M14 W4). specialize (M24 W4). split; lra.
    + intros [C1 C2]. specialize (C1 l eq_refl). specialize (C2 u eq_refl). fold A in C1. fold B in C2. apply Hw2; lra.
  - change (X_leb (Fin l) PInf) with true. unfold oassert. cbn [s_finite Xn andb].
    change (s_abs Xn (Fin l)) with (Fin (Rabs l)). rewrite !fin_max. cbn [X_mul X_add]. rewrite fin_max.
    eexists. split; [reflexivity|]. unfold good_point, inside, roomy, clear. cbn [fst snd above below strictly_above strictly_below].
    set (A := k1 * Rmax 1 (Rabs l)).
    assert (0 < A) by (apply Rmult_lt_0_compat; auto; pose proof (Rmax_l 1 (Rabs l)); lra). 
    assert (Hw : Rmax v (l + A) = v \/ (v <= l + A /\ Rmax v (l + A) = l + A)) by
      (unfold Rmax; destruct (Rle_dec v (l + A)); auto).
    assert (Hw' : l + A <= Rmax v (l + A)) by apply Rmax_r. set (w := Rmax v (l + A)) in *. clearbody w.
    destruct Hw as [Hw|[Hw Hw2]]; (split; [split; [lra|exact I]|]; split; [intros _; split; [lra|exact I]|]; intros [C1 _];
      specialize (C1 l eq_refl); fold A in C1; lra).
  - change (X_leb MInf (Fin u)) with true. unfold oassert. cbn [s_finite Xn andb].
    change (s_abs Xn (Fin u)) with (Fin (Rabs u)). rewrite !fin_max. cbn [X_mul X_sub X_opp X_add]. rewrite fin_min.
    eexists. split; [reflexivity|]. unfold good_point, inside, roomy, clear. cbn [fst snd above below strictly_above strictly_below].
    set (A := k1 * Rmax 1 (Rabs u)).
    assert (0 < A) by (apply Rmult_lt_0_compat; auto; pose proof (Rmax_l 1 (Rabs u)); lra). 
    assert (Hw : Rmin v (u + - A) = v \/ (u + - A <= v /\ Rmin v (u + - A) = u + - A)) by
      (unfold Rmin; destruct (Rle_dec v (u + - A)); [auto|right; split; lra]).
    assert (Hw' : Rmin v (u + - A) <= u + - A) by apply Rmin_r. set (w := Rmin v (u + - A)) in *. clearbody w.
    destruct Hw as [Hw|[Hw Hw2]]; (split; [split; [exact I|lra]|]; split; [intros _; split; [exact I|lra]|]; intros [_ C1];
      specialize (C1 u eq_refl); fold A in C1; lra).
  - change (X_leb MInf PInf) with true. unfold oassert. cbn [s_finite Xn andb]. exists v. split; [reflexivity|].
    unfold good_point, inside. cbn. auto 10.
Qed.

Lemma xltb_lt a b : a < b -> X_ltb (Fin a) (Fin b) = true.
Proof. apply xlt_fin. Qed.

Lemma project_loop_ok k1 k2 bs : 0 < k1 -> 0 < k2 -> k2 < 1 / 2 -> List.Forall interval bs -> forall xs, length xs = length bs ->
  exists ys, project_loop (Fin k1) (Fin k2) bs (map Fin xs) = Ok (map Fin ys) /\ length ys = length xs /\
    forall i b v w, nth_error bs i = Some b -> nth_error xs i = Some v -> nth_error ys i = Some w -> good_point k1 b v w.
Proof.
  intros P1 P2 P3. induction bs as [|[l u] bs IH]; intros F xs L.
  - destruct xs; [|discriminate]. exists []. split; [reflexivity|]. split; [reflexivity|]. intros i b v w H. destruct i; discriminate.
  - destruct xs as [|v xs]; [discriminate|]. inversion F as [|? ? Fb Fbs]; subst. cbn [map project_loop].
    destruct (project_one_ok k1 k2 l u v P1 P2 P3 Fb) as (w & -> & Hw). cbn [obind].
    destruct (IH Fbs xs) as (ys & -> & Ly & Hy); [cbn in L; lia|]. cbn [obind]. exists (w :: ys).
    split; [reflexivity|]. split; [cbn; lia|]. intros [|i] b v' w' H1 H2 H3; cbn in H1, H2, H3.
    + injection H1 as <-. injection H2 as <-. injection H3 as <-. exact Hw.
    + eapply Hy; eauto.
Qed.

Lemma c39 k1 k2 bs xs : 0 < k1 -> 0 < k2 -> k2 < 1 / 2 -> List.Forall interval bs -> length xs = length bs ->
  exists ys, project_onto_bounds (Fin k1) (Fin k2) bs (map Fin xs) = Ok (map Fin ys) /\ length ys = length xs /\
    forall i b v w, nth_error bs i = Some b -> nth_error xs i = Some v -> nth_error ys i = Some w ->
      inside b w /\ (roomy b -> strictly_above (fst b) w /\ strictly_below w (snd b)) /\ (clear k1 b v -> w = v).
Proof.
  intros P1 P2 P3 F L. unfold project_onto_bounds. rewrite (xltb_lt 0 k1), (xltb_lt 0 k2), (xltb_lt k2 (1 / 2)) by auto.
  exact (project_loop_ok k1 k2 bs P1 P2 P3 F xs L).
Qed.
