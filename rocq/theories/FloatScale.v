(** Proofs for C40 in doubles. *)
From Coq Require Import ZArith Reals List Bool Lra Lia Psatz.
From Flocq Require Import Core IEEE754.BinarySingleNaN.
From Verif Require Import Base ExprModel ExprReal ExprXR NumModel UtilModel FilterProofs FloatModel FloatSpec FloatArith FloatStep FloatProofs FloatBarrier.
Import ListNotations.
Local Open Scope R_scope.

(** Finite, with a plus sign. *)
Definition nonneg (x : dbl) : Prop := is_finite x = true /\ Bsign x = false.
Lemma nonneg_ge x : nonneg x -> 0 <= B2R x.
Proof. intros [_ H]. apply sgn_le. exact H. Qed.
Lemma abs_nonneg (x : dbl) : is_finite x = true -> nonneg (d_abs x) /\ B2R (d_abs x) = Rabs (B2R x).
Proof. intros F. unfold d_abs, nonneg. rewrite is_finite_Babs, B2R_Babs. split; [split; [exact F|]|reflexivity]. destruct x; reflexivity || discriminate. Qed.
Section Scale.
Context {M : libm}.
Lemma smax_nonneg (a b : dbl) : nonneg a -> nonneg b -> nonneg (smax (S := Dn M) a b) /\ B2R a <= B2R (smax (S := Dn M) a b) /\ B2R b <= B2R (smax (S := Dn M) a b).
Proof.
  intros A B. unfold smax. change (s_ltb (Dn M) a b) with (d_ltb a b). destruct (d_ltb a b) eqn:C.
  - apply d_ltb_fin in C; [|apply A|apply B]. split; [exact B|lra].
  - apply d_ltb_finF in C; [|apply A|apply B]. split; [exact A|lra].
Qed.
Lemma fold_max (v : list dbl) : (forall x, In x v -> is_finite x = true) -> forall m, nonneg m ->
  let r := fold_left (fun m x => smax (S := Dn M) m (d_abs x)) v m in nonneg r /\ B2R m <= B2R r /\ forall x, In x v -> Rabs (B2R x) <= B2R r.
Proof.
  induction v as [|x v IH]; intros F m Hm; cbn [fold_left]; cbv zeta; [split; [exact Hm|]; split; [lra|intros ? []]|].
  destruct (abs_nonneg x (F x (or_introl eq_refl))) as [A1 A2]. destruct (smax_nonneg m (d_abs x) Hm A1) as (B1 & B2 & B3).
  destruct (IH (fun y I => F y (or_intror I)) _ B1) as (C1 & C2 & C3). split; [exact C1|]. split; [lra|]. intros y [<-|I]; [rewrite <- A2; lra|apply C3; exact I].
Qed.
Lemma norminf_d (v : list dbl) : (forall x, In x v -> is_finite x = true) -> nonneg (norminf (S := Dn M) v) /\ forall x, In x v -> Rabs (B2R x) <= B2R (norminf (S := Dn M) v : dbl).
Proof.
  destruct v as [|x v]; intros F; [split; [split; reflexivity|intros ? []]|].
  destruct (abs_nonneg x (F x (or_introl eq_refl))) as [A1 A2]. destruct (fold_max v (fun y I => F y (or_intror I)) (d_abs x) A1) as (C1 & C2 & C3).
  cbn [norminf]. split; [exact C1|]. intros y [<-|I]; [rewrite <- A2; exact C2|apply C3; exact I].
Qed.
(** The norm is attained. *)
Lemma norminf_in (v : list dbl) : (forall x, In x v -> is_finite x = true) -> B2R (norminf (S := Dn M) v : dbl) = 0 \/ exists x, In x v /\ Rabs (B2R x) = B2R (norminf (S := Dn M) v : dbl).
Proof.
  destruct v as [|x v]; intros F; [left; reflexivity|right]. cbn [norminf].
  assert (G : forall v (m : dbl), (forall x, In x v -> is_finite x = true) ->
    fold_left (fun m x => smax (S := Dn M) m (d_abs x)) v m = m \/ exists x, In x v /\ fold_left (fun m x => smax (S := Dn M) m (d_abs x)) v m = d_abs x).
  { clear. induction v as [|y v IH]; intros m F; cbn [fold_left]; [auto|]. destruct (IH (smax (S := Dn M) m (d_abs y)) (fun z I => F z (or_intror I))) as [E|(z & I & E)].
    - assert (J : smax (S := Dn M) m (d_abs y) = m \/ smax (S := Dn M) m (d_abs y) = d_abs y) by (unfold smax; destruct (s_ltb (Dn M) m (d_abs y)); auto).
      destruct J as [J|J]; rewrite J in E; rewrite J; [left; exact E|right; exists y; split; [left; reflexivity|exact E]].
    - right. exists z. split; [right; exact I|exact E]. }
  destruct (G v (d_abs x) (fun y I => F y (or_intror I))) as [E|(y & I & E)].
  - exists x. split; [left; reflexivity|]. transitivity (B2R (d_abs x)); [symmetry; apply (abs_nonneg x); apply F; left; reflexivity|]. apply f_equal. symmetry. exact E.
  - exists y. split; [right; exact I|]. transitivity (B2R (d_abs y)); [symmetry; apply (abs_nonneg y); apply F; right; exact I|]. apply f_equal. symmetry. exact E.
Qed.

Definition u : R := b2 (-53).
Lemma hundred : is_finite (d_ofZ 100) = true /\ B2R (d_ofZ 100) = 100.
Proof. apply fin_dX. change (d_ofZ 100) with (d_lit 100 0). rewrite d_lit_X by (try lia; reflexivity). f_equal. cbn [bpow]. lra. Qed.
(** The factor for a norm n. *)
Definition factor_ok (n : R) (f : dbl) : Prop :=
  is_finite f = true /\ 0 < B2R f <= 1 /\ B2R f * n <= 100 * (1 + u) /\ (B2R f = 1 \/ 100 * (1 - u) <= B2R f * n).
Lemma quot_d (n : dbl) : nonneg n -> (dX (d_div (d_ofZ 100) n) = PInf /\ B2R n <= 1) \/
  (0 < B2R n /\ exists q, dX (d_div (d_ofZ 100) n) = Fin q /\ 0 < q /\ 100 * (1 - u) <= q * B2R n <= 100 * (1 + u)).
Proof.
  intros N. destruct hundred as [F H]. pose proof (nonneg_ge n N) as P. destruct (Req_dec (B2R n) 0) as [E|E].
  - left. destruct n as [s| | |s mm e B]; try (destruct N; discriminate).
    + destruct N as [_ N]. cbn in N. subst s. split; [vm_compute; reflexivity|cbn; lra].
    + destruct N as [_ N]. cbn in N. subst s. exfalso. cbn in E. unfold F2R in E. cbn in E. pose proof (bpow_gt_0 radix2 e). pose proof (IZR_lt 0 (Zpos mm) ltac:(lia)). nra.
  - assert (D : dX (d_div (d_ofZ 100) n) = rX (Fin (100 / B2R n))).
    { rewrite div_X by (rewrite (dX_fin n) by apply N; intros K; injection K; contradiction). rewrite (dX_fin _ F), (dX_fin n) by apply N. rewrite H. cbn [X_div]. destruct (Req_EM_T (B2R n) 0); [contradiction|reflexivity]. }
    assert (Q : 0 < 100 / B2R n) by (apply Rmult_lt_0_compat; [lra|apply Rinv_0_lt_compat; lra]).
    rewrite D. unfold rX. destruct (Rlt_bool_spec (Rabs (rnd (100 / B2R n))) big) as [B|B].
    + right. split; [lra|]. exists (rnd (100 / B2R n)). split; [reflexivity|].
      assert (L : b2 (-1022) <= 100 / B2R n).
      { apply Rmult_le_reg_r with (B2R n); [lra|]. replace (100 / B2R n * B2R n) with 100 by (field; lra). pose proof (lt_big n) as K. rewrite Rabs_pos_eq in K by lra.
        apply Rle_trans with (b2 (-1022) * big); [apply Rmult_le_compat_l; [apply bpow_ge_0|lra]|]. unfold big, emax. rewrite <- bpow_plus. change (b2 (-1022 + 1024)) with 4. lra. }
      pose proof (rnd_rel (100 / B2R n)) as K. rewrite (Rabs_pos_eq (100 / B2R n)) in K by lra. specialize (K L). apply Rabs_le_inv in K. fold u in K.
      assert (U : 0 < u <= 1 / 1000000) by apply b2_53. assert (Qn : 100 / B2R n * B2R n = 100) by (field; lra). split; [nra|]. set (q := 100 / B2R n) in *. split; nra.
    + left. rewrite Rlt_bool_false by lra. split; [reflexivity|]. destruct (Rle_dec (B2R n) 1) as [|K]; [assumption|exfalso].
      assert (G : 100 / B2R n <= b2 7). { change (b2 7) with 128. apply Rmult_le_reg_r with (B2R n); [lra|]. replace (100 / B2R n * B2R n) with 100 by (field; lra). lra. }
      assert (rnd (100 / B2R n) <= b2 7) by (rewrite <- (rnd_bpow 7) by lia; apply rnd_le; exact G). rewrite Rabs_pos_eq in B by (apply rnd_ge0; lra).
      assert (b2 7 < big) by (apply bpow_lt; reflexivity). lra.
Qed.
Lemma one_fin : is_finite (d_ofZ 1) = true /\ B2R (d_ofZ 1) = 1. Proof. apply fin_dX, one_X. Qed.
Lemma u_small : 0 < u <= 1 / 1000000. Proof. apply b2_53. Qed.
Lemma scale_of_d (n : dbl) : nonneg n -> factor_ok (B2R n) (scale_of (S := Dn M) n).
Proof.
  intros N. pose proof (nonneg_ge n N). pose proof u_small. unfold scale_of, smin, g_max. change (s_ltb (Dn M)) with d_ltb. change (s_div (Dn M)) with d_div. change (s_ofZ (Dn M)) with d_ofZ. unfold factor_ok.
  destruct one_fin as [F1 H1]. destruct (quot_d n N) as [[Q L]|(Pn & q & Q & Pq & Hq)].
  - rewrite lt_X, Q, one_X. cbn [X_ltb]. rewrite H1. split; [exact F1|]. split; [lra|]. split; [lra|left; reflexivity].
  - rewrite lt_X, Q, one_X. cbn [X_ltb]. destruct (fin_dX _ _ Q) as [Fq Vq]. destruct (R_ltb q 1) eqn:C.
    + apply R_ltb_true in C. rewrite Vq. split; [exact Fq|]. split; [lra|]. split; [apply Hq|right; apply Hq].
    + apply R_ltb_false in C. rewrite H1. split; [exact F1|]. split; [lra|]. split; [nra|left; reflexivity].
Qed.
Lemma scale_row_d (n : dbl) : nonneg n -> factor_ok (B2R n) (smin (S := Dn M) (d_div (d_ofZ 100) n) (d_ofZ 1)).
Proof.
  intros N. pose proof (nonneg_ge n N). pose proof u_small. unfold smin. change (s_ltb (Dn M)) with d_ltb. unfold factor_ok.
  destruct one_fin as [F1 H1]. destruct (quot_d n N) as [[Q L]|(Pn & q & Q & Pq & Hq)].
  - rewrite lt_X, Q, one_X. cbn [X_ltb]. rewrite H1. split; [exact F1|]. split; [lra|]. split; [lra|left; reflexivity].
  - rewrite lt_X, Q, one_X. cbn [X_ltb]. destruct (fin_dX _ _ Q) as [Fq Vq]. destruct (R_ltb 1 q) eqn:C.
    + apply R_ltb_true in C. rewrite H1. split; [exact F1|]. split; [lra|]. split; [nra|left; reflexivity].
    + apply R_ltb_false in C. rewrite Vq. split; [exact Fq|]. split; [lra|]. split; [apply Hq|right; apply Hq].
Qed.

(** Row norms. *)
Lemma set_nth_same (l : list dbl) i v : (i < length l)%nat -> nth i (set_nth (S := Dn M) l i v) (d_ofZ 0) = v.
Proof. revert i. induction l as [|x l IH]; intros [|i] H; cbn in *; try lia; auto. apply IH. lia. Qed.
Lemma set_nth_other (l : list dbl) i j v : i <> j -> nth j (set_nth (S := Dn M) l i v) (d_ofZ 0) = nth j l (d_ofZ 0).
Proof. revert i j. induction l as [|x l IH]; intros [|i] [|j] H; cbn in *; auto; try congruence. Qed.
Lemma set_nth_length (l : list dbl) i v : length (set_nth (S := Dn M) l i v) = length l.
Proof. revert i. induction l as [|x l IH]; intros [|i]; cbn; auto. Qed.
Definition row_entries (r : nat) (A : sparse (Dn M)) : list dbl := map snd (List.filter (fun e => Nat.eqb (fst (fst e)) r) A).
Lemma norms_from (A : sparse (Dn M)) : forall ns : list dbl, (forall e, In e A -> is_finite (snd e : dbl) = true) -> (forall r, (r < length ns)%nat -> nonneg (nth r ns (d_ofZ 0))) ->
  let out := fold_left (fun ns '(r, _, v) => set_nth (S := Dn M) ns r (smax (S := Dn M) (nth r ns (d_ofZ 0)) (d_abs v))) A ns in
  length out = length ns /\ forall r, (r < length ns)%nat -> nonneg (nth r out (d_ofZ 0)) /\ B2R (nth r ns (d_ofZ 0)) <= B2R (nth r out (d_ofZ 0)) /\
    (forall x, In x (row_entries r A) -> Rabs (B2R x) <= B2R (nth r out (d_ofZ 0))) /\
    (B2R (nth r out (d_ofZ 0)) = B2R (nth r ns (d_ofZ 0)) \/ exists x, In x (row_entries r A) /\ B2R (nth r out (d_ofZ 0)) = Rabs (B2R x)).
Proof.
  induction A as [|[[i c] v] A IH]; intros ns F H; cbn [fold_left]; cbv zeta.
  { split; [reflexivity|]. intros r Hr. split; [auto|]. split; [apply Rle_refl|]. split; [intros ? []|left; reflexivity]. }
  set (ns' := set_nth (S := Dn M) ns i (smax (S := Dn M) (nth i ns (d_ofZ 0)) (d_abs v))).
  assert (Fv : is_finite (v : dbl) = true) by exact (F _ (or_introl eq_refl)). destruct (abs_nonneg v Fv) as [A1 A2].
  assert (L : length ns' = length ns) by apply set_nth_length.
  assert (H' : forall r, (r < length ns')%nat -> nonneg (nth r ns' (d_ofZ 0))).
  { intros r Hr. rewrite L in Hr. destruct (Nat.eq_dec i r) as [<-|E]; unfold ns'; [rewrite set_nth_same by exact Hr; apply smax_nonneg; auto|rewrite set_nth_other by exact E; auto]. }
  destruct (IH ns' (fun e I => F e (or_intror I)) H') as [K1 K2]. split; [exact (eq_trans K1 L)|]. intros r Hr. destruct (K2 r (eq_ind_r (fun k => (r < k)%nat) Hr L)) as (B1 & B2 & B3 & B4). split; [exact B1|].
  unfold row_entries in *. cbn [List.filter fst snd]. destruct (Nat.eqb i r) eqn:E.
  - apply Nat.eqb_eq in E. subst r. destruct (smax_nonneg (nth i ns (d_ofZ 0)) (d_abs v) (H i Hr) A1) as (C1 & C2 & C3). assert (V : nth i ns' (d_ofZ 0) = smax (S := Dn M) (nth i ns (d_ofZ 0)) (d_abs v)) by (apply set_nth_same; exact Hr).
    change (car (nbase (Dn M))) with dbl in *. change (binary_float prec emax) with dbl in *. rewrite V in B2, B4. split; [eapply Rle_trans; [exact C2|exact B2]|]. cbn [map snd]. split; [intros x [<-|I]; [rewrite <- A2; eapply Rle_trans; [exact C3|exact B2]|auto]|].
    destruct B4 as [B4|(x & I & B4)]; [|right; exists x; split; [right; exact I|exact B4]]. assert (J : smax (S := Dn M) (nth i ns (d_ofZ 0)) (d_abs v) = nth i ns (d_ofZ 0) \/ smax (S := Dn M) (nth i ns (d_ofZ 0)) (d_abs v) = d_abs v) by (unfold smax; destruct (s_ltb (Dn M) _ _); auto).
    destruct J as [J|J]; rewrite J in B4; [left; exact B4|right; exists v; split; [left; reflexivity|exact (eq_trans B4 A2)]].
  - apply Nat.eqb_neq in E. assert (V : nth r ns' (d_ofZ 0) = nth r ns (d_ofZ 0)) by (apply set_nth_other; exact E). change (car (nbase (Dn M))) with dbl in *. change (binary_float prec emax) with dbl in *. rewrite V in B2, B4. auto.
Qed.
Lemma norms_d (rows : nat) (A : sparse (Dn M)) : (forall e, In e A -> is_finite (snd e : dbl) = true) ->
  let out := sparse_inf_norms (S := Dn M) rows A in
  length out = rows /\ forall r, (r < rows)%nat -> nonneg (nth r out (d_ofZ 0)) /\ (forall x, In x (row_entries r A) -> Rabs (B2R x) <= B2R (nth r out (d_ofZ 0) : dbl)) /\
    (B2R (nth r out (d_ofZ 0) : dbl) = 0 \/ exists x, In x (row_entries r A) /\ B2R (nth r out (d_ofZ 0) : dbl) = Rabs (B2R x)).
Proof.
  intros F. cbv zeta. destruct (norms_from A (repeat (d_ofZ 0) rows) F) as [K1 K2].
  { intros r _. rewrite nth_repeat. split; reflexivity. }
  rewrite repeat_length in K1, K2. split; [exact K1|]. intros r Hr. destruct (K2 r Hr) as (B1 & _ & B3 & B4). split; [exact B1|]. split; [exact B3|]. rewrite nth_repeat in B4. exact B4.
Qed.
End Scale.

(** [brings f v]: the factor is in (0,1], brings every entry to at most 100 in absolute value up to rounding, and is 1 or brings some entry to 100. *)
Lemma ok_brings (v : list dbl) (n : R) f : factor_ok n f -> (forall x, In x v -> Rabs (B2R x) <= n) -> (n = 0 \/ exists x, In x v /\ n = Rabs (B2R x)) -> brings_d f v.
Proof.
  intros (F & (P1 & P2) & L & U) H A. unfold brings_d. pose proof u_small. fold u in *. split; [exact F|]. split; [auto|]. split.
  - intros x I. specialize (H x I). apply Rle_trans with (B2R f * n); [apply Rmult_le_compat_l; lra|exact L].
  - destruct U as [U|U]; [left; exact U|right]. destruct A as [A|(x & I & A)]; [exfalso; subst n; lra|]. exists x. split; [exact I|]. rewrite <- A. exact U.
Qed.
Lemma c40_d (M : libm) (g : list dbl) (me mi : nat) (Ae Ai : list (nat * nat * dbl)) :
  (forall x, In x g -> is_finite x = true) -> (forall e, In e Ae -> is_finite (snd e) = true) -> (forall e, In e Ai -> is_finite (snd e) = true) ->
  let s := scaling_ipm (S := Dn M) g me Ae mi Ai in
  brings_d (sc_f s) g /\ length (sc_e s) = me /\ length (sc_i s) = mi /\
  (forall r, (r < me)%nat -> exists f, nth_error (sc_e s) r = Some f /\ brings_d f (entries_of_row r Ae)) /\
  (forall r, (r < mi)%nat -> exists f, nth_error (sc_i s) r = Some f /\ brings_d f (entries_of_row r Ai)).
Proof.
  intros Fg Fe Fi. cbv zeta. cbn [scaling_ipm sc_f sc_e sc_i]. destruct (norminf_d (M := M) g Fg) as [N1 N2].
  assert (Rows : forall rows (A : list (nat * nat * dbl)), (forall e, In e A -> is_finite (snd e) = true) -> length (scale_rows (S := Dn M) rows A) = rows /\
    forall r, (r < rows)%nat -> exists f, nth_error (scale_rows (S := Dn M) rows A) r = Some f /\ brings_d f (entries_of_row r A)).
  { intros rows A FA. destruct (norms_d (M := M) rows A FA) as [K1 K2]. unfold scale_rows. split; [rewrite map_length; exact K1|]. intros r Hr. destruct (K2 r Hr) as (B1 & B2 & B3).
    eexists. split; [apply map_nth_error; apply nth_error_nth' with (d := d_ofZ 0); lia|]. eapply ok_brings; [apply (scale_row_d (M := M) _ B1)|exact B2|exact B3]. }
  split; [eapply ok_brings; [apply (scale_of_d (M := M) _ N1)|exact N2|]|].
  { destruct (norminf_in (M := M) g Fg) as [E|(x & I & E)]; [left; exact E|right; exists x; auto]. }
  destruct (Rows me Ae Fe) as [A1 A2]. destruct (Rows mi Ai Fi) as [B1 B2]. auto.
Qed.
Lemma c40_ex_d (M : libm) : sc_f (scaling_ipm (S := Dn M) [d_ofZ 1000; d_ofZ (-3)] 0 [] 0 []) = (lit (S := Dn M) 1 1 : dbl) /\
  entries_of_row 1 [(0%nat, 0%nat, d_ofZ 5); (1%nat, 0%nat, d_ofZ 1000); (1%nat, 2%nat, d_ofZ (-3))] = [d_ofZ 1000; d_ofZ (-3)].
Proof. split; [apply B2SF_inj; vm_compute; reflexivity|reflexivity]. Qed.
