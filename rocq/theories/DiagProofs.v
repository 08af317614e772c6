(** Proofs for C65, C71 and C72. *)
From Coq Require Import ZArith Reals List Bool Arith Lia Lra.
From Verif Require Import Base ExprModel ExprReal ExprXR NumModel DiagModel DiagSpec.
Import ListNotations.
Local Open Scope R_scope.

Lemma xltb_fin a b : X_ltb (Fin a) (Fin b) = true <-> a < b.
Proof. cbn. unfold R_ltb. destruct (Rlt_dec a b); split; auto; discriminate. Qed.

Lemma violated_in rows (c : list R) : forall row k n v,
  In (k, n, v) (violated_from row rows (map Fin c)) <->
  exists r i, nth_error c i = Some r /\ r < 0 /\ k = S (row + i) /\ n = rows /\ v = Fin r.
Proof.
  induction c as [|x c IH]; intros row k n v; cbn [map violated_from].
  - split; [intros []|]. intros (r & [|i] & H & _); discriminate.
  - rewrite in_app_iff, IH. pose proof (xltb_fin x 0) as L. destruct (X_ltb (Fin x) (Fin 0)).
    + assert (Hx : x < 0) by (apply L; reflexivity). split.
      * intros [[E|[]]|(r & i & H & Hr & -> & -> & ->)].
        -- injection E as <- <- <-. exists x, O. rewrite Nat.add_0_r. auto 6.
        -- exists r, (S i). rewrite Nat.add_succ_r. auto 6.
      * intros (r & [|i] & H & Hr & -> & -> & ->); cbn in H.
        -- injection H as ->. left. left. rewrite Nat.add_0_r. reflexivity.
        -- right. exists r, i. rewrite Nat.add_succ_r. auto 6.
    + assert (Hx : ~ x < 0) by (rewrite <- L; discriminate). split.
      * intros [[]|(r & i & H & Hr & -> & -> & ->)]. exists r, (S i). rewrite Nat.add_succ_r. auto 6.
      * intros (r & [|i] & H & Hr & -> & -> & ->); cbn in H; [injection H as ->; contradiction|].
        right. exists r, i. rewrite Nat.add_succ_r. auto 6.
Qed.
Lemma violated_sorted rows (c : list R) : forall row i j ki kj ni nj vi vj, (i < j)%nat ->
  nth_error (violated_from row rows (map Fin c)) i = Some (ki, ni, vi) ->
  nth_error (violated_from row rows (map Fin c)) j = Some (kj, nj, vj) -> (ki < kj)%nat.
Proof.
  induction c as [|x c IH]; intros row i j ki kj ni nj vi vj Hij; cbn [map violated_from]; [destruct i; discriminate|].
  destruct (X_ltb (Fin x) (Fin 0)); [|apply IH; auto]. cbn [app]. destruct j as [|j]; [lia|]. cbn [nth_error].
  intros Hi Hj. destruct i as [|i]; cbn [nth_error] in Hi; [|eapply (IH _ i j); eauto; lia].
  injection Hi as <- _ _. apply nth_error_In, violated_in in Hj as (r & i & _ & _ & -> & _). lia.
Qed.

Lemma c65_inequality c : lists_rows (fun r => ~ r >= 0) c (print_c_i_local_infeasibility_error (map Fin c)).
Proof.
  unfold print_c_i_local_infeasibility_error, print_violated. rewrite map_length. split.
  - intros k n v. rewrite violated_in. split; intros (r & i & H & Hr & E); exists r, i; split; auto; split; auto; lra.
  - intros *. apply violated_sorted.
Qed.
Lemma c65_equality c : lists_rows (fun r => r < 0) c (print_c_e_local_infeasibility_error (map Fin c)).
Proof.
  unfold print_c_e_local_infeasibility_error, print_violated. rewrite map_length. split.
  - intros k n v. rewrite violated_in. reflexivity.
  - intros *. apply violated_sorted.
Qed.
Lemma c65_equality_refuted : exists c, ~ lists_rows (fun r => r <> 0) c (print_c_e_local_infeasibility_error (map Fin c)).
Proof.
  exists [1]. intros [H _]. assert (In (1%nat, 1%nat, Fin 1) (print_c_e_local_infeasibility_error (map Fin [1]))) as Hin.
  { apply H. exists 1, O. cbn. split; [auto|]. split; [lra|auto]. }
  revert Hin. unfold print_c_e_local_infeasibility_error, print_violated. cbn [map length violated_from].
  destruct (X_ltb (Fin 1) (Fin 0)) eqn:E; [apply xltb_fin in E; lra|]. cbn. auto.
Qed.

(** power_of_10. *)
Lemma read_sup_app l1 : forall acc l2,
  read_sup acc (l1 ++ l2) = match read_sup acc l1 with Some a => read_sup a l2 | None => None end.
Proof. induction l1 as [|[| d | | d] l1 IH]; intros acc l2; cbn; auto. Qed.

Lemma digits_ok fuel : forall n, (0 <= n)%Z -> (Z.to_nat n < fuel)%nat ->
  exists ds, digits fuel n = Ok ds /\ List.Forall (fun d => 0 <= d < 10)%Z ds /\
    (forall l acc, read_sup acc l = None \/ exists a, read_sup acc l = Some a) /\
    read_sup 0 (map Sup (rev ds)) = Some n /\ ds <> [].
Proof.
  induction fuel as [|fuel IH]; intros n Hn Hf; [lia|]. cbn [digits].
  pose proof (Z.div_mod n 10 ltac:(lia)) as Hdm. pose proof (Z.mod_pos_bound n 10 ltac:(lia)) as Hm.
  assert (Hq : (0 <= n / 10)%Z) by (apply Z.div_pos; lia).
  destruct (Z.ltb_spec 0 (n / 10)) as [Hlt|Hge].
  - destruct (IH (n / 10)%Z Hq) as (ds & -> & F & G & R & N); [lia|]. cbn [obind]. eexists. split; [reflexivity|].
    split; [apply List.Forall_cons; auto|]. split; [exact G|]. split; [|discriminate]. cbn [rev]. rewrite map_app, read_sup_app, R.
    cbn [map read_sup]. f_equal. lia.
  - eexists. split; [reflexivity|]. split; [apply List.Forall_cons; auto|]. split.
    + intros l acc. destruct (read_sup acc l) as [z|]; eauto.
    + split; [|discriminate]. cbn [rev app map read_sup]. f_equal. lia.
Qed.
Lemma superscripts_ok ds : List.Forall (fun d => 0 <= d < 10)%Z ds -> superscripts ds = Ok (map Sup ds).
Proof.
  induction 1 as [|d ds Hd _ IH]; cbn; [auto|]. destruct (Z.leb_spec 0 d); [|lia]. destruct (Z.ltb_spec d 10); [|lia].
  cbn. rewrite IH. reflexivity.
Qed.

Lemma pow10 e : powerRZ 10 e = Rpower 10 (IZR e).
Proof. apply powerRZ_Rpower. lra. Qed.
Lemma ln10 : 0 < ln 10. Proof. rewrite <- ln_1. apply ln_increasing; lra. Qed.
Lemma log10_inv v : 0 < v -> Rpower 10 (R_log10 v) = v.
Proof.
  intros Hv. pose proof ln10. unfold Rpower, R_log10. replace (ln v / ln 10 * ln 10) with (ln v) by (field; lra).
  apply exp_ln. auto.
Qed.
Lemma pow_lt a b : a < b -> Rpower 10 a < Rpower 10 b.
Proof. intros. apply Rpower_lt; lra. Qed.
Lemma pow_le a b : a <= b -> Rpower 10 a <= Rpower 10 b.
Proof. intros. apply Rle_Rpower; lra. Qed.

Lemma int_part x : IZR (Int_part x) <= x < IZR (Int_part x) + 1.
Proof. destruct (base_Int_part x). lra. Qed.
Lemma int_part_unique x n : IZR n <= x < IZR n + 1 -> Int_part x = n.
Proof.
  intros H. pose proof (int_part x).
  assert (A : IZR (Int_part x) < IZR (n + 1)) by (rewrite plus_IZR; lra).
  assert (B : IZR n < IZR (Int_part x + 1)) by (rewrite plus_IZR; lra). apply lt_IZR in A, B. lia.
Qed.

Lemma shown_pos l e : read_sup 0 l = Some e -> l <> [] -> shown_exponent ([Digit 1; Digit 0] ++ [] ++ l) = Some e.
Proof. destruct l as [|[| d | | d] l]; try discriminate; [congruence|]. intros H _. cbn in *. exact H. Qed.
Lemma shown_neg l e : read_sup 0 l = Some e -> l <> [] -> shown_exponent ([Digit 1; Digit 0] ++ [SupMinus] ++ l) = Some (- e)%Z.
Proof. destruct l as [|[| d | | d] l]; try discriminate; [congruence|]. intros H _. cbn in *. rewrite H. reflexivity. Qed.

Lemma c71 v : 0 < v -> exists l e, power_of_10 v = Ok l /\ shown_exponent l = Some e /\
  (1 <= v -> powerRZ 10 e <= v < powerRZ 10 (e + 1)) /\ (v < 1 -> powerRZ 10 (e - 1) < v <= powerRZ 10 e).
Proof.
  intros Hv. unfold power_of_10. destruct (Req_EM_T v 0) as [E|_]; [lra|]. destruct (Rlt_dec v 0) as [E|_]; [lra|].
  set (e := trunc (R_log10 v)). cbv zeta.
  assert (B : (1 <= v -> powerRZ 10 e <= v < powerRZ 10 (e + 1)) /\ (v < 1 -> powerRZ 10 (e - 1) < v <= powerRZ 10 e)).
  { pose proof ln10. split; intros H1.
    - assert (0 <= R_log10 v).
      { unfold R_log10. apply Rmult_le_pos; [|left; apply Rinv_0_lt_compat; lra].
        destruct H1 as [H1| <-]; [|rewrite ln_1; lra]. left. rewrite <- ln_1. apply ln_increasing; lra. }
      unfold e, trunc. destruct (Rle_dec 0 (R_log10 v)); [|lra]. pose proof (int_part (R_log10 v)).
      rewrite !pow10, plus_IZR. rewrite <- (log10_inv v Hv) at 2 3. split; [apply pow_le|apply pow_lt]; lra.
    - assert (R_log10 v < 0).
      { assert (ln v < ln 1) by (apply ln_increasing; lra). rewrite ln_1 in *. unfold R_log10, Rdiv.
        assert (0 < / ln 10) by (apply Rinv_0_lt_compat; lra). nra. }
      unfold e, trunc. destruct (Rle_dec 0 (R_log10 v)); [lra|]. pose proof (int_part (- R_log10 v)).
      rewrite !pow10, minus_IZR, opp_IZR. rewrite <- (log10_inv v Hv) at 2 3. split; [apply pow_lt|apply pow_le]; lra. }
  clearbody e.
  destruct (Z.eqb_spec e 0) as [->|N0]; [eexists _, _; split; [reflexivity|]; split; [reflexivity|exact B]|].
  destruct (Z.eqb_spec e 1) as [->|N1]; [eexists _, _; split; [reflexivity|]; split; [reflexivity|exact B]|].
  destruct (digits_ok (S (Z.to_nat (Z.abs e))) (Z.abs e)) as (ds & -> & F & _ & Rd & Nd); [lia|lia|]. cbn [obind].
  rewrite superscripts_ok by (apply Forall_rev; auto). cbn [obind].
  assert (Nm : map Sup (rev ds) <> []).
  { destruct ds as [|d ds] using rev_ind; [congruence|]. rewrite rev_app_distr. discriminate. }
  eexists _, e. split; [reflexivity|]. split; [|exact B].
  destruct (Z.ltb_spec e 0).
  - rewrite (shown_neg _ _ Rd Nm). f_equal. lia.
  - rewrite (shown_pos _ _ Rd Nm). f_equal. lia.
Qed.

(** histogram. *)
Lemma hist_full_ok fuel : forall index ipart, (index <= ipart)%Z -> (Z.to_nat (ipart - index) < fuel)%nat ->
  hist_full fuel index ipart = Ok (repeat 8%Z (Z.to_nat (ipart - index)), ipart).
Proof.
  induction fuel as [|fuel IH]; intros index ipart H Hf; [lia|]. cbn [hist_full]. destruct (Z.ltb_spec index ipart).
  - rewrite IH by lia. cbn [obind]. replace (Z.to_nat (ipart - index)) with (S (Z.to_nat (ipart - (index + 1)))) by lia. reflexivity.
  - assert (index = ipart) as -> by lia. rewrite Z.sub_diag. reflexivity.
Qed.
Lemma hist_pad_ok fuel : forall index width, (index <= width)%Z -> (Z.to_nat (width - index) < fuel)%nat ->
  hist_pad fuel index width = Ok (repeat 0%Z (Z.to_nat (width - index))).
Proof.
  induction fuel as [|fuel IH]; intros index width H Hf; [lia|]. cbn [hist_pad]. destruct (Z.ltb_spec index width).
  - rewrite IH by lia. cbn [obind]. replace (Z.to_nat (width - index)) with (S (Z.to_nat (width - (index + 1)))) by lia. reflexivity.
  - replace (width - index)%Z with 0%Z by lia. reflexivity.
Qed.
Lemma eighths_app a b : (eighths (a ++ b) = eighths a + eighths b)%Z.
Proof. induction a as [|x a IH]; [reflexivity|]. cbn [app eighths fold_right]. fold (eighths (a ++ b)) (eighths a). rewrite IH. ring. Qed.
Lemma eighths_repeat x n : (eighths (repeat x n) = x * Z.of_nat n)%Z.
Proof. induction n as [|n IH]; [cbn; ring|]. rewrite Nat2Z.inj_succ. cbn [repeat eighths fold_right]. fold (eighths (repeat x n)). rewrite IH. ring. Qed.

Lemma c72 width v : (0 < width)%Z -> exists l, histogram width v = Ok l /\ Z.of_nat (length l) = width /\ bar_shape l /\
  eighths l = Int_part (8 * IZR width * Rmax 0 (Rmin 1 v)).
Proof.
  intros Hw. unfold histogram. cbv zeta.
  set (w := if Rlt_dec v 0 then 0%R else if Rlt_dec 1 v then 1%R else v).
  assert (Ew : w = Rmax 0 (Rmin 1 v)).
  { unfold w, Rmax, Rmin. repeat destruct Rlt_dec; repeat destruct Rle_dec; lra. }
  assert (Bw : 0 <= w <= 1) by (unfold w; repeat destruct Rlt_dec; lra). rewrite <- Ew. clearbody w. clear Ew v.
  assert (HW : 0 < IZR width) by (apply (IZR_lt 0); lia).
  set (sc := w * IZR width). pose proof (int_part sc) as Hi. set (ip := Int_part sc) in *.
  pose proof (int_part ((sc - IZR ip) * 8)) as Hf. set (fp := Int_part ((sc - IZR ip) * 8)) in *.
  assert (Hsc : 0 <= sc <= IZR width) by (unfold sc; split; nra).
  assert (Hip : (0 <= ip <= width)%Z).
  { split; [|apply le_IZR; lra]. assert (A : IZR 0 < IZR (ip + 1)) by (rewrite plus_IZR; lra). apply lt_IZR in A. lia. }
  assert (Hfp : (0 <= fp < 8)%Z).
  { split.
    - assert (A : IZR 0 < IZR (fp + 1)) by (rewrite plus_IZR; lra). apply lt_IZR in A. lia.
    - apply lt_IZR. lra. }
  assert (Hroom : (0 < fp)%Z -> (ip < width)%Z).
  { intros Hp. apply lt_IZR. assert (A : IZR 1 <= IZR fp) by (apply IZR_le; lia). lra. }
  rewrite hist_full_ok by lia. cbn [obind]. rewrite Z.sub_0_r.
  assert (Eint : Int_part (8 * IZR width * w) = (8 * ip + fp)%Z).
  { apply int_part_unique. rewrite plus_IZR, mult_IZR. unfold sc in *. lra. }
  rewrite Eint. destruct (Z.ltb_spec 0 fp) as [Hp|Hp].
  - specialize (Hroom Hp). rewrite hist_pad_ok by lia. cbn [obind]. eexists. split; [reflexivity|]. split; [|split].
    + rewrite !app_length, !repeat_length. cbn [length]. lia.
    + eexists _, [fp], _. split; [reflexivity|]. right. exists fp. split; [auto|lia].
    + rewrite !eighths_app, !eighths_repeat. cbn -[Z.mul Z.of_nat]. lia.
  - rewrite hist_pad_ok by lia. cbn [obind]. eexists. split; [reflexivity|]. split; [|split].
    + rewrite !app_length, !repeat_length. cbn [length]. lia.
    + eexists _, [], _. split; [reflexivity|]. left. auto.
    + rewrite !eighths_app, !eighths_repeat. cbn -[Z.mul Z.of_nat]. lia.
Qed.
