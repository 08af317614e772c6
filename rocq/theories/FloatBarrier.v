(** Proofs for C53 in doubles. *)
From Coq Require Import ZArith Reals List Bool Lra Lia Psatz.
From Flocq Require Import Core IEEE754.BinarySingleNaN.
From Verif Require Import Base ExprModel ExprReal ExprXR NumModel UtilModel FilterModel FilterProofs SolverModel IpmModel FloatModel FloatSpec FloatArith FloatStep FloatProofs.
Import ListNotations.
Local Open Scope R_scope.

Lemma d_ltb_fin (a b : dbl) : is_finite a = true -> is_finite b = true -> (d_ltb a b = true <-> B2R a < B2R b).
Proof. intros A B. rewrite lt_X, (dX_fin _ A), (dX_fin _ B). apply R_ltb_true. Qed.
Lemma d_ltb_finF (a b : dbl) : is_finite a = true -> is_finite b = true -> (d_ltb a b = false <-> B2R b <= B2R a).
Proof. intros A B. rewrite lt_X, (dX_fin _ A), (dX_fin _ B). apply R_ltb_false. Qed.
Lemma d_leb_fin (a b : dbl) : is_finite a = true -> is_finite b = true -> (d_leb a b = true <-> B2R a <= B2R b).
Proof. intros A B. rewrite le_X, (dX_fin _ A), (dX_fin _ B). apply X_leb_fin. Qed.
Lemma fin_between (a : dbl) r s : X_ltb (Fin r) (dX a) = true -> X_ltb (dX a) (Fin s) = true -> is_finite a = true.
Proof. rewrite finite_dX. destruct (dX a); cbn; try discriminate; auto. Qed.
Lemma lit_le (a b : dbl) e : d_leb a (d_lit 1 e) = true -> is_finite a = true -> (-1074 <= e <= 900)%Z -> B2R a <= b2 e.
Proof. intros H F E. rewrite le_X, (dX_fin _ F), d_pow_X in H by exact E. apply X_leb_fin. exact H. Qed.

Section Barrier.
Context {M : libm}.
Variables (P : iprob (Dn M)) (o : options (Dn M)).
Notation k := (mu_min P o : dbl).
Hypothesis Fk : is_finite k = true.
Hypothesis Pk : 0 < B2R k.

Definition fifth : dbl := lit (S := Dn M) 2 1.
Lemma fifth_ok : is_finite fifth = true /\ 0 < B2R fifth <= b2 (-2).
Proof.
  assert (F : is_finite fifth = true) by (vm_compute; reflexivity). split; [exact F|]. split.
  - assert (L : d_ltb (d_ofZ 0) fifth = true) by (vm_compute; reflexivity). apply d_ltb_fin in L; [exact L|reflexivity|exact F].
  - apply (lit_le fifth fifth (-2)); [vm_compute; reflexivity|exact F|lia].
Qed.
Lemma next_d (mu : dbl) : is_finite mu = true -> 0 < B2R mu ->
  let m := (next_mu P o mu : dbl) in
  is_finite m = true /\ B2R k <= B2R m /\ (B2R m <= B2R k \/ B2R m <= rnd (B2R fifth * B2R mu)).
Proof.
  intros Fm Pm. cbv zeta. destruct fifth_ok as [F5 H5]. unfold next_mu. change (lit 2 1) with (fifth : Dn M). set (pw := s_pow (Dn M) mu (lit 15 1)).
  change (s_mul (Dn M) fifth mu) with (d_mul fifth mu). unfold smin, smax. change (s_ltb (Dn M)) with d_ltb.
  assert (D : dX (d_mul fifth mu) = Fin (rnd (B2R fifth * B2R mu))).
  { rewrite mul_X, (dX_fin _ F5), (dX_fin _ Fm). cbn [X_mul]. apply (rX_bounded _ (B2R mu)); [lra| |apply rnd_B2R|].
    - pose proof (lt_big mu) as L. rewrite Rabs_pos_eq in L by lra. exact L.
    - change (b2 (-2)) with (/ 4) in H5. rewrite Rabs_pos_eq by nra. nra. }
  destruct (fin_dX _ _ D) as [D1 D2]. set (q := d_mul fifth mu) in *. destruct (d_ltb pw q) eqn:C.
  - destruct (d_ltb k pw) eqn:C'; [|split; [exact Fk|lra]]. assert (Fp : is_finite pw = true). { rewrite lt_X in C, C'. rewrite (dX_fin _ Fk) in C'. rewrite D in C. eapply fin_between; eassumption. }
    split; [exact Fp|]. apply d_ltb_fin in C; auto. apply d_ltb_fin in C'; auto. rewrite D2 in C. lra.
  - destruct (d_ltb k q) eqn:C'; [|split; [exact Fk|lra]]. split; [exact D1|]. apply d_ltb_fin in C'; auto. rewrite D2 in *. lra.
Qed.
Lemma fifth_half (mu : dbl) e : 0 < B2R mu <= b2 e -> (-1073 <= e)%Z -> rnd (B2R fifth * B2R mu) <= b2 (e - 1).
Proof.
  intros H He. destruct fifth_ok as [_ H5]. change (b2 (-2)) with (/ 4) in H5. rewrite <- (rnd_bpow (e - 1)) by lia. apply rnd_le. unfold Z.sub. rewrite bpow_plus. change (b2 (Z.opp 1)) with (/ 2). nra.
Qed.
Lemma fifth_le (mu : dbl) : 0 < B2R mu -> rnd (B2R fifth * B2R mu) <= B2R mu.
Proof. intros H. destruct fifth_ok as [_ H5]. change (b2 (-2)) with (/ 4) in H5. rewrite <- (rnd_B2R mu) at 2. apply rnd_le. nra. Qed.
Lemma k_ge : b2 (-1074) <= B2R k.
Proof. rewrite <- (rnd_B2R k). destruct (Rle_dec (b2 (-1074)) (B2R k)) as [H|H]; [rewrite rnd_B2R; exact H|]. exfalso.
  assert (G : B2R k < b2 (-1074)) by lra. assert (E : pred radix2 fx (b2 (-1074)) < b2 (-1074)) by (apply pred_lt_id; pose proof (bpow_gt_0 radix2 (-1074)); lra).
  pose proof (pred_ge_gt radix2 fx (B2R k) (b2 (-1074)) (generic_format_B2R _ _ _) ltac:(apply generic_format_bpow; rewrite fx_FLT; unfold FLT_exp; lia) G) as K.
  assert (Z : pred radix2 fx (b2 (-1074)) = 0). { rewrite pred_bpow. change (fx (-1074)) with (-1074)%Z. lra. } lra.
Qed.
Lemma barrier_d n : forall fuel err (mu tau : dbl) flt, is_finite mu = true -> 0 < B2R mu -> B2R mu <= b2 (Z.of_nat n - 1074) -> (n + 1 < fuel)%nat ->
  exists m t f', barrier P o fuel err (mu : Dn M) (tau : Dn M) flt = Ok (m, t, f') /\ is_finite (m : dbl) = true /\ Rmin (B2R k) (B2R mu) <= B2R m <= B2R mu /\
    ((m = mu /\ t = tau) \/ (B2R m < B2R mu /\ t = tau_of (S := Dn M) m)).
Proof.
  induction n as [|n IH]; intros fuel err mu tau flt Fm Pm L F; (destruct fuel as [|fuel]; [lia|]); cbn [barrier]; change (s_ltb (Dn M)) with d_ltb.
  - assert (C : d_ltb k mu = false). { apply d_ltb_finF; auto. pose proof k_ge. change (Z.of_nat 0 - 1074)%Z with (-1074)%Z in L. lra. }
    rewrite C. cbn [andb]. exists mu, tau, flt. split; [reflexivity|]. split; [exact Fm|]. split; [pose proof (Rmin_r (B2R k) (B2R mu)); lra|left; auto].
  - destruct (d_ltb k mu) eqn:C; [|cbn [andb]; exists mu, tau, flt; split; [reflexivity|]; split; [exact Fm|]; split; [pose proof (Rmin_r (B2R k) (B2R mu)); lra|left; auto]].
    destruct (s_leb (Dn M) _ _); cbn [andb]; [|exists mu, tau, flt; split; [reflexivity|]; split; [exact Fm|]; split; [pose proof (Rmin_r (B2R k) (B2R mu)); lra|left; auto]].
    apply d_ltb_fin in C; auto. destruct (next_d mu Fm Pm) as (N1 & N2 & N3). set (m1 := next_mu P o mu : dbl) in *.
    assert (H1 : B2R m1 < B2R mu).
    { destruct N3 as [N3|N3]; [lra|]. destruct (Req_dec (B2R mu) (rnd (B2R fifth * B2R mu))) as [E|E]; [|pose proof (fifth_le mu Pm); lra].
      exfalso. destruct fifth_ok as [_ H5]. change (b2 (-2)) with (/ 4) in H5. set (f := B2R fifth) in *.
      assert (Q : rnd (f * B2R mu) <= B2R mu * / 2 + b2 (-1075)).
      { destruct (Rle_dec (b2 (-1022)) (f * B2R mu)) as [R1|R1].
        - pose proof (rnd_rel (f * B2R mu)) as K. rewrite (Rabs_pos_eq (f * B2R mu)) in K by nra. specialize (K R1). apply Rabs_le_inv in K. pose proof b2_53. pose proof (bpow_gt_0 radix2 (-1075)). nra.
        - pose proof (rnd_tiny (f * B2R mu)) as K. rewrite (Rabs_pos_eq (f * B2R mu)) in K by nra. specialize (K ltac:(lra)). apply Rabs_le_inv in K. nra. }
      assert (b2 (-1074) = 2 * b2 (-1075)). { change (-1074)%Z with (1 + (-1075))%Z. rewrite bpow_plus. reflexivity. }
      pose proof k_ge. lra. }
    destruct N3 as [N3|N3].
    { assert (C1 : d_ltb k m1 = false) by (apply d_ltb_finF; auto). destruct fuel as [|fuel]; [lia|]. cbn [barrier]. change (s_ltb (Dn M)) with d_ltb. rewrite C1. cbn [andb].
      exists m1, (tau_of (S := Dn M) m1), (filter_reset flt). split; [reflexivity|]. split; [exact N1|]. split; [rewrite Rmin_left by lra; lra|]. right. auto. }
    destruct (IH fuel err m1 (tau_of (S := Dn M) m1) (filter_reset flt) N1 ltac:(lra)) as (m & t & f' & E & A1 & A2 & A3); [|lia|].
    + eapply Rle_trans; [exact N3|]. replace (Z.of_nat n - 1074)%Z with (Z.of_nat (S n) - 1074 - 1)%Z by lia. apply fifth_half; [lra|lia].
    + exists m, t, f'. split; [exact E|]. split; [exact A1|]. split; [rewrite Rmin_left by lra; rewrite Rmin_left in A2 by lra; lra|].
      right. destruct A3 as [[-> ->]|[A3 ->]]; split; auto; lra.
Qed.
Lemma barrier_c53 fuel err (mu tau : dbl) flt : is_finite mu = true -> 0 < B2R mu -> (2101 <= fuel)%nat ->
  exists m t f', barrier P o fuel err (mu : Dn M) (tau : Dn M) flt = Ok (m, t, f') /\ is_finite (m : dbl) = true /\ Rmin (B2R k) (B2R mu) <= B2R m <= B2R mu /\
    ((m = mu /\ t = tau) \/ (B2R m < B2R mu /\ t = tau_of (S := Dn M) m)).
Proof.
  intros Fm Pm F. apply (barrier_d (Z.to_nat 2098)); auto; [|lia]. pose proof (lt_big mu) as L. rewrite Rabs_pos_eq in L by lra. apply Rlt_le.
  rewrite Z2Nat.id by lia. exact L.
Qed.
End Barrier.

(** ** tau *)
Section Tau.
Context {M : libm}.
Definition t99 : dbl := tau_min (S := Dn M).
Lemma t99_ok : is_finite t99 = true /\ B2R t99 <= 1 - b2 (-7) /\ 98 / 100 <= B2R t99.
Proof.
  assert (F : is_finite t99 = true) by (vm_compute; reflexivity). split; [exact F|]. split.
  - assert (L : d_leb t99 (d_lit 127 (-7)) = true) by (vm_compute; reflexivity). rewrite le_X, (dX_fin _ F), d_lit_X in L by (try lia; reflexivity). apply X_leb_fin in L.
    change (b2 (-7)) with (/ 128) in *. lra.
  - assert (L : d_leb (d_lit 126 (-7)) t99 = true) by (vm_compute; reflexivity). rewrite le_X, (dX_fin _ F), d_lit_X in L by (try lia; reflexivity). apply X_leb_fin in L.
    change (b2 (-7)) with (/ 128) in *. lra.
Qed.
Lemma one_X : dX (d_ofZ 1) = Fin 1.
Proof. change (d_ofZ 1) with (d_lit 1 0). rewrite d_pow_X by lia. reflexivity. Qed.
Lemma tau_d (m : dbl) e : is_finite m = true -> b2 e <= B2R m <= 2 -> (-53 <= e <= -7)%Z ->
  let t := (tau_of (S := Dn M) m : dbl) in is_finite t = true /\ B2R t99 <= B2R t <= 1 - b2 e.
Proof.
  intros F H He. cbv zeta. destruct t99_ok as (F9 & H9 & _). unfold tau_of. fold t99. change (s_sub (Dn M) (s_ofZ (Dn M) 1) m) with (d_sub (d_ofZ 1) m). unfold smax. change (s_ltb (Dn M)) with d_ltb.
  assert (D : dX (d_sub (d_ofZ 1) m) = Fin (rnd (1 - B2R m))).
  { rewrite sub_X, one_X, (dX_fin _ F). unfold X_sub. cbn [X_opp X_add]. replace (1 + - B2R m) with (1 - B2R m) by lra. apply rX_small. pose proof (bpow_gt_0 radix2 e). apply Rle_trans with (b2 1); [apply Rabs_le; change (b2 1) with 2; lra|apply bpow_le; lia]. }
  destruct (fin_dX _ _ D) as [D1 D2].
  assert (E : rnd (1 - B2R m) <= 1 - b2 e).
  { replace (1 - b2 e) with (rnd (1 - b2 e)); [apply rnd_le; lra|]. apply round_generic; [apply valid_rnd_round_mode|]. rewrite fx_FLT. apply generic_format_FLT.
    exists (Float radix2 (2 ^ (- e) - 1) e); [|cbn [Fnum]|cbn; lia].
    - unfold F2R. cbn [Fnum Fexp]. rewrite minus_IZR. change (IZR (2 ^ (- e))) with (IZR (radix2 ^ (- e))). rewrite IZR_Zpower by lia. rewrite Rmult_minus_distr_r, <- bpow_plus. replace (- e + e)%Z with 0%Z by lia. cbn [bpow]. lra.
    - assert (2 ^ (- e) <= 2 ^ 53)%Z by (apply Z.pow_le_mono_r; lia). assert (0 < 2 ^ (- e))%Z by (apply Z.pow_pos_nonneg; lia). change (Z.pow (radix_val radix2) 53) with (2 ^ 53)%Z. lia. }
  assert (E7 : b2 e <= b2 (-7)) by (apply bpow_le; lia).
  destruct (d_ltb t99 (d_sub (d_ofZ 1) m)) eqn:C.
  - apply d_ltb_fin in C; auto. rewrite D2 in *. split; [exact D1|lra].
  - split; [exact F9|lra].
Qed.
(** A barrier parameter of 2^-54 gives tau = 1. *)
Lemma tau_one : tau_of (S := Dn M) (d_lit 1 (-54)) = (d_ofZ 1 : dbl).
Proof. apply B2SF_inj. vm_compute. reflexivity. Qed.
End Tau.
Lemma c53_tau (M : libm) (P : iprob (Dn M)) (o : options (Dn M)) fuel err (mu tau : dbl) flt e :
  is_finite (mu_min P o : dbl) = true -> is_finite mu = true -> (-53 <= e <= -7)%Z -> two_to e <= B2R (mu_min P o : dbl) -> two_to e <= B2R mu <= 2 ->
  is_finite tau = true -> B2R (d_lit 126 (-7)) <= B2R tau <= 1 - two_to e -> (2101 <= fuel)%nat ->
  exists m t f', barrier P o fuel err (mu : Dn M) (tau : Dn M) flt = Ok (m, t, f') /\ two_to e <= B2R (m : dbl) <= 2 /\
    is_finite (t : dbl) = true /\ B2R (d_lit 126 (-7)) <= B2R (t : dbl) <= 1 - two_to e.
Proof.
  intros Fk Fm He Hk Hm Ft Ht Hf. pose proof (bpow_gt_0 radix2 e) as Pe. fold (two_to e) in Pe.
  destruct (barrier_c53 P o Fk ltac:(lra) fuel err mu tau flt Fm ltac:(lra) Hf) as (m & t & f' & A & B & C & D). exists m, t, f'. split; [exact A|].
  assert (L : two_to e <= B2R (m : dbl)) by (pose proof (Rmin_glb _ _ _ Hk (proj1 Hm)); lra). split; [lra|].
  destruct D as [[-> ->]|[_ ->]]; [auto|]. destruct (tau_d (M := M) m e B ltac:(unfold two_to in *; lra) He) as [T1 T2]. split; [exact T1|].
  split; [|apply T2]. eapply Rle_trans; [|apply T2]. destruct (t99_ok (M := M)) as (F9 & _ & _). apply d_leb_fin; [vm_compute; reflexivity|exact F9|vm_compute; reflexivity].
Qed.
Lemma floor_wins (M : libm) (k q pw : dbl) : is_finite k = true -> is_finite q = true -> d_ltb k q = false -> smax (S := Dn M) k (smin (S := Dn M) q pw) = k.
Proof.
  intros Fk Fq K. unfold smax, smin. change (s_ltb (Dn M)) with d_ltb. destruct (d_ltb pw q) eqn:C; [|rewrite K; reflexivity]. destruct (d_ltb k pw) eqn:C'; [|reflexivity]. exfalso.
  assert (Fp : is_finite pw = true). { rewrite lt_X in C, C'. rewrite (dX_fin _ Fk) in C'. rewrite (dX_fin _ Fq) in C. eapply fin_between; eassumption. }
  apply d_ltb_fin in C; auto. apply d_ltb_fin in C'; auto. apply d_ltb_finF in K; auto. lra.
Qed.
Definition tight (M : libm) : options (Dn M) := mkOpt (S := Dn M) (lit (S := Dn M) 1 16) 100 (d_ofZ 5) false.
Lemma c53_ref_d (M : libm) : exists (P : iprob (Dn M)) (o : options (Dn M)) (mu tau : dbl) t,
  o_tol o = lit (S := Dn M) 1 16 /\ sc_f (ip_sc P) = (d_ofZ 1 : dbl) /\ d_ltb (mu_min P o) mu = true /\ d_ltb tau (d_ofZ 1) = true /\
  (forall fuel flt, (2 <= fuel)%nat -> exists m f', barrier P o fuel (fun _ => d_ofZ 0 : Dn M) (mu : Dn M) (tau : Dn M) flt = Ok (m, t, f')) /\
  t = (d_ofZ 1 : dbl) /\ ftb (S := Dn M) [d_ofZ 1] [d_lit (-1) 1] t = (d_lit 1 (-1) : dbl) /\ moved (d_ofZ 1) (d_lit 1 (-1)) (d_lit (-1) 1) = d_ofZ 0.
Proof.
  exists (sq_d M), (tight M), (lit (S := Dn M) 2 17), (lit (S := Dn M) 99 2), (d_ofZ 1).
  split; [reflexivity|]. split; [reflexivity|]. split; [vm_compute; reflexivity|]. split; [vm_compute; reflexivity|]. split; [|split; [reflexivity|split; apply B2SF_inj; vm_compute; reflexivity]].
  intros fuel flt Hf. set (mu := (lit (S := Dn M) 2 17 : dbl)).
  assert (Nx : next_mu (sq_d M) (tight M) mu = mu_min (sq_d M) (tight M)).
  { apply floor_wins; vm_compute; reflexivity. }
  destruct fuel as [|[|fuel]]; [lia|lia|]. cbn [barrier].
  assert (C1 : s_ltb (Dn M) (mu_min (sq_d M) (tight M)) mu = true) by (vm_compute; reflexivity). rewrite C1.
  assert (C2 : s_leb (Dn M) (d_ofZ 0) (s_mul (Dn M) (s_ofZ (Dn M) 10) mu) = true) by (vm_compute; reflexivity). rewrite C2. cbn [andb]. rewrite Nx.
  assert (C3 : s_ltb (Dn M) (mu_min (sq_d M) (tight M)) (mu_min (sq_d M) (tight M)) = false) by (vm_compute; reflexivity). rewrite C3. cbn [andb].
  eexists _, _. f_equal. f_equal. f_equal. apply B2SF_inj. vm_compute. reflexivity.
Qed.
Lemma c53_ex_d (M : libm) : is_finite (mu_min (sq_d M) (opt_d M) : dbl) = true /\ two_to (-40) <= B2R (mu_min (sq_d M) (opt_d M) : dbl) /\
  is_finite (lit (S := Dn M) 1 1 : dbl) = true /\ two_to (-40) <= B2R (lit (S := Dn M) 1 1 : dbl) <= 2 /\
  is_finite (lit (S := Dn M) 99 2 : dbl) = true /\ B2R (d_lit 126 (-7)) <= B2R (lit (S := Dn M) 99 2 : dbl) <= 1 - two_to (-40).
Proof.
  assert (L : forall a b : dbl, is_finite a = true -> is_finite b = true -> d_leb a b = true -> B2R a <= B2R b) by (intros a b A B; apply d_leb_fin; auto).
  assert (E40 : B2R (d_lit 1 (-40)) = two_to (-40)) by exact (proj2 (fin_dX _ _ (d_pow_X (-40) ltac:(lia)))). rewrite <- E40.
  assert (E2 : B2R (d_lit 1 1) = 2) by exact (proj2 (fin_dX _ _ (d_pow_X 1 ltac:(lia)))).
  repeat (split; [vm_compute; reflexivity|]). split; [apply L; vm_compute; reflexivity|]. split; [vm_compute; reflexivity|].
  split; [split; [apply L; vm_compute; reflexivity|rewrite <- E2; apply L; vm_compute; reflexivity]|].
  split; [vm_compute; reflexivity|]. split; [apply L; vm_compute; reflexivity|]. rewrite E40. destruct (half_bounds M) as [_ H]. assert (two_to (-40) <= two_to (-7)) by (apply bpow_le; lia). change (two_to (-7)) with (/ 128) in *. lra.
Qed.
