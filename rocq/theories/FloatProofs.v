(** Proofs for the theorems about doubles. *)
From Coq Require Import ZArith Reals List Bool Lra Lia Psatz.
From Flocq Require Import Core IEEE754.BinarySingleNaN.
From Verif Require Import Base ExprModel ExprReal ExprXR NumModel UtilModel KktModel FilterModel FilterSpec FilterProofs ExitModel SolverModel NewtonModel
  SolverSpec SolverProofs NewtonSpec NewtonProofs SqpModel IpmModel FloatModel FloatSpec FloatArith FloatStep TermProofs.
Import ListNotations.
Local Open Scope R_scope.

(** ** Literals *)
Lemma d_lit_X m e : (Z.abs m < 2 ^ 53)%Z -> (-1074 <= e <= 900)%Z -> dX (d_lit m e) = Fin (IZR m * b2 e).
Proof.
  intros Hm He. pose proof (binary_normalize_correct prec emax prec_gt_0 prec_lt_emax mode_NE m e false) as C. cbv zeta in C.
  assert (G : generic_format radix2 fx (F2R (Float radix2 m e))).
  { rewrite fx_FLT. apply generic_format_FLT. exists (Float radix2 m e); [reflexivity|exact Hm|cbn; lia]. }
  change (SpecFloat.fexp prec emax) with fx in C. rewrite round_generic in C by (try apply valid_rnd_round_mode; exact G).
  rewrite Rlt_bool_true in C.
  - destruct C as (C1 & C2 & _). unfold d_lit. rewrite dX_fin by exact C2. rewrite C1. reflexivity.
  - apply Rlt_le_trans with (b2 (53 + 900)); [|apply bpow_le; unfold emax; lia]. rewrite <- F2R_Zabs. unfold F2R. cbn [Fnum Fexp].
    apply Rlt_le_trans with (b2 53 * b2 e); [apply Rmult_lt_compat_r; [apply bpow_gt_0|]|rewrite <- bpow_plus; apply bpow_le; lia].
    change (b2 53) with (IZR (2 ^ 53)). apply IZR_lt. exact Hm.
Qed.
Lemma d_pow_X e : (-1074 <= e <= 900)%Z -> dX (d_lit 1 e) = Fin (b2 e).
Proof. intros H. rewrite d_lit_X by (try exact H; reflexivity). f_equal. lra. Qed.

(** ** C43 *)
Lemma de48 : two_to (-48) = 2 * de.
Proof. unfold two_to, de. change (-48)%Z with (1 + (-49))%Z. rewrite bpow_plus. reflexivity. Qed.
Lemma de_small : de <= 1 / 1000.
Proof. unfold de. pose proof b2_53. rewrite b2_49. lra. Qed.
Lemma pow_le2 n : INR n * de <= 1 / 4 -> (1 + de) ^ n <= 1 + INR n * (2 * de).
Proof.
  intros H. pose proof de_pos as P. pose proof (pos_INR n) as Pn. pose proof (grow_bound n ltac:(lra)) as G. set (t := INR n * de) in *. set (g := (1 + de) ^ n) in *.
  assert (0 <= t) by (unfold t; nra). replace (INR n * (2 * de)) with (2 * t) by (unfold t; ring).
  apply Rmult_le_reg_r with (1 - t); [lra|]. eapply Rle_trans; [exact G|]. nra.
Qed.
Lemma blocks_stops tau v w (a : dbl) : 0 < B2R v -> 0 < tau -> blocks tau (B2R a) (v, w) -> 0 <= B2R a -> stops_at tau v w a.
Proof.
  intros Pv Pt [H|(Fw & Nw & H)] Pa; [left; exact H|right]. split; [exact Fw|]. split; [exact Nw|]. intros b Hb. pose proof de_small as D. pose proof de_pos as D'.
  rewrite de48 in Hb. set (q := tau * B2R v / - B2R w) in *. assert (Q : q * - B2R w = tau * B2R v) by (unfold q; field; lra). rewrite <- Q.
  apply Rle_ge, Rmult_le_compat_r; [lra|]. apply Rle_trans with (2 := Hb).
  assert (T : two_to (-1073) = 2 * b2 (-1074)). { unfold two_to. change (-1073)%Z with (1 + (-1074))%Z. rewrite bpow_plus. reflexivity. }
  rewrite T. pose proof (bpow_gt_0 radix2 (-1074)) as P. set (e := b2 (-1074)) in *.
  assert (0 < q). { unfold q. apply Rmult_lt_0_compat; [nra|apply Rinv_0_lt_compat; lra]. }
  apply Rmult_le_reg_r with (1 - de); [lra|]. eapply Rle_trans; [exact H|].
  assert (O1 : 1 <= (1 + 2 * de) * (1 - de)) by nra. assert (B2R a <= B2R a * ((1 + 2 * de) * (1 - de))) by nra. assert (e <= 2 * e * (1 - de)) by nra.
  replace ((B2R a * (1 + 2 * de) + 2 * e) * (1 - de)) with (B2R a * ((1 + 2 * de) * (1 - de)) + 2 * e * (1 - de)) by ring. lra.
Qed.
Lemma Forall2_nth {A B} (P : A -> B -> Prop) l l' : List.Forall2 P l l' -> forall i a b, nth_error l i = Some a -> nth_error l' i = Some b -> P a b.
Proof. induction 1; intros [|i] x0 y0 E1 E2; cbn in *; try discriminate; [congruence|eauto]. Qed.
Lemma c43_d (M : libm) (x p : list dbl) (tau : dbl) :
  (forall v, In v x -> is_finite v = true /\ two_to (-1000) <= B2R v) -> length x = length p ->
  is_finite tau = true -> 1 / 2 <= B2R tau < 1 -> INR (length x) * two_to (-48) <= 1 - B2R tau - two_to (-52) ->
  let a := ftb (S := Dn M) x p tau in
  is_finite a = true /\ 0 <= B2R a <= 1 + INR (length x) * two_to (-48) /\
  (two_to (-1021) < B2R a -> forall i v w, nth_error x i = Some v -> nth_error p i = Some w -> is_finite w = true ->
     d_ltb (d_ofZ 0) (moved v a w) = true /\ (B2R w <= 0 -> is_finite (moved v a w) = true)) /\
  (a = d_ofZ 1 \/ exists i v w, nth_error x i = Some v /\ nth_error p i = Some w /\ stops_at (B2R tau) v w a).
Proof.
  intros Hx L Ft Ht Hn. cbv zeta. set (n := length x) in *. pose proof de_pos as Pd. pose proof (pos_INR n) as Pn. rewrite de48 in Hn |- *.
  assert (P52 : 0 < two_to (-52)) by apply bpow_gt_0.
  assert (N4 : INR n * de <= 1 / 4) by lra. pose proof (pow_le2 n N4) as G2. pose proof (grow_ge1 n) as G1. set (g := (1 + de) ^ n) in *.
  assert (F : List.Forall (fun v => is_finite v = true /\ b2 (-1000) <= B2R v) x) by (apply List.Forall_forall; exact Hx).
  assert (One : dX (d_ofZ 1) = Fin 1). { change (d_ofZ 1) with (Bone : dbl). rewrite dX_fin by reflexivity. f_equal. apply Bone_correct. }
  apply fin_dX in One. destruct One as [F1 V1].
  assert (Mx : Rmax tiny_d (B2R (d_ofZ 1)) = 1) by (rewrite V1; apply Rmax_right, tiny_lt1).
  assert (T4 : 2 * (INR n * de) <= 1 / 2) by lra.
  destruct (ftb_from_D (M := M) tau Ft Ht x p (d_ofZ 1) F L F1 ltac:(lra)) as (A1 & A2 & A3 & A4 & A5).
  { rewrite Mx. fold n g. lra. }
  rewrite Mx in A3. fold n g in A3, A4. change (ftb_from (S := Dn M) x p tau (d_ofZ 1)) with (ftb (S := Dn M) x p tau) in *.
  set (a := ftb (S := Dn M) x p tau) in *. split; [exact A1|]. split; [lra|].
  assert (Ge : B2R tau * g <= 1 - b2 (-52)).
  { fold (two_to (-52)). pose proof (grow_bound n ltac:(lra)) as G. fold g in G. replace (INR n * (2 * de)) with (2 * (INR n * de)) in * by ring. set (t := INR n * de) in *.
    assert (0 <= t) by (unfold t; nra). apply Rle_trans with ((1 - 2 * t - two_to (-52)) * g); [apply Rmult_le_compat_r; lra|].
    set (w := two_to (-52)) in *. assert (Q : (1 - 2 * t - w) * g = g * (1 - t) - g * t - w * g) by ring. assert (w <= w * g) by nra. assert (0 <= g * t) by nra. lra. }
  split.
  - intros Big i v w E1 E2 Fw. pose proof (nth_error_In _ _ E1) as Iv. destruct (Hx v Iv) as [Fv Hv]. pose proof (Forall2_nth _ _ _ A4 i v w E1 E2) as Hh.
    unfold moved. apply (moved_pos tau v w a g Fv Hv A1 A2 Fw); [|exact Ge].
    destruct Hh as [Hh|[Hh|[Hh|[_ Hh]]]]; [|subst w; discriminate|subst w; discriminate|exact Hh].
    exfalso. assert (two_to (-1021) = 2 * tiny_d). { unfold two_to, tiny_d. change (-1021)%Z with (1 + (-1022))%Z. rewrite bpow_plus. reflexivity. }
    pose proof tiny_pos. assert (g <= 3 / 2) by lra. assert (tiny_d * g <= tiny_d * (3 / 2)) by nra. lra.
  - destruct A5 as [A5|([v w] & I & B)]; [left; exact A5|right].
    apply In_nth_error in I. destruct I as [i I].
    assert (C : forall (x p : list dbl) i, nth_error (combine x p) i = Some (v, w) -> nth_error x i = Some v /\ nth_error p i = Some w).
    { clear. induction x as [|? ? IH]; intros [|? ?] [|i] H; cbn in *; try discriminate; [injection H as <- <-; auto|]. apply IH, H. }
    destruct (C _ _ _ I) as [E1 E2]. exists i, v, w. split; [exact E1|]. split; [exact E2|]. apply blocks_stops; auto; [|lra].
    destruct (Hx v (nth_error_In _ _ E1)) as [_ Hv]. pose proof (bpow_gt_0 radix2 (-1000)). unfold two_to in Hv. lra.
Qed.

(** Slack 2^-1074, direction -2^-1073, tau = 0.99: the quotient overflows. *)
Lemma c43_inf (M : libm) : ftb (S := Dn M) [d_lit 1 (-1074)] [d_lit (-1) (-1073)] (lit (S := Dn M) 99 2) = B754_infinity false.
Proof. vm_compute. reflexivity. Qed.
(** Slack 2^-100, direction -13 * 2^971: the step rounds up to 2^-1074 and the slack turns negative. *)
Lemma c43_neg (M : libm) : let v := d_lit 1 (-100) in let w := d_lit (-13) 971 in
  let a := ftb (S := Dn M) [v] [w] (lit (S := Dn M) 99 2) in
  B2R v = two_to (-100) /\ is_finite w = true /\ a = d_lit 1 (-1074) /\ d_ltb (moved v a w) (d_ofZ 0) = true.
Proof.
  cbv zeta. split; [|split; [vm_compute; reflexivity|split; [|vm_compute; reflexivity]]].
  - apply (fin_dX _ _ (d_pow_X (-100) ltac:(lia))).
  - apply B2SF_inj. vm_compute. reflexivity.
Qed.

(** ** C44, C45 *)
Lemma Dn_trans (M : libm) : trans_leb (Dn M).
Proof. intros a b c. cbn [s_leb Dn nbase D_ops]. rewrite !le_X. apply (Xn_trans (dX a) (dX b) (dX c)). Qed.

(** ** C50 *)
Lemma newton_small (M : libm) : s_ltb (Dn M) (halves (S := Dn M) 67 (s_ofZ (Dn M) 1)) (n_amin (S := Dn M)) = true.
Proof. vm_compute. reflexivity. Qed.
Lemma c50_d (M : libm) (U : Type) (E : env (Dn M)) (P : nprob (Dn M)) (cbs : list (callback (Dn M) U)) (o : options (Dn M)) x0 u clk fuel :
  length (np_g P x0) = np_n P -> mat_dims (np_n P) (np_n P) (np_H P x0) = true ->
  (67 <= fuel)%nat -> (Z.to_nat (o_max o) < fuel)%nat -> exists r, newton E P cbs o fuel x0 u clk = Ok r.
Proof. intros H1 H2 H3 H4. exact (newton_total E P cbs o 66 x0 u clk fuel (newton_small M) H3 H4 H1 H2). Qed.

(** ** Line searches *)
Lemma ssearch_d (M : libm) (E : env (Dn M)) (P : sprob (Dn M)) c d flt cnt :
  exists r, forall n, (25 <= n)%nat -> sqp_search E P n c d (s_ofZ (Dn M) 1) flt cnt = Ok r.
Proof. apply (search_stops (fun n a flt cnt => sqp_search E P n c d a flt cnt) (ssearch_step E P c d) 23). vm_compute. reflexivity. Qed.

Lemma half_X (M : libm) (a : dbl) r : is_finite a = true -> 0 <= B2R a <= b2 r -> (-1000 <= r <= 2)%Z ->
  is_finite (halve (S := Dn M) a) = true /\ 0 <= B2R (halve (S := Dn M) a) <= b2 (r - 1).
Proof.
  intros Fa Ha Hr. assert (L : lit (S := Dn M) 5 1 = (d_lit 1 (-1) : dbl)) by (apply B2SF_inj; vm_compute; reflexivity).
  unfold halve. rewrite L. cbn [s_mul Dn nbase D_ops].
  assert (V : dX (d_lit 1 (-1)) = Fin (/ 2)) by exact (d_pow_X (-1) ltac:(lia)).
  assert (Q : b2 (r - 1) = b2 r * / 2). { unfold Z.sub. rewrite bpow_plus. reflexivity. }
  assert (D : dX (d_mul a (d_lit 1 (-1))) = Fin (rnd (B2R a * / 2))).
  { rewrite mul_X, V, (dX_fin _ Fa). cbn [X_mul]. apply rX_small. rewrite Rabs_pos_eq by lra. apply Rle_trans with (b2 r); [lra|]. apply bpow_le. lia. }
  apply fin_dX in D. destruct D as [D1 D2]. split; [exact D1|]. rewrite D2. split; [apply rnd_ge0; lra|].
  rewrite <- (rnd_bpow (r - 1)) by lia. apply rnd_le. lra.
Qed.
Lemma halves_X (M : libm) k : forall (a : dbl) r, is_finite a = true -> 0 <= B2R a <= b2 r -> (-900 <= r <= 2)%Z -> (Z.of_nat k <= 100)%Z ->
  is_finite (halves (S := Dn M) k a) = true /\ 0 <= B2R (halves (S := Dn M) k a) <= b2 (r - Z.of_nat k).
Proof.
  induction k as [|k IH]; intros a r Fa Ha Hr Hk; [cbn; rewrite Z.sub_0_r; auto|].
  destruct (IH a r Fa Ha Hr ltac:(lia)) as [I1 I2]. rewrite halves_S'. replace (r - Z.of_nat (S k))%Z with (r - Z.of_nat k - 1)%Z by lia. apply half_X; auto. lia.
Qed.
Lemma small_d (M : libm) (a : dbl) : is_finite a = true -> 0 <= B2R a <= 2 -> small_in (N := Dn M) 25 (a : Dn M).
Proof.
  intros Fa Ha. destruct (halves_X M 25 a 1 Fa Ha ltac:(lia) ltac:(lia)) as [H1 H2]. unfold small_in. cbn [s_ltb Dn nbase D_ops].
  rewrite lt_X, (dX_fin _ H1). assert (T : X_ltb (dX (d_lit 1 (-24))) (dX (amin (S := Dn M))) = true) by (rewrite <- lt_X; vm_compute; reflexivity).
  pose proof (d_pow_X (-24) ltac:(lia)) as V.
  rewrite V in T. revert T. generalize (dX (amin (S := Dn M))). change (1 - Z.of_nat 25)%Z with (-24)%Z in H2. revert H2. generalize (B2R (halves (S := Dn M) 25 a)). generalize (b2 (-24)).
  clear. intros e h H2 x T. destruct x as [r| | |]; [|reflexivity|discriminate|discriminate]. cbn [X_ltb] in *. unfold R_ltb in *. destruct (Rlt_dec e r) as [L|]; [|discriminate]. destruct (Rlt_dec h r); [reflexivity|lra].
Qed.
Lemma isearch_d (M : libm) (E : env (Dn M)) (P : iprob (Dn M)) (o : options (Dn M)) c d dphi az (a : dbl) flt cnt : is_finite a = true -> 0 <= B2R a <= 2 ->
  exists r, forall n, (26 <= n)%nat -> ipm_search E P o n c d dphi (a : Dn M) az (a : Dn M) flt cnt = Ok r.
Proof. intros Fa H. apply (search_stops (fun n b flt cnt => ipm_search E P o n c d dphi (a : Dn M) az b flt cnt) (isearch_step E P o c d dphi _ az) 24). apply small_d; auto. Qed.
Lemma c55_search_d (M : libm) (E : env (Dn M)) (P : iprob (Dn M)) (o : options (Dn M)) (c : ictx E) (d : istep (S := Dn M)) dphi az flt cnt :
  let tau := (ix_tau _ c : dbl) in let s := (ix_s _ c : list dbl) in
  (forall v, In v s -> is_finite v = true /\ two_to (-1000) <= B2R v) -> length s = length (p_s d) ->
  is_finite tau = true -> 1 / 2 <= B2R tau < 1 -> INR (length s) * two_to (-48) <= 1 - B2R tau - two_to (-52) ->
  let a := ftb (S := Dn M) s (p_s d) tau in
  exists r, forall n, (26 <= n)%nat -> ipm_search E P o n c d dphi a az a flt cnt = Ok r.
Proof.
  cbv zeta. intros H1 H2 H3 H4 H5. destruct (c43_d M _ _ _ H1 H2 H3 H4 H5) as (A1 & A2 & _). apply isearch_d; [exact A1|].
  pose proof (bpow_gt_0 radix2 (-52)) as P52. fold (two_to (-52)) in P52. split; [apply A2|]. destruct A2 as [_ A2]. eapply Rle_trans; [exact A2|]. lra.
Qed.

(** A search that starts from an infinite step. *)
Definition any_env (M : libm) : env (Dn M) :=
  mkEnv (S := Dn M) (mkLin (S := Dn M) unit (fun _ _ _ => tt) (fun t _ => (t, true)) (fun _ r => r)) (fun _ => d_ofZ 0) (fun _ v => v).
(** minimize x^2 subject to x >= 0. *)
Definition sq_d (M : libm) : iprob (Dn M) :=
  let h (x : list dbl) := List.hd (d_ofZ 0) x in
  mkIP (S := Dn M) 1 0 1 (fun x => d_mul (h x) (h x)) (fun x => [d_mul (d_ofZ 2) (h x)]) (fun _ _ _ => [[d_ofZ 2]]) (fun _ _ _ => [[d_ofZ 0]])
    (fun _ => []) (fun _ => []) (fun x => [h x]) (fun _ => [[d_ofZ 1]]) (mkSc (S := Dn M) (d_ofZ 1) [] [d_ofZ 1]).
Definition opt_d (M : libm) : options (Dn M) := mkOpt (S := Dn M) (lit (S := Dn M) 1 8) 100 (d_ofZ 5) false.
Definition ctx_d (M : libm) : ictx (any_env M) :=
  mkIX (S := Dn M) (any_env M) [d_lit 1 (-1074)] [d_lit 1 (-1074)] [] [d_ofZ 1] (d_ofZ 0) [d_ofZ 0] [] [] [d_lit 1 (-1074)] [[d_ofZ 1]] (lit (S := Dn M) 1 1) (lit (S := Dn M) 99 2) tt.
Definition dir_d (M : libm) : istep (S := Dn M) := mkStep (S := Dn M) [d_lit (-1) (-1073)] [d_lit (-1) (-1073)] [] [d_ofZ 0].
Lemma search_inf (M : libm) dphi (az : dbl) flt cnt : forall n,
  ipm_search (any_env M) (sq_d M) (opt_d M) n (ctx_d M) (dir_d M) dphi (B754_infinity false : dbl) az (B754_infinity false : dbl) flt cnt = OutOfFuel.
Proof.
  induction n as [|n IH]; [reflexivity|]. cbn [ipm_search].
  assert (T : s_finite (Dn M) (it_f (ipm_trial_main (any_env M) (sq_d M) (opt_d M) (ctx_d M) (dir_d M) (B754_infinity false : dbl) az)) = false) by (vm_compute; reflexivity).
  rewrite T. cbn [negb orb]. cbv zeta.
  assert (H : halve (S := Dn M) (B754_infinity false : dbl) = (B754_infinity false : dbl)) by (vm_compute; reflexivity). rewrite H.
  assert (L : s_ltb (Dn M) (B754_infinity false : dbl) (amin (S := Dn M)) = false) by (vm_compute; reflexivity). rewrite L. exact IH.
Qed.
Lemma c55_ref_d (M : libm) : exists (E : env (Dn M)) (P : iprob (Dn M)) (o : options (Dn M)) (c : ictx E) (d : istep (S := Dn M)) (v : dbl),
  ix_s _ c = [v] /\ d_ltb (d_ofZ 0) v = true /\ all_fin (S := Dn M) (p_s d) = true /\
  forall dphi (az : dbl) flt cnt n, let a := ftb (S := Dn M) (ix_s _ c) (p_s d) (ix_tau _ c) in ipm_search E P o n c d dphi a az a flt cnt = OutOfFuel.
Proof.
  exists (any_env M), (sq_d M), (opt_d M), (ctx_d M), (dir_d M), (d_lit 1 (-1074)). split; [reflexivity|]. split; [vm_compute; reflexivity|]. split; [vm_compute; reflexivity|].
  intros dphi az flt cnt n. cbv zeta. change (ftb (S := Dn M) (ix_s _ (ctx_d M)) (p_s (dir_d M)) (ix_tau _ (ctx_d M))) with (ftb (S := Dn M) [d_lit 1 (-1074)] [d_lit (-1) (-1073)] (lit (S := Dn M) 99 2)).
  rewrite c43_inf. apply search_inf.
Qed.

(** ** C45 *)
Lemma c45_d (M : libm) (f : filter (Dn M)) (cur trial : fentry (Dn M)) (d a : dbl) f' : try_add f cur trial (d : Dn M) (a : Dn M) = (f', true) ->
  is_finite (fe_cost trial : dbl) = true /\ (is_finite (f_max f : dbl) = true -> (fe_viol trial : dbl) <> B754_infinity false).
Proof.
  intros H. destruct (try_add_accepts (S := Dn M) f cur trial d a f' H) as (A & B & _). split; [exact A|]. intros F E. change (s_ltb (Dn M) (f_max f) (fe_viol trial)) with (d_ltb (f_max f) (fe_viol trial)) in B.
  rewrite lt_X in B. rewrite E in B. rewrite (dX_fin _ F) in B. discriminate.
Qed.

(** ** Examples *)
Lemma half_bounds (M : libm) : let tau := (lit (S := Dn M) 99 2 : dbl) in is_finite tau = true /\ 98 / 100 <= B2R tau <= 127 / 128.
Proof.
  cbv zeta. set (tau := (lit (S := Dn M) 99 2 : dbl)). assert (F : is_finite tau = true) by (vm_compute; reflexivity). split; [exact F|].
  assert (A : d_leb (d_lit 126 (-7)) tau = true) by (vm_compute; reflexivity). assert (B : d_leb tau (d_lit 127 (-7)) = true) by (vm_compute; reflexivity).
  rewrite le_X, (dX_fin _ F), d_lit_X in A, B by (try lia; reflexivity). apply X_leb_fin in A, B. change (b2 (-7)) with (/ 128) in *. lra.
Qed.
Lemma c43_ex (M : libm) : let x := [d_ofZ 1; d_lit 3 (-60)] in let p := [d_lit (-5) 3; d_ofZ 7] in let tau := (lit (S := Dn M) 99 2 : dbl) in
  (forall v, In v x -> is_finite v = true /\ two_to (-1000) <= B2R v) /\ length x = length p /\ is_finite tau = true /\ 1 / 2 <= B2R tau < 1 /\
  INR (length x) * two_to (-48) <= 1 - B2R tau - two_to (-52) /\ d_ltb (ftb (S := Dn M) x p tau) (d_ofZ 1) = true.
Proof.
  cbv zeta. destruct (half_bounds M) as [F H]. split.
  { assert (K : forall m e, (0 < m < 2 ^ 53)%Z -> (-1000 <= e <= 900)%Z -> is_finite (d_lit m e) = true /\ two_to (-1000) <= B2R (d_lit m e)).
    { intros m e Hm He. destruct (fin_dX _ _ (d_lit_X m e ltac:(lia) ltac:(lia))) as [K1 K2]. split; [exact K1|]. rewrite K2. unfold two_to. apply Rle_trans with (1 * b2 e); [rewrite Rmult_1_l; apply bpow_le; lia|].
      apply Rmult_le_compat_r; [apply bpow_ge_0|]. apply IZR_le. lia. }
    intros v [<-|[<-|[]]]; [change (d_ofZ 1) with (d_lit 1 0)|]; apply K; lia. }
  split; [reflexivity|]. split; [exact F|]. split; [lra|]. split; [|vm_compute; reflexivity].
  cbn [length INR]. rewrite de48. pose proof de_small. pose proof de_pos. assert (two_to (-52) <= two_to (-48)) by (apply bpow_le; lia). rewrite de48 in *. lra.
Qed.
