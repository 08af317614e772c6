(** Derivatives of the operators' derivative formulas along curves. *)
From Coq Require Import ZArith Reals List Lra Lia.
From Coquelicot Require Import Coquelicot.
From Verif Require Import Base ExprModel ExprReal MathSpec MathProofs DiffSpec OpDeriv.
Open Scope R_scope.

Lemma const_derive (f : R -> R) (t c : R) : locally t (fun s => f s = c) -> is_derive f t 0.
Proof.
  intros H. apply (loc_eq_derive _ (fun _ => c)); [eapply loc_mono; [|exact H]; auto|].
  apply (is_derive_const (K := R_AbsRing) (V := R_NormedModule)).
Qed.

Lemma loc_ne (x : R) : x <> 0 -> locally x (fun t => t <> 0 /\ (0 < t <-> 0 < x)).
Proof.
  intros H. destruct (Rlt_dec 0 x) as [P|P].
  - eapply loc_mono; [|apply (loc_lt (fun t => t) x 0); [apply continuous_id|exact P]]. intros s Hs. cbn in *. lra.
  - eapply loc_mono; [|apply (loc_gt (fun t => t) x 0); [apply continuous_id|lra]]. intros s Hs. cbn in *. lra.
Qed.

Lemma un_second u (x : R) : regular_un u x -> ~ kink_un u x -> exists d, is_derive (fun t => un_grad (S := R_ops) u 1 t) x d.
Proof.
  intros Hr Hk.
  assert (CB : u = UCbrt -> R_cbrt x <> 0 /\ ex_derive R_cbrt x).
  { intros ->. split; [intros Z; apply Hr; rewrite <- (R_cbrt_cube x), Z; ring|]. exists (un_grad (S := R_ops) UCbrt 1 x). apply (un_derive UCbrt x Hr Hk). }
  destruct u; cbn in Hr, Hk; cbn [un_grad]; cbn;
    try (exists 0; apply (const_derive _ _ (0 : R)); apply (filter_forall (F := locally x)); intros; reflexivity).
  - exists 0. apply (const_derive _ _ (-1)). apply (filter_forall (F := locally x)); intros; reflexivity.
  - exists 0. apply (const_derive _ _ (if Rlt_dec 0 x then 1 else - 1)). eapply loc_mono; [|apply (loc_ne x Hk)]. intros s [A B]. cbn.
    lcase; try lra; destruct (Rlt_dec 0 x); tauto || lra.
  - assert (P : 0 < 1 - x * x) by nra. pose proof (sqrt_lt_R0 _ P). eexists. auto_derive; [split; [|split; [apply Rgt_not_eq, sqrt_lt_R0|exact I]]; nra|reflexivity].
  - assert (P : 0 < 1 - x * x) by nra. pose proof (sqrt_lt_R0 _ P). eexists. auto_derive; [split; [|split; [apply Rgt_not_eq, sqrt_lt_R0|exact I]]; nra|reflexivity].
  - eexists. auto_derive; [nra|reflexivity].
  - destruct (CB eq_refl) as [N E]. eexists. auto_derive; [repeat split; try exact E; repeat (apply Rmult_integral_contrapositive_currified); try exact N; lra|reflexivity].
  - eexists. auto_derive; [auto|reflexivity].
  - eexists. auto_derive; [auto|reflexivity].
  - eexists. auto_derive; [auto|reflexivity].
  - eexists. auto_derive; [auto|reflexivity].
  - eexists. auto_derive; [lra|reflexivity].
  - eexists. auto_derive; [|reflexivity]. apply Rmult_integral_contrapositive_currified; [|lra]. rewrite <- ln_1; apply Rgt_not_eq; apply ln_increasing; lra.
  - eexists. auto_derive; [auto|reflexivity].
  - eexists. auto_derive; [auto|reflexivity].
  - pose proof (sqrt_lt_R0 _ Hr). eexists. auto_derive; [split; [exact Hr|split; [lra|exact I]]|reflexivity].
  - eexists. auto_derive; [|reflexivity]. apply Rmult_integral_contrapositive_currified; exact Hr.
  - pose proof (cosh_pos x). eexists. auto_derive; [|reflexivity]. nra.
Qed.


(** The derivative formulas of a binary operator change along curves with a symmetric matrix of coefficients. *)
Definition seconds (b : bop) (x y : R) : Prop :=
  exists lx c ry, forall (X Y : R -> R) t dx dy, X t = x -> Y t = y -> is_derive X t dx -> is_derive Y t dy ->
    is_derive (fun s => bin_grad_l (S := R_ops) b 1 (X s) (Y s)) t (lx * dx + c * dy) /\
    is_derive (fun s => bin_grad_r (S := R_ops) b 1 (X s) (Y s)) t (c * dx + ry * dy).

Lemma bin_second b (x y : R) : regular_bin b x y -> ~ kink_bin b x y -> seconds b x y.
Proof.
  intros Hr Hk.
  assert (KK : forall c c' : R, (forall (X Y : R -> R) (t : R), X t = x -> Y t = y -> continuous X t -> continuous Y t ->
     locally t (fun s => bin_grad_l (S := R_ops) b 1 (X s) (Y s) = c /\ bin_grad_r (S := R_ops) b 1 (X s) (Y s) = c')) -> seconds b x y).
  { intros c c' H. exists 0, 0, 0. intros X Y t dx dy Ex Ey Dx Dy.
    pose proof (H X Y t Ex Ey (ex_cont _ _ _ Dx) (ex_cont _ _ _ Dy)) as L. replace (0 * dx + 0 * dy) with 0 by ring.
    split; [apply (const_derive _ _ c)|apply (const_derive _ _ c')]; (eapply loc_mono; [|exact L]); intros s [A B]; assumption. }
  destruct b; cbn in Hr, Hk.
  - apply (KK 1 1). intros. apply (filter_forall (F := locally t)). intros; split; reflexivity.
  - apply (KK 1 (-1)). intros. apply (filter_forall (F := locally t)). intros; split; reflexivity.
  - exists 0, 1, 0. intros X Y t dx dy Ex Ey Dx Dy. destruct (d_of _ _ _ Dx) as [EX DX], (d_of _ _ _ Dy) as [EY DY].
    change (Derive (fun x => X x) t = dx) in DX. change (Derive (fun x => Y x) t = dy) in DY. cbn.
    split; (auto_derive; [auto|]; useD; ring).
  - exists 0, (- / (y * y)), (2 * x / (y * y * y)). intros X Y t dx dy Ex Ey Dx Dy. destruct (d_of _ _ _ Dx) as [EX DX], (d_of _ _ _ Dy) as [EY DY].
    change (Derive (fun x => X x) t = dx) in DX. change (Derive (fun x => Y x) t = dy) in DY. cbn. subst x y.
    split; (auto_derive; [repeat split; auto; apply Rmult_integral_contrapositive_currified; assumption|]; useD; field; auto).
  - (* atan2 *)
    assert (P : x * x + y * y <> 0) by (destruct Hr as [Hr|Hr]; nra).
    set (q := x * x + y * y) in *.
    exists (- (2 * x * y) / (q * q)), ((x * x - y * y) / (q * q)), (2 * x * y / (q * q)).
    intros X Y t dx dy Ex Ey Dx Dy. destruct (d_of _ _ _ Dx) as [EX DX], (d_of _ _ _ Dy) as [EY DY].
    change (Derive (fun x => X x) t = dx) in DX. change (Derive (fun x => Y x) t = dy) in DY. cbn. subst x y.
    split; (auto_derive; [repeat split; auto|]; useD; unfold q in *; field; auto).
  - (* hypot *)
    assert (P : 0 < x * x + y * y) by (destruct Hr as [Hr|Hr]; nra).
    set (h := R_hypot x y). assert (H0 : 0 < h) by (apply sqrt_lt_R0, P).
    exists (/ h - x * x / (h * h * h)), (- (x * y) / (h * h * h)), (/ h - y * y / (h * h * h)).
    intros X Y t dx dy Ex Ey Dx Dy.
    pose proof (bin_chain BHypot X Y t dx dy ltac:(cbn; rewrite Ex, Ey; exact Hr) ltac:(cbn; tauto) Dx Dy) as Dh. cbn in Dh.
    destruct (d_of _ _ _ Dx) as [EX DX], (d_of _ _ _ Dy) as [EY DY], (d_of _ _ _ Dh) as [EH DH].
    change (Derive (fun x => X x) t = dx) in DX. change (Derive (fun x => Y x) t = dy) in DY. cbn.
    change (ex_derive (fun t => R_hypot (X t) (Y t)) t) in EH. 
    assert (HH : R_hypot (X t) (Y t) = h) by (rewrite Ex, Ey; reflexivity).
    assert (G : forall (N : R -> R) dn, is_derive N t dn -> is_derive (fun s => 1 * N s / R_hypot (X s) (Y s)) t (dn / h - N t * (x / h * dx + y / h * dy) / (h * h))).
    { intros N dn Dn. eapply eq_derive; [apply (is_derive_div (fun s => 1 * N s) (fun s => R_hypot (X s) (Y s)) t dn); [|exact Dh|rewrite HH; lra]|].
      - apply (is_derive_ext N); [intros s; symmetry; apply Rmult_1_l|exact Dn].
      - rewrite HH, Ex, Ey. field. lra. }
    split; [eapply eq_derive; [apply (G X dx Dx)|]|eapply eq_derive; [apply (G Y dy Dy)|]]; rewrite ?Ex, ?Ey; field; lra.
  - (* max *)
    destruct (Rlt_dec x y) as [P|P].
    + apply (KK 0 1). intros X Y t Ex Ey CX CY.
      eapply loc_mono; [|apply (loc_lt (fun s => Y s - X s) t 0); [apply (continuous_minus (V := R_NormedModule) Y X); assumption|lra]].
      intros s Hs. cbn. cbn in Hs. lcase; split; reflexivity || (exfalso; lra).
    + apply (KK 1 0). intros X Y t Ex Ey CX CY.
      eapply loc_mono; [|apply (loc_lt (fun s => X s - Y s) t 0); [apply (continuous_minus (V := R_NormedModule) X Y); assumption|lra]].
      intros s Hs. cbn. cbn in Hs. lcase; split; reflexivity || (exfalso; lra).
  - (* min *)
    destruct (Rlt_dec x y) as [P|P].
    + apply (KK 1 0). intros X Y t Ex Ey CX CY.
      eapply loc_mono; [|apply (loc_lt (fun s => Y s - X s) t 0); [apply (continuous_minus (V := R_NormedModule) Y X); assumption|lra]].
      intros s Hs. cbn. cbn in Hs. lcase; split; reflexivity || (exfalso; lra).
    + apply (KK 0 1). intros X Y t Ex Ey CX CY.
      eapply loc_mono; [|apply (loc_lt (fun s => X s - Y s) t 0); [apply (continuous_minus (V := R_NormedModule) X Y); assumption|lra]].
      intros s Hs. cbn. cbn in Hs. lcase; split; reflexivity || (exfalso; lra).
  - (* pow *)
    set (p := R_pow x (y - 1)).
    assert (Hp : R_pow x y = p * x).
    { unfold p. rewrite !(R_pow_pos _ _ Hr). unfold Rminus. rewrite Rpower_plus, Rpower_Ropp, Rpower_1 by exact Hr. field. lra. }
    exists (R_pow x (y - 1 - 1) * (y - 1) * y), (p * ln x * y + p), (R_pow x y * ln x * ln x).
    intros X Y t dx dy Ex Ey Dx Dy.
    assert (Dy1 : is_derive (fun s => Y s - 1) t dy).
    { destruct (d_of _ _ _ Dy) as [EY DY]. change (Derive (fun x => Y x) t = dy) in DY. auto_derive; [exact EY|]. useD. ring. }
    pose proof (bin_chain BPow X Y t dx dy ltac:(cbn; rewrite Ex; exact Hr) ltac:(cbn; tauto) Dx Dy) as D1. cbn in D1.
    pose proof (bin_chain BPow X (fun s => Y s - 1) t dx dy ltac:(cbn; rewrite Ex; exact Hr) ltac:(cbn; tauto) Dx Dy1) as D2. cbn in D2.
    assert (Dl : is_derive (fun s => ln (X s)) t (/ x * dx)).
    { destruct (d_of _ _ _ Dx) as [EX DX]. change (Derive (fun x => X x) t = dx) in DX. subst x. auto_derive; [auto|]. useD. field. lra. }
    rewrite Ex, Ey in D1, D2. cbn. split.
    + eapply eq_derive; [apply (is_derive_mult (K := R_AbsRing) (fun s => 1 * R_pow (X s) (Y s - 1)) Y t); [apply (is_derive_ext (fun s => R_pow (X s) (Y s - 1))); [intros s; symmetry; apply Rmult_1_l|exact D2]|exact Dy|apply Rmult_comm]|].
      cbn. unfold plus, mult; cbn. rewrite Ex, Ey. fold p. ring.
    + eapply eq_derive; [apply (is_derive_mult (K := R_AbsRing) (fun s => 1 * R_pow (X s) (Y s)) (fun s => ln (X s)) t); [apply (is_derive_ext (fun s => R_pow (X s) (Y s))); [intros s; symmetry; apply Rmult_1_l|exact D1]|exact Dl|apply Rmult_comm]|].
      cbn. unfold plus, mult; cbn. rewrite Ex, Ey. fold p. rewrite Hp. field. lra.
Qed.

Lemma pow_second (x p : R) : int_power x p -> exists lx, forall (X : R -> R) t dx, X t = x -> is_derive X t dx ->
  is_derive (fun s => bin_grad_l (S := R_ops) BPow 1 (X s) p) t (lx * dx).
Proof.
  intros (z & -> & Hz). destruct (Z.eq_dec z 1) as [->|N].
  - exists 0. intros X t dx Ex Dx. apply (is_derive_ext (fun _ => 1)).
    + intros s. cbn. replace (1 - 1) with (IZR 0) by (cbn; ring). rewrite R_pow_int. cbn. ring.
    + eapply eq_derive; [apply (is_derive_const (K := R_AbsRing) (V := R_NormedModule))|]. unfold zero; cbn. ring.
  - exists (IZR (z - 1) * powerRZ x (z - 1 - 1) * IZR z). intros X t dx Ex Dx.
    apply (is_derive_ext (fun s => powerRZ (X s) (z - 1) * IZR z)).
    + intros s. cbn. replace (IZR z - 1) with (IZR (z - 1)) by (rewrite minus_IZR; reflexivity). rewrite R_pow_int. ring.
    + assert (D : is_derive (fun s => powerRZ (X s) (z - 1)) t (IZR (z - 1) * powerRZ x (z - 1 - 1) * dx)).
      { eapply eq_derive; [apply (is_derive_comp (fun y => powerRZ y (z - 1)) X t); [apply powZ_derive|exact Dx]|].
        - rewrite Ex. destruct Hz as [Hz|Hz]; [left; exact Hz|right; lia].
        - rewrite Ex. unfold scal; cbn. unfold mult; cbn. ring. }
      eapply eq_derive; [apply (is_derive_scal_l (K := R_AbsRing) (V := R_NormedModule) _ t _ (IZR z) D)|]. unfold scal; cbn. unfold mult; cbn. ring.
Qed.
