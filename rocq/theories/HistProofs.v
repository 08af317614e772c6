(** Proofs for C17-C19 at the level of what the user wrote (any scalar type that computes the user's mathematics, Faith.v). *)
From Coq Require Import ZArith Reals List Bool Arith Lia Lra.
From Verif Require Import Base ExprModel GraphSpec GraphProofs ExprInv VarModel VarProofs ExprReal MathSpec MathProofs VarSpec Faith DiffSpec OpMath SmoothSpec SmoothGraph SmoothGrad.
Import ListNotations.

Local Open Scope nat_scope.
Section Hist.
Context {SK : sops} {FK : faith SK} {FK2 : faith2 SK}.
Local Notation stR := (st SK).

(** The answer to a query is right: wherever the expression is defined, it is its value. *)
Definition right (q : query) (v : SK) : Prop :=
  no_pow00 (snd q) (fst q) -> forall v0, XEv (snd q) (fst q) v0 -> v = inj v0.

(** Node [n] stands for expression [x], whose variable [k] lives in node [nth k dv 0]. *)
Definition stands (s : stR) (dv : list nat) (x : uexp) (n : nat) : Prop :=
  n < nlen s /\
  (forall lv rho, agrees s lv -> (forall k, k < length dv -> lv (nth k dv 0%nat) = inj (rho k)) ->
     no_pow00 rho x -> forall v, XEv rho x v -> ev s lv n = inj v) /\
  (forall k, x = XVar k -> k < length dv /\ n = nth k dv 0%nat) /\
  (forall lv rho, agrees s lv -> (forall k, k < length dv -> lv (nth k dv 0%nat) = inj (rho k)) ->
     forall v, XSm rho x v -> GSm (st_nodes s) lv n v) /\
  (forall c, x = XConst c -> is_kconst (st_nodes s) n).

Definition dvok (s : stR) (dv : list nat) (rho : nat -> R) : Prop :=
  NoDup dv /\ forall k, k < length dv -> is_kvar (st_nodes s) (nth k dv 0%nat) /\ st_val s (nth k dv 0%nat) = inj (rho k).

Definition linked (se : senv) (e : henv) (s : stR) (dv : list nat) : Prop :=
  hinv e s /\ length dv = se_n se /\ dvok s dv (se_val se) /\ length e = length (se_exp se) /\
  forall i v n x, nth_error e i = Some v -> v_expr v = Some n -> nth_error (se_exp se) i = Some x -> stands s dv x n.

Lemma stands_ext s s' dv more x n : wf s -> wf s' -> ext s s' -> stands s dv x n -> stands s' (dv ++ more) x n.
Proof.
  intros W W' X (Hn & Hv & Hk & Hg & Hc). pose proof (ext_nlen _ _ X). split; [lia|]. split; [|split; [|split]].
  - intros lv rho A Hl Hp v Hx. rewrite (ext_ev s s' lv n W W' X Hn).
    apply (Hv lv rho); auto.
    + eapply ext_agrees; eauto.
    + intros k Hk'. rewrite <- (Hl k) by (rewrite app_length; lia). rewrite app_nth1 by exact Hk'. reflexivity.
  - intros k E. destruct (Hk k E) as [A B]. split; [rewrite app_length; lia|]. rewrite app_nth1 by exact A. exact B.
  - intros lv rho A Hl v Hx. pose proof X as ((mn & N) & _). rewrite N. apply GSm_app. apply (Hg lv rho); auto.
    + eapply ext_agrees; eauto.
    + intros k Hk'. rewrite <- (Hl k) by (rewrite app_length; lia). rewrite app_nth1 by exact Hk'. reflexivity.
  - intros c E. destruct (Hc c E) as (nd & En & Kn). exists nd. split; [eapply ext_nth; eauto|exact Kn].
Qed.

Lemma stands_same s s' dv x n : st_nodes s' = st_nodes s ->
  (forall m, is_kconst (st_nodes s) m -> st_val s' m = st_val s m) -> stands s dv x n -> stands s' dv x n.
Proof.
  intros N V (Hn & Hv & Hk & Hg & Hc). split; [unfold nlen; rewrite N; exact Hn|].
  assert (AA : forall lv, agrees s' lv -> agrees s lv).
  { intros lv A m Hm. rewrite (A m); [apply V; exact Hm|]. rewrite N. exact Hm. }
  split; [|split; [exact Hk|split; [|rewrite N; exact Hc]]].
  - intros lv rho A Hl Hp v Hx. unfold ev. rewrite N. apply (Hv lv rho); auto.
  - intros lv rho A Hl v Hx. rewrite N. apply (Hg lv rho); auto.
Qed.

Lemma dvok_ext s s' dv rho : ext s s' -> dvok s dv rho -> dvok s' dv rho.
Proof.
  intros X (ND & H). split; [exact ND|]. intros k Hk. destruct (H k Hk) as ((nd & E & K) & V).
  split; [exists nd; split; [eapply ext_nth; eauto|exact K]|]. rewrite <- V.
  destruct X as (_ & F & _). apply F. apply nth_error_Some. congruence.
Qed.

Lemma linked_get se e s dv i x : linked se e s dv -> nth_error (se_exp se) i = Some x ->
  exists v n, nth_error e i = Some v /\ hvar e i = Ok v /\ v_expr v = Some n /\ stands s dv x n /\ varok s v.
Proof.
  intros ((W & C & F) & _ & _ & L & H) E.
  destruct (nth_error e i) as [v|] eqn:Ev.
  - pose proof (nth_Forall _ _ _ _ F Ev) as V. destruct V as (n & En & Hn & Hs).
    exists v, n. split; [reflexivity|]. split; [unfold hvar; rewrite Ev; reflexivity|]. split; [exact En|].
    split; [eapply H; eauto|]. exists n. auto.
  - apply nth_error_None in Ev. assert (i < length (se_exp se)) by (apply nth_error_Some; congruence). lia.
Qed.

(** Appending a freshly built node. *)
Lemma linked_add se e s dv x o Q : linked se e s dv -> built s o Q ->
  (forall lv v, Q lv v -> forall rho, agrees s lv -> (forall k, k < length dv -> lv (nth k dv 0%nat) = inj (rho k)) ->
     no_pow00 rho x -> forall w, XEv rho x w -> v = inj w) ->
  (forall k, x <> XVar k) ->
  (forall lv rho, agrees s lv -> (forall k, k < length dv -> lv (nth k dv 0%nat) = inj (rho k)) -> forall v, XSm rho x v -> GS s o lv v) ->
  (forall c, x = XConst c -> forall p s', o = Ok (Some p, s') -> is_kconst (st_nodes s') p) ->
  exists p s', o = Ok (Some p, s') /\ linked (mkSE (se_exp se ++ [x]) (se_n se) (se_val se)) (e ++ [var_of (Some p)]) s' dv.
Proof.
  intros (HI & Ld & Hd & Le & Hs) (p & s' & E & X & W' & Hp & HQ) Hv Hx HG HK.
  exists p, s'. split; [exact E|]. pose proof HI as (W & C & F).
  destruct (hinv_ext e s s' X W' HI) as (_ & C' & F').
  split; [split; [exact W'|]; split; [exact C'|]; apply Forall_app; split; [exact F'|];
          constructor; [apply varok_of; exact Hp|constructor]|].
  split; [exact Ld|]. split; [eapply dvok_ext; eauto|]. cbn [se_exp]. split; [rewrite !app_length; cbn; lia|].
  intros i v n y Ei En Ey. destruct (Nat.lt_ge_cases i (length e)) as [L|G].
  - rewrite nth_error_app1 in Ei by exact L. rewrite nth_error_app1 in Ey by lia.
    rewrite <- (app_nil_r dv). apply (stands_ext s s' dv [] y n W W' X). eapply Hs; eauto.
  - assert (i = length e).
    { assert (i < length (e ++ [var_of (Some p)])) by (apply nth_error_Some; congruence).
      rewrite app_length in H. cbn in H. lia. }
    subst i. rewrite nth_error_app2 in Ei by lia. rewrite nth_error_app2 in Ey by lia.
    rewrite Le in Ey. rewrite Nat.sub_diag in *. cbn in Ei, Ey. injection Ei as <-. injection Ey as <-.
    cbn in En. injection En as <-. split; [exact Hp|]. split; [|split; [|split]].
    + intros lv rho A Hl Hpw w Hw. apply (Hv lv _ (HQ lv A) rho); auto. eapply ext_agrees; eauto.
    + intros k Ek. exfalso. exact (Hx k Ek).
    + intros lv rho A Hl w Hw. destruct (HG lv rho (ext_agrees _ _ _ X A) Hl w Hw) as (p2 & s2 & E2 & _ & _ & _ & G2).
      rewrite E in E2. injection E2 as <- <-. apply G2, A.
    + intros c Ec. apply (HK c Ec), E.
Qed.

Lemma XEv_det rho x : forall v w, XEv rho x v -> XEv rho x w -> v = w.
Proof.
  induction x as [k|c|u x IH|b x IHx y IHy]; intros v w H1 H2.
  - inversion H1; inversion H2; subst; reflexivity.
  - inversion H1; inversion H2; subst; reflexivity.
  - inversion H1 as [| |? ? x1 ? A1 B1|]; inversion H2 as [| |? ? x2 ? A2 B2|]; subst.
    rewrite (IH _ _ A1 A2) in B1. apply un_value_math in B1. apply un_value_math in B2. congruence.
  - inversion H1 as [| | |? ? ? x1 y1 ? A1 B1 C1]; inversion H2 as [| | |? ? ? x2 y2 ? A2 B2 C2]; subst.
    rewrite (IHx _ _ A1 A2), (IHy _ _ B1 B2) in C1.
    apply bin_value_math in C1. apply bin_value_math in C2. congruence.
Qed.

Lemma sset_length e i v : length (sset e i v) = length e.
Proof. revert i. induction e as [|x e IH]; intros [|i]; cbn; auto. Qed.
Lemma sset_nth e i v : i < length e -> nth_error (sset e i v) i = Some v.
Proof. revert i. induction e as [|x e IH]; intros [|i] H; cbn in *; try lia; auto. apply IH. lia. Qed.
Lemma sset_nth_ne e i j v : j <> i -> nth_error (sset e i v) j = nth_error e j.
Proof. revert i j. induction e as [|x e IH]; intros [|i] [|j] H; cbn; auto; congruence. Qed.

(** Replacing variable [i]. *)
Lemma linked_set se e s dv i w n x : linked se e s dv -> i < length e -> varok s w -> v_expr w = Some n -> stands s dv x n ->
  linked (mkSE (sset (se_exp se) i x) (se_n se) (se_val se)) (hset e i w) s dv.
Proof.
  intros ((W & C & F) & Ld & Hd & Le & Hs) Hi V En St.
  split; [split; [exact W|]; split; [exact C|]; apply hset_Forall; assumption|].
  split; [exact Ld|]. split; [exact Hd|]. cbn [se_exp]. split; [rewrite hset_length, sset_length; exact Le|].
  intros j v m y Ej Em Ey. destruct (Nat.eq_dec j i) as [->|D].
  - rewrite hset_nth in Ej by exact Hi. rewrite sset_nth in Ey by lia. injection Ej as <-. injection Ey as <-.
    rewrite En in Em. injection Em as <-. exact St.
  - rewrite hset_nth_ne in Ej by exact D. rewrite sset_nth_ne in Ey by exact D. eapply Hs; eauto.
Qed.

Lemma linked_state se se' e s s' dv : linked se e s dv -> st_nodes s' = st_nodes s -> clean_scr s' ->
  (forall m, is_kconst (st_nodes s) m -> st_val s' m = st_val s m) -> se_exp se' = se_exp se -> se_n se' = se_n se ->
  (forall k, k < length dv -> st_val s' (nth k dv 0%nat) = inj (se_val se' k)) -> linked se' e s' dv.
Proof.
  intros ((W & C & F) & Ld & (ND & Hd) & Le & Hs) N C' Vc E1 E2 Hv.
  split; [split; [unfold wf; rewrite N; exact W|]; split; [exact C'|]|].
  - eapply Forall_impl; [|exact F]. intros v. apply varok_same, N.
  - split; [congruence|]. split.
    + split; [exact ND|]. intros k Hk. rewrite N. split; [apply Hd, Hk|apply Hv, Hk].
    + rewrite E1. split; [exact Le|]. intros i v n x Ei En Ex. eapply stands_same; [exact N|exact Vc|]. eapply Hs; eauto.
Qed.

Lemma GS_bind_two s (k : @ptr -> E SK (@ptr)) lv v' : wf s ->
  (forall p s', ext s s' -> wf s' -> p < nlen s' -> is_kconst (st_nodes s') p -> G s' lv p 2%R -> GS s' (k (Some p) s') lv v') ->
  GS s (ebind (constant_ptr (s_ofZ SK 2)) k s) lv v'.
Proof.
  intros W Hk. rewrite f_ofZ. destruct (GS_const s 2%R lv W) as (p & s' & E & X & W' & Hp & HG). unfold ebind. rewrite E. cbn [obind].
  assert (Kc : is_kconst (st_nodes s') p).
  { unfold constant_ptr, alloc in E. injection E as <- <-. exists (mkN KConst CONSTANT). split; [|reflexivity].
    cbn [st_nodes]. rewrite nth_error_app2 by (unfold nlen; lia). unfold nlen. rewrite Nat.sub_diag. reflexivity. }
  destruct (Hk p s' X W' Hp Kc HG) as (p2 & s2 & E2 & X2 & W2 & Hp2 & HQ2). exists p2, s2. split; [exact E2|]. split; [eapply ext_trans; eauto|]. auto.
Qed.

Lemma hypot3_S s n m r lv rho x y z : wf s -> n < nlen s -> m < nlen s -> r < nlen s ->
  (forall v, XSm rho x v -> G s lv n v) -> (forall v, XSm rho y v -> G s lv m v) -> (forall v, XSm rho z v -> G s lv r v) ->
  forall w, XSm rho (XUn USqrt (XBin BAdd (XBin BAdd (xsq x) (xsq y)) (xsq z))) w -> GS s (e_hypot3 (Some n) (Some m) (Some r) s) lv w.
Proof.
  intros W Hn Hm Hr Gx Gy Gz w Hw.
  inversion Hw as [| |? ? y1 ? H1 M1 R1 K1|]; subst. inversion H1 as [| | |? ? ? vxy vz ? H2 H3 M2 _ _]; subst. inversion H2 as [| | |? ? ? vx vy ? H4 H5 M3 _ _]; subst.
  inversion H4 as [| | |? ? ? x0 cx ? Sx Cx Mx Rx Kx]; subst. inversion H5 as [| | |? ? ? y0 cy ? Sy Cy My Ry Ky]; subst. inversion H3 as [| | |? ? ? z0 cz ? Sz Cz Mz Rz Kz]; subst.
  inversion Cx; subst cx. inversion Cy; subst cy. inversion Cz; subst cz.
  pose proof (un_value_math _ _ _ M1) as <-. pose proof (bin_value_math _ _ _ _ M2) as <-. pose proof (bin_value_math _ _ _ _ M3) as <-.
  pose proof (bin_value_math _ _ _ _ Mx) as <-. pose proof (bin_value_math _ _ _ _ My) as <-. pose proof (bin_value_math _ _ _ _ Mz) as <-.
  assert (GB : forall (c : Prop) v, c -> good_bin c BPow v 2%R).
  { intros ccc vvv Hc. split; [right|intros []]. split; [reflexivity|]. split; [exact Hc|]. exists 2%Z. split; [reflexivity|right; lia]. }
  unfold e_hypot3. apply (GS_bind_two s _ lv _ W). intros t1 s1 X1 W1 L1 K1' G1. pose proof (ext_nlen _ _ X1).
  eapply GS_bind; [apply (e_bin_S BPow s1 n t1 lv x0 2%R W1); [lia|exact L1|exact (G_ext _ _ _ _ _ X1 (Gx _ Sx))|exact G1|apply GB, K1']|].
  intros a s2 X2 W2 L2 G2. pose proof (ext_nlen _ _ X2). apply (GS_bind_two s2 _ lv _ W2). intros t2 s3 X3 W3 L3 K3 G3. pose proof (ext_nlen _ _ X3).
  pose proof (ext_trans _ _ _ X1 (ext_trans _ _ _ X2 X3)) as X03.
  eapply GS_bind; [apply (e_bin_S BPow s3 m t2 lv y0 2%R W3); [lia|exact L3|exact (G_ext _ _ _ _ _ X03 (Gy _ Sy))|exact G3|apply GB, K3]|].
  intros b s4 X4 W4 L4 G4. pose proof (ext_nlen _ _ X4).
  eapply GS_bind; [eapply (e_bin_S BAdd s4 a b lv); [exact W4|lia|exact L4|exact (G_ext _ _ _ _ _ (ext_trans _ _ _ X3 X4) G2)|exact G4|split; [left; exact I|intros []]]|].
  intros ab s5 X5 W5 L5 G5. pose proof (ext_nlen _ _ X5). apply (GS_bind_two s5 _ lv _ W5). intros t3 s6 X6 W6 L6 K6 G6. pose proof (ext_nlen _ _ X6).
  pose proof (ext_trans _ _ _ X03 (ext_trans _ _ _ X4 (ext_trans _ _ _ X5 X6))) as X06.
  eapply GS_bind; [apply (e_bin_S BPow s6 r t3 lv z0 2%R W6); [lia|exact L6|exact (G_ext _ _ _ _ _ X06 (Gz _ Sz))|exact G6|apply GB, K6]|].
  intros nz s7 X7 W7 L7 G7. pose proof (ext_nlen _ _ X7).
  eapply GS_bind; [eapply (e_bin_S BAdd s7 ab nz lv); [exact W7|lia|exact L7|exact (G_ext _ _ _ _ _ (ext_trans _ _ _ X6 X7) G5)|exact G7|split; [left; exact I|intros []]]|].
  intros abc s8 X8 W8 L8 G8. apply (e_un_S USqrt s8 abc lv _ W8 L8 G8). split; assumption.
Qed.

Lemma sstep_ok_dv o se se' q e s dv : linked se e s dv -> sstep o se = Some (se', q) ->
  exists e' s' out dv', hstep (hinj o) e s = Ok (e', s', out) /\ linked se' e' s' dv' /\ Forall2 right q out /\ (dv' = dv \/ exists p, dv' = dv ++ [p]).
Proof.
  intros L Hst. pose proof L as ((W & C & F) & Ld & (ND & Hd) & Le & Hs).
  destruct o as [|c|u i|b i j|i j k|i|i j|i c|i x|i]; cbn [sstep] in Hst.
  - (* HNew *)
    injection Hst as <- <-. cbn [hinj hstep].
    destruct (alloc_built (S := SK) s KVar LINEAR (s_ofZ SK 0) (fun lv v => v = lv (nlen s)) W) as (p & s' & E & X & W' & Hp & HQ).
    { intros a []. } { reflexivity. } { intros; reflexivity. }
    unfold decision_ptr. rewrite E. cbn [obind].
    unfold alloc in E. injection E as Ep Es. 
    assert (Ep' : p = nlen s) by (symmetry; exact Ep).
    assert (Hval : st_val s' p = inj 0%R). { rewrite <- Es. cbn [st_val]. rewrite Ep', upd_eq. apply f_ofZ. }
    assert (Hnth : nth_error (st_nodes s') p = Some (mkN KVar LINEAR)).
    { rewrite <- Es. cbn [st_nodes]. rewrite Ep'. unfold nlen. rewrite nth_error_app2 by lia. rewrite Nat.sub_diag. reflexivity. }
    exists (e ++ [var_of (Some p)]), s', [], (dv ++ [p]). split; [reflexivity|]. split; [|split; [constructor|eauto]].
    destruct (hinv_ext e s s' X W' (proj1 L)) as (_ & C' & F').
    assert (Hlt : forall k, k < length dv -> nth k dv 0%nat < nlen s).
    { intros k Hk. destruct (proj1 (Hd k Hk)) as (nd & E1 & _). apply nth_error_Some. unfold nlen in *. rewrite E1. discriminate. }
    split; [split; [exact W'|]; split; [exact C'|]; apply Forall_app; split; [exact F'|];
            constructor; [apply varok_of; exact Hp|constructor]|].
    cbn [se_n se_val se_exp].
    split; [rewrite app_length; cbn; lia|]. split.
    + split.
      * apply NoDup_rev in ND. rewrite <- (rev_involutive (dv ++ [p])). apply NoDup_rev. rewrite rev_app_distr. cbn.
        constructor; [|exact ND]. intros I0. apply in_rev in I0. apply In_nth with (d := 0%nat) in I0 as (k & Hk & Ek).
        specialize (Hlt k Hk). lia.
      * intros k Hk. rewrite app_length in Hk. cbn in Hk. destruct (Nat.eq_dec k (length dv)) as [->|D].
        -- rewrite app_nth2 by lia. rewrite Nat.sub_diag. cbn [nth]. rewrite <- Ld, upd_eq. split; [|exact Hval].
           exists (mkN KVar LINEAR). auto.
        -- rewrite app_nth1 by lia. rewrite upd_ne by lia. destruct (dvok_ext s s' dv (se_val se) X) as [_ Hd'].
           { split; assumption. } apply Hd'. lia.
    + split; [rewrite !app_length; cbn; lia|].
      intros i v n y Ei En Ey. destruct (Nat.lt_ge_cases i (length e)) as [Li|G].
      * rewrite nth_error_app1 in Ei by exact Li. rewrite nth_error_app1 in Ey by lia.
        apply (stands_ext s s' dv [p] y n W W' X). eapply Hs; eauto.
      * assert (i = length e).
        { assert (H : i < length (e ++ [var_of (Some p)])) by (apply nth_error_Some; rewrite Ei; discriminate).
          rewrite app_length in H. cbn in H. lia. }
        subst i. rewrite nth_error_app2 in Ei by lia. rewrite nth_error_app2 in Ey by lia.
        rewrite Le in Ey. rewrite Nat.sub_diag in *. cbn in Ei, Ey. injection Ei as <-. injection Ey as <-.
        cbn in En. injection En as <-. split; [exact Hp|]. split; [|split; [|split]].
        -- intros lv rho A Hl _ w Hw. rewrite (HQ lv A). inversion Hw; subst. rewrite <- Ld.
           rewrite <- (Hl (length dv)) by (rewrite app_length; cbn; lia).
           rewrite app_nth2 by lia. rewrite Nat.sub_diag. reflexivity.
        -- intros k [= <-]. split; [rewrite app_length; cbn; lia|]. rewrite <- Ld, app_nth2 by lia.
           rewrite Nat.sub_diag. reflexivity.
        -- intros lv rho A Hl w Hw. econstructor 1; [exact Hnth|right; reflexivity|]. inversion Hw; subst w. rewrite <- Ld.
           rewrite <- (Hl (length dv)) by (rewrite app_length; cbn; lia).
           rewrite app_nth2 by lia. rewrite Nat.sub_diag. reflexivity.
        -- intros c [=].
  - (* HConst *)
    injection Hst as <- <-. cbn [hinj hstep].
    destruct (linked_add se e s dv (XConst c) _ _ L (built_const (S := SK) s (inj c) (fun _ v => v = inj c) W (fun _ _ => eq_refl)))
      as (p & s' & E & L').
    { intros lv v -> rho _ _ _ w Hw. inversion Hw; reflexivity. } { intros; discriminate. }
    { intros lv rho _ _ w Hw. inversion Hw; subst. apply GS_const, W. }
    { intros c0 _ p0 s0 E0. unfold constant_ptr, alloc in E0. injection E0 as <- <-. exists (mkN KConst CONSTANT). split; [|reflexivity].
      cbn [st_nodes]. rewrite nth_error_app2 by (unfold nlen; lia). unfold nlen. rewrite Nat.sub_diag. reflexivity. }
    rewrite E. cbn [obind]. exists (e ++ [var_of (Some p)]), s', [], dv. auto.
  - (* HUn *)
    destruct (nth_error (se_exp se) i) as [x|] eqn:Ex; [|discriminate]. injection Hst as <- <-.
    destruct (linked_get _ _ _ _ _ _ L Ex) as (v & n & _ & Ev & En & (Hn & Hx & _ & Gx & _) & _).
    cbn [hinj hstep]. rewrite Ev. cbn [obind]. rewrite En.
    destruct (linked_add se e s dv (XUn u x) _ _ L (e_un_built u s n W Hn)) as (p & s' & E & L').
    { intros lv w Hw rho A Hl Hp w' Hw'. inversion Hw' as [| |? ? y ? Hy Hm|]; subst.
      rewrite (Hx lv rho A Hl Hp y Hy) in Hw. eapply f_un; eauto. }
    { intros; discriminate. }
    { intros lv rho A Hl w Hw. inversion Hw as [| |? ? y ? Hy Hm Hr Hk|]; subst. rewrite <- (un_value_math _ _ _ Hm).
      apply e_un_S; [exact W|exact Hn| |split; assumption]. intros _. apply (Gx lv rho); auto. }
    { intros c0 [=]. }
    rewrite E. cbn [obind]. exists (e ++ [var_of (Some p)]), s', [], dv. auto.
  - (* HBin *)
    destruct (nth_error (se_exp se) i) as [x|] eqn:Ex; [|discriminate].
    destruct (nth_error (se_exp se) j) as [y|] eqn:Ey; [|discriminate]. injection Hst as <- <-.
    destruct (linked_get _ _ _ _ _ _ L Ex) as (v & n & _ & Ev & En & (Hn & Hx & _ & Gx & _) & _).
    destruct (linked_get _ _ _ _ _ _ L Ey) as (w & m & _ & Ew & Em & (Hm & Hy & _ & Gy & Cy) & _).
    cbn [hinj hstep]. rewrite Ev. cbn [obind]. rewrite Ew. cbn [obind]. rewrite En, Em.
    destruct (linked_add se e s dv (XBin b x y) _ _ L (e_bin_built b s n m W Hn Hm)) as (p & s' & E & L').
    { intros lv r Hr rho A Hl (Hp1 & Hp2 & Hp3) r' Hr'. inversion Hr' as [| | |? ? ? vx vy ? Hvx Hvy Hmm]; subst.
      rewrite (Hx lv rho A Hl Hp1 vx Hvx), (Hy lv rho A Hl Hp2 vy Hvy) in Hr.
      eapply f_bin; eauto. }
    { intros; discriminate. }
    { intros lv rho A Hl r Hr. inversion Hr as [| | |? ? ? vx vy ? Hvx Hvy Hmm Hg Hk]; subst. rewrite <- (bin_value_math _ _ _ _ Hmm).
      apply e_bin_S; [exact W|exact Hn|exact Hm|intros _; apply (Gx lv rho); auto|intros _; apply (Gy lv rho); auto|].
      split; [|exact Hk]. destruct Hg as [Hg|(Hb & (c & Hc) & Hp)]; [left; exact Hg|right]. split; [exact Hb|]. split; [apply (Cy c Hc)|exact Hp]. }
    { intros c0 [=]. }
    rewrite E. cbn [obind]. exists (e ++ [var_of (Some p)]), s', [], dv. auto.
  - (* HHypot3 *)
    destruct (nth_error (se_exp se) i) as [x|] eqn:Ex; [|discriminate].
    destruct (nth_error (se_exp se) j) as [y|] eqn:Ey; [|discriminate].
    destruct (nth_error (se_exp se) k) as [z|] eqn:Ez; [|discriminate]. injection Hst as <- <-.
    destruct (linked_get _ _ _ _ _ _ L Ex) as (v & n & _ & Ev & En & (Hn & Hx & _ & Gx & _) & _).
    destruct (linked_get _ _ _ _ _ _ L Ey) as (w & m & _ & Ew & Em & (Hm & Hy & _ & Gy & Cy) & _).
    destruct (linked_get _ _ _ _ _ _ L Ez) as (u & r & _ & Eu & Er & (Hr & Hz & _ & Gz & _) & _).
    cbn [hinj hstep]. rewrite Ev. cbn [obind]. rewrite Ew. cbn [obind]. rewrite Eu. cbn [obind]. rewrite En, Em, Er.
    destruct (linked_add se e s dv (XUn USqrt (XBin BAdd (XBin BAdd (xsq x) (xsq y)) (xsq z))) _ _ L
                (hypot3_built s n m r W Hn Hm Hr)) as (p & s' & E & L').
    { intros lv t (a & bb & c & ab & abc & Ha & Hb & Hc & Hab & Habc & Ht) rho A Hl Hp w' Hw'.
      cbn in Hp. destruct Hp as (((Px & _ & _) & (Py & _ & _) & _) & (Pz & _ & _) & _).
      assert (SQ : forall f (vf r0 : SK), (forall v0, XEv rho f v0 -> vf = inj v0) ->
                simp_bin (S := SK) BPow vf (s_ofZ SK 2) r0 -> forall q0, XEv rho (xsq f) q0 -> r0 = inj q0).
      { intros f vf r0 Hf Hs0 q0 Hq0. inversion Hq0 as [| | |? ? ? vx vy ? Hvx Hvy Hmm]; subst.
        inversion Hvy; subst. rewrite (Hf _ Hvx), f_ofZ in Hs0. eapply f_bin; [exact Hmm| |exact Hs0].
        intros _ [_ X]. lra. }
      inversion Hw' as [| |? ? y1 ? H1 M1|]; subst.
      inversion H1 as [| | |? ? ? vx vy ? H2 H3 M2]; subst.
      inversion H2 as [| | |? ? ? vx' vy' ? H4 H5 M3]; subst.
      assert (Ea := SQ x _ a (Hx lv rho A Hl Px) Ha _ H4).
      assert (Eb := SQ y _ bb (Hy lv rho A Hl Py) Hb _ H5).
      assert (Ec := SQ z _ c (Hz lv rho A Hl Pz) Hc _ H3). subst.
      assert (ab = inj vx) by (eapply f_bin; eauto; discriminate). subst.
      assert (abc = inj y1) by (eapply f_bin; eauto; discriminate). subst.
      eapply f_un; eauto. }
    { intros; discriminate. }
    { intros lv rho A Hl w' Hw'. apply (hypot3_S s n m r lv rho x y z W Hn Hm Hr); auto; intros v' Hv' _; [apply (Gx lv rho)|apply (Gy lv rho)|apply (Gz lv rho)]; auto. }
    { intros c0 [=]. }
    rewrite E. cbn [obind]. exists (e ++ [var_of (Some p)]), s', [], dv. auto.
  - (* HCopy *)
    destruct (nth_error (se_exp se) i) as [x|] eqn:Ex; [|discriminate]. injection Hst as <- <-.
    destruct (linked_get _ _ _ _ _ _ L Ex) as (v & n & _ & Ev & En & St & V).
    cbn [hinj hstep]. rewrite Ev. cbn [obind]. exists (e ++ [v]), s, [], dv. split; [reflexivity|]. split; [|split; [constructor|eauto]].
    split; [split; [exact W|]; split; [exact C|]; apply Forall_app; split; [exact F|]; constructor; [exact V|constructor]|].
    split; [exact Ld|]. split; [split; assumption|]. cbn [se_exp]. split; [rewrite !app_length; cbn; lia|].
    intros j w m y Ej Em Ey. destruct (Nat.lt_ge_cases j (length e)) as [Lj|G].
    + rewrite nth_error_app1 in Ej by exact Lj. rewrite nth_error_app1 in Ey by lia. eapply Hs; eauto.
    + assert (j = length e).
      { assert (j < length (e ++ [v])) by (apply nth_error_Some; congruence). rewrite app_length in H. cbn in H. lia. }
      subst j. rewrite nth_error_app2 in Ej by lia. rewrite nth_error_app2 in Ey by lia.
      rewrite Le in Ey. rewrite Nat.sub_diag in *. cbn in Ej, Ey. injection Ej as <-. injection Ey as <-.
      rewrite En in Em. injection Em as <-. exact St.
  - (* HAssign *)
    destruct (nth_error (se_exp se) i) as [x|] eqn:Ex; [|discriminate].
    destruct (nth_error (se_exp se) j) as [y|] eqn:Ey; [|discriminate]. injection Hst as <- <-.
    destruct (linked_get _ _ _ _ _ _ L Ex) as (v & n & Ei & Ev & En & _ & _).
    destruct (linked_get _ _ _ _ _ _ L Ey) as (w & m & _ & Ew & Em & St & V).
    cbn [hinj hstep]. rewrite Ev. cbn [obind]. rewrite Ew. cbn [obind].
    exists (hset e i w), s, [], dv. split; [reflexivity|]. split; [|split; [constructor|eauto]].
    eapply linked_set; eauto. apply nth_error_Some. congruence.
  - (* HAssignScalar *)
    destruct (nth_error (se_exp se) i) as [x|] eqn:Ex; [|discriminate]. injection Hst as <- <-.
    destruct (linked_get _ _ _ _ _ _ L Ex) as (v & n & Ei & Ev & En & _ & _).
    cbn [hinj hstep]. rewrite Ev. cbn [obind].
    destruct (built_const (S := SK) s (inj c) (fun _ v => v = inj c) W (fun _ _ => eq_refl)) as (p & s' & E & X & W' & Hp & HQ).
    rewrite E. cbn [obind]. exists (hset e i (mkVar (Some p) (v_graph v) false)), s', [], dv.
    split; [reflexivity|]. split; [|split; [constructor|eauto]].
    assert (L' : linked se e s' dv).
    { split; [eapply hinv_ext; eauto; exact (proj1 L)|]. split; [exact Ld|]. split; [eapply dvok_ext; [exact X|split; assumption]|].
      split; [exact Le|]. intros j w m y Ej Em Ey. rewrite <- (app_nil_r dv).
      apply (stands_ext s s' dv [] y m W W' X). eapply Hs; eauto. }
    eapply (linked_set se e s' dv i _ p (XConst c) L').
    + apply nth_error_Some. congruence.
    + exists p. cbn. split; [reflexivity|]. split; [exact Hp|discriminate].
    + reflexivity.
    + assert (Kc : is_kconst (st_nodes s') p).
      { unfold constant_ptr, alloc in E. injection E as <- <-. exists (mkN KConst CONSTANT). split; [|reflexivity].
        cbn [st_nodes]. rewrite nth_error_app2 by (unfold nlen; lia). unfold nlen. rewrite Nat.sub_diag. reflexivity. }
      split; [exact Hp|]. split; [|split; [intros k; discriminate|split; [|intros c0 _; exact Kc]]].
      * intros lv rho A _ _ w Hw. inversion Hw; subst. apply HQ, A.
      * intros lv rho A _ w Hw. destruct (GS_const s c lv W) as (p2 & s2 & E2 & _ & _ & _ & G2). rewrite E in E2. injection E2 as <- <-.
        inversion Hw; subst. apply G2, A.
  - (* HSet *)
    destruct (nth_error (se_exp se) i) as [[k| | |]|] eqn:Ex; try discriminate. injection Hst as <- <-.
    destruct (linked_get _ _ _ _ _ _ L Ex) as (v & n & Ei & Ev & En & (Hn & _ & Hk & _) & _).
    destruct (Hk k eq_refl) as [Hkl ->].
    cbn [hinj hstep]. rewrite Ev. cbn [obind]. unfold var_set_value. rewrite En.
    destruct (nth_valid s _ Hn) as (nd & End). rewrite End. cbn [obind].
    exists e, (set_val s (nth k dv 0%nat) (inj x)), [], dv. split; [reflexivity|]. split; [|split; [constructor|eauto]].
    eapply (linked_state se); [exact L|reflexivity|exact C| |reflexivity|reflexivity|].
    + intros m (md & Em & Km). cbn [st_val set_val]. rewrite upd_ne; [reflexivity|]. intros ->.
      destruct (Hd k Hkl) as ((nd' & E' & K') & _). congruence.
    + intros k' Hk'. cbn [st_val set_val se_val]. destruct (Nat.eq_dec k' k) as [->|D]; [rewrite !upd_eq; reflexivity|].
      rewrite (upd_ne _ k _ k' D). rewrite upd_ne; [apply Hd, Hk'|].
      intros X. apply D. eapply (proj1 (NoDup_nth dv 0%nat)); eauto.
  - (* HValue *)
    destruct (nth_error (se_exp se) i) as [x|] eqn:Ex; [|discriminate]. injection Hst as <- <-.
    destruct (linked_get _ _ _ _ _ _ L Ex) as (v & n & Ei & Ev & En & St & V).
    cbn [hinj hstep]. rewrite Ev. cbn [obind].
    destruct (var_value_ok s v n W C V En) as (v' & s' & E & (N & Lv) & C' & V' & En' & _).
    rewrite E. cbn [obind]. exists (hset e i v'), s', [ev s (st_val s) n], dv. split; [reflexivity|]. split; [|split; [|auto]].
    + assert (L' : linked se e s' dv).
      { eapply (linked_state se se); [exact L|exact N|exact C'| |reflexivity|reflexivity|].
        - intros m Hm. apply Lv. auto.
        - intros k Hk. rewrite Lv; [apply Hd, Hk|]. right. apply Hd, Hk. }
      assert (Hi : i < length e) by (apply nth_error_Some; congruence).
      assert (L2 := linked_set se e s' dv i v' n x L' Hi).
      assert (Esame : sset (se_exp se) i x = se_exp se).
      { clear -Ex. revert i Ex. induction (se_exp se) as [|y l IH]; intros [|i] Ex; cbn in *; try discriminate; [congruence|].
        rewrite (IH i Ex). reflexivity. }
      rewrite Esame in L2. destruct se; cbn in L2 |- *. apply L2.
      * eapply varok_same; eauto.
      * exact En'.
      * destruct L' as (_ & _ & _ & _ & Hs'). eapply Hs'; eauto.
    + constructor; [|constructor]. intros Hp v0 Hv0. cbn [fst snd] in *.
      destruct St as (_ & St & _). apply (St (st_val s) (se_val se)); auto.
      * intros m _. reflexivity.
      * intros k Hk. apply Hd, Hk.
Qed.
Lemma sstep_ok o se se' q e s dv : linked se e s dv -> sstep o se = Some (se', q) ->
  exists e' s' out dv', hstep (hinj o) e s = Ok (e', s', out) /\ linked se' e' s' dv' /\ Forall2 right q out.
Proof. intros L H. destruct (sstep_ok_dv o se se' q e s dv L H) as (e' & s' & out & dv' & A & B & C & _). exists e', s', out, dv'. auto. Qed.

Lemma linked_empty : linked se_empty [] (st_empty SK) [].
Proof.
  split; [apply hinv_empty|]. split; [reflexivity|]. split; [split; [constructor|intros k Hk; cbn in Hk; lia]|].
  split; [reflexivity|]. intros i v n x E. destruct i; discriminate.
Qed.

Lemma srun_ok l : forall se se' qs e s dv, linked se e s dv -> srun l se = Some (se', qs) ->
  exists e' s' out dv', hrun (map hinj l) e s = Ok (e', s', out) /\ linked se' e' s' dv' /\ Forall2 right qs out.
Proof.
  induction l as [|o l IH]; intros se se' qs e s dv L H; cbn [srun] in H.
  - injection H as <- <-. exists e, s, [], dv. cbn. auto.
  - destruct (sstep o se) as [[se1 q]|] eqn:E1; [|discriminate].
    destruct (srun l se1) as [[se2 q']|] eqn:E2; [|discriminate]. injection H as <- <-.
    destruct (sstep_ok o se se1 q e s dv L E1) as (e1 & s1 & out1 & dv1 & H1 & L1 & A1).
    destruct (IH se1 se2 q' e1 s1 dv1 L1 E2) as (e2 & s2 & out2 & dv2 & H2 & L2 & A2).
    exists e2, s2, (out1 ++ out2), dv2. cbn [map hrun]. rewrite H1. cbn [obind]. rewrite H2. cbn [obind].
    split; [reflexivity|]. split; [exact L2|]. apply Forall2_app; assumption.
Qed.

End Hist.
