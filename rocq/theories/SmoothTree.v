(** Reverse sweeps at smooth points, over any scalar type that computes the user's mathematics: the numeric sweep
    computes the real adjoints, and the symbolic one builds expressions that are smooth there and have them as values. *)
From Coq Require Import ZArith Reals List Bool Arith Lia Lra.
From Coquelicot Require Import Coquelicot.
From Verif Require Import Base ExprModel GraphSpec GraphProofs ExprInv VarModel VarReach VarProofs AdjProofs JacModel JacProofs SymProofs ExprReal MathSpec MathProofs
  DiffSpec OpDeriv OpMath Faith SmoothGraph SmoothGrad.
Import ListNotations.
Local Open Scope nat_scope.

Section Sweep.
Context {K : sops} {FK : faith K} {FK2 : faith2 K}.
Implicit Types s : st K.
Notation J := (inj (K := K)).
Local Notation zero := (s_ofZ K 0%Z).

Definition prv (lv : nat -> K) : nat -> R := fun n => pr (lv n).

Lemma GSm_R ns (lv : nat -> K) n v : GSm ns lv n v -> GSm (K := R_ops) ns (prv lv) n v.
Proof.
  induction 1 as [n nd v E Kd L|n u a t x E _ IH G|n b l r t x y E _ IHl _ IHr G].
  - econstructor 1; [exact E|exact Kd|]. unfold prv. rewrite L. exact (f_pr v).
  - econstructor 2; eauto.
  - econstructor 3; eauto.
Qed.
(** The value over the reals. *)
Definition rval ns (lv : nat -> K) : nat -> R := eval (S := R_ops) ns (prv lv).
Lemma GSm_rval ns lv n v : wfn ns -> GSm ns lv n v -> v = rval ns lv n.
Proof. intros W H. symmetry. exact (GSm_ev (K := R_ops) _ _ _ _ W (GSm_R _ _ _ _ H)). Qed.
Lemma GSm_r ns lv r v n : wfn ns -> GSm ns lv r v -> reach ns r n -> GSm ns lv n (rval ns lv n).
Proof. intros W H R. destruct (GSm_reach _ _ _ _ _ H R) as (w & Hw). rewrite <- (GSm_rval _ _ _ _ W Hw). exact Hw. Qed.

(** The adjoints of the nodes that are not constants. *)
Section Numeric.
Context (ns : list node) (lv : nat -> K) (r : nat) (v : R) (l : list nat).
Hypothesis W : wfn ns.
Hypothesis Gr : GSm ns lv r v.
Hypothesis Hl : forall n, In n l -> reach ns r n.

Definition same (a : nat -> K) (b : nat -> R) : Prop := forall n, typ ns n <> CONSTANT -> a n = J (b n).

Lemma upd_same a b x p q : same a b -> (typ ns x <> CONSTANT -> p = J q) -> same (upd a x p) (upd b x q).
Proof. intros Sab H m Tm. unfold upd. destruct (Nat.eqb_spec m x) as [->|D]; [apply H, Tm|apply Sab, Tm]. Qed.
Lemma kind_un u x : nth_error ns x = Some u -> n_kind u <> KConst -> typ ns x <> CONSTANT.
Proof. intros E N C. destruct (typ_const _ _ W C) as (nd & E' & Kd). rewrite E in E'. injection E' as <-. contradiction. Qed.

Lemma step_same n a b : In n l -> same a b -> same (step_adj ns (eval ns lv) a n) (step_adj (S := R_ops) ns (rval ns lv) b n).
Proof.
  intros Hn Sab. pose proof (GSm_r _ _ _ _ _ W Gr (Hl n Hn)) as Gn. unfold step_adj.
  inversion Gn as [n' nd v0 E Kd L E1 E2|n' u x t xv E Gx Gu E1 E2|n' c x y t xv yv E Gx Gy Gb E1 E2]; subst; rewrite E.
  - destruct Kd as [-> | ->]; exact Sab.
  - cbn [n_kind]. assert (Tn : typ ns n <> CONSTANT) by (eapply kind_un; [exact E|discriminate]).
    pose proof (GSm_ev _ _ _ _ W Gx) as Ex. rewrite (GSm_rval _ _ _ _ W Gx) in Ex, Gu. rewrite Ex.
    intros m Tm. unfold upd. destruct (Nat.eqb_spec m x) as [->|D]; [|apply Sab, Tm].
    rewrite (Sab x Tm), (Sab n Tn), (un_grad_K u _ _ Gu). apply k_add.
  - cbn [n_kind]. assert (Tn : typ ns n <> CONSTANT) by (eapply kind_un; [exact E|discriminate]).
    assert (Nx : x <> n /\ y <> n). { pose proof (wfn_acyclic _ W n) as Ac. unfold args in Ac. rewrite E in Ac. pose proof (Ac x (or_introl eq_refl)). pose proof (Ac y (or_intror (or_introl eq_refl))). lia. }
    pose proof (GSm_ev _ _ _ _ W Gx) as Ex. rewrite (GSm_rval _ _ _ _ W Gx) in Ex, Gb. pose proof (GSm_ev _ _ _ _ W Gy) as Ey. rewrite (GSm_rval _ _ _ _ W Gy) in Ey, Gb. rewrite Ex, Ey.
    cbv zeta.
    assert (S1 : same (upd a x (s_add K (a x) (bin_grad_l c (a n) (J (rval ns lv x)) (J (rval ns lv y)))))
                      (upd b x (s_add R_ops (b x) (bin_grad_l (S := R_ops) c (b n) (rval ns lv x) (rval ns lv y))))).
    { intros m Tm. unfold upd. destruct (Nat.eqb_spec m x) as [->|D]; [|apply Sab, Tm].
      rewrite (Sab x Tm), (Sab n Tn), (bin_grad_l_K _ c _ _ _ Gb). apply k_add. }
    apply upd_same; [exact S1|]. intros Ty. rewrite (S1 y Ty), (S1 n Tn), (bin_grad_r_K _ c _ _ _ Gb); [apply k_add|].
    intros C. apply Ty. apply kconst_typ; assumption.
Qed.

Lemma run_same P : incl P l -> forall a b, same a b -> same (adj_run ns (eval ns lv) P a) (adj_run (S := R_ops) ns (rval ns lv) P b).
Proof.
  induction P as [|n P IH]; intros HP a b Sab; [exact Sab|]. cbn. apply IH; [intros x Hx; apply HP; right; exact Hx|].
  apply step_same; [apply HP; left; reflexivity|exact Sab].
Qed.
Lemma fold_same rest : forall a b, same a b ->
  same (fold_left (fun (adj : nat -> K) n => upd adj n zero) rest a) (fold_left (fun (adj : nat -> R_ops) n => upd adj n (s_ofZ R_ops 0)) rest b).
Proof. induction rest as [|n rest IH]; intros a b S1; [exact S1|]. cbn [fold_left]. apply IH. apply upd_same; [exact S1|]. intros _. apply f_ofZ. Qed.
Lemma seed_same a b : same a b -> same (seed l a) (seed (S := R_ops) l b).
Proof.
  intros Sab. destruct l as [|r0 rest]; [exact Sab|]. cbn [seed]. apply fold_same, upd_same; [exact Sab|]. intros _. apply f_ofZ.
Qed.
Lemma final_same n : typ ns n <> CONSTANT -> adj_final ns (eval ns lv) l (fun _ => zero) n = J (adj_final (S := R_ops) ns (rval ns lv) l (fun _ => 0%R) n).
Proof. intros T. unfold adj_final. apply run_same; [intros x Hx; exact Hx| |exact T]. apply seed_same. intros m _. apply f_ofZ. Qed.
End Numeric.

Section Tree.
Context (s0 : st K) (r : nat) (l : list nat) (lv : nat -> K) (vr : R).
Let ns := st_nodes s0.
Hypothesis W0 : wf s0.
Hypothesis Hr : r < nlen s0.
Hypothesis T : topological ns r l.
Hypothesis A0 : forall n, st_adje s0 n = None.
Hypothesis Gr : GSm ns lv r vr.

Notation extA := (extA s0 l).
Notation touched := (touched s0 r).
Let val := rval ns lv.

Lemma in_G n : In n l -> GSm ns lv n (val n).
Proof. intros H. apply (GSm_r ns lv r vr n W0 Gr). apply T, H. Qed.

Definition adjG s (A : nat -> R) (t : nat -> Prop) : Prop :=
  wf s /\ extA s /\ forall n, In n l ->
    match st_adje s n with
    | None => ~ t n /\ (typ ns n <> CONSTANT -> A n = 0%R)
    | Some p => p < nlen s /\ (typ ns n <> CONSTANT -> G s lv p (A n))
    end.

Lemma adjG_mono s A A' (t t' : nat -> Prop) : (forall n, In n l -> A n = A' n) -> (forall n, In n l -> t' n -> t n) -> adjG s A t -> adjG s A' t'.
Proof.
  intros HA Ht (W & X & H). split; [exact W|]. split; [exact X|]. intros n Hn. specialize (H n Hn). rewrite <- (HA n Hn).
  destruct (st_adje s n) as [p|]; [exact H|]. destruct H as [Hp H]. split; [|exact H]. intros C. apply Hp, Ht, C. exact Hn.
Qed.

Lemma G_grows s p v : wf s -> grows s0 s -> GSm ns lv p v -> G s lv p v.
Proof. intros W (more & E) H _. rewrite E. apply GSm_app, H. Qed.

Lemma contrib2 s A t a (m : E K (@ptr)) (C : R) : adjG s A t -> In a l -> built s (m s) (fun _ _ => True) -> (typ ns a <> CONSTANT -> GS s (m s) lv C) ->
  exists s', (do g <- m; add_adje a g) s = Ok (tt, s') /\ adjG s' (upd A a (A a + C)%R) (fun n => t n \/ n = a).
Proof.
  intros (W & X & H) Ha (g & s1 & E & X1 & W1 & Hg & _) HC. unfold ebind. rewrite E. cbn [obind]. unfold add_adje.
  pose proof (ext_nlen _ _ X1) as L1. pose proof (grows_len _ _ (proj1 X)) as L0.
  assert (La : a < nlen s) by (pose proof (list_valid s0 r l W0 Hr T a Ha); lia).
  assert (Ea : st_adje s1 a = st_adje s a) by (destruct X1 as (_ & F & _); apply F, La). rewrite Ea.
  assert (Gg : typ ns a <> CONSTANT -> G s1 lv g C).
  { intros HT. destruct (HC HT) as (g' & s1' & E' & _ & _ & _ & Gg). rewrite E in E'. injection E' as <- <-. exact Gg. }
  pose proof (H a Ha) as Ia.
  assert (Q : exists p2 s2, e_add (st_adje s a) (Some g) s1 = Ok (Some p2, s2) /\ ext s1 s2 /\ wf s2 /\ p2 < nlen s2 /\ (typ ns a <> CONSTANT -> G s2 lv p2 (A a + C)%R)).
  { destruct (st_adje s a) as [p|].
    - destruct Ia as [Hp Ip]. destruct (bt_bin BAdd s1 p g W1 ltac:(lia) Hg) as (p2 & s2 & E2 & X2 & W2 & Hp2 & _).
      exists p2, s2. repeat (split; [assumption|]). intros HT.
      destruct (g_bin BAdd s1 p g lv (A a) C I (fun f => f) W1 ltac:(lia) Hg (G_ext _ _ _ _ _ X1 (Ip HT)) (Gg HT)) as (p2' & s2' & E2' & _ & _ & _ & G2).
      rewrite E2 in E2'. injection E2' as <- <-. exact G2.
    - exists g, s1. split; [reflexivity|]. split; [apply ext_refl|]. split; [exact W1|]. split; [exact Hg|].
      intros HT. destruct Ia as [_ Ia]. rewrite (Ia HT). replace (0 + C)%R with C by ring. apply Gg, HT. }
  destruct Q as (p2 & s2 & E2 & X2 & W2 & Hp2 & Q2). rewrite E2. cbn [obind].
  exists (set_adje s2 a (Some p2)). split; [reflexivity|].
  pose proof (ext_trans _ _ _ X1 X2) as X02.
  split; [exact W2|]. split; [apply extA_set; [eapply extA_ext; [exact Hr| |exact X02]; assumption|exact Ha]|].
  intros n Hn. cbn [st_adje set_adje]. destruct (Nat.eq_dec n a) as [->|D].
  - rewrite !upd_eq. split; [exact Hp2|]. exact Q2.
  - rewrite !upd_ne by exact D.
    assert (En : st_adje s2 n = st_adje s n).
    { destruct X02 as (_ & F & _). apply F. pose proof (list_valid s0 r l W0 Hr T n Hn). lia. }
    rewrite En. pose proof (H n Hn) as I. destruct (st_adje s n) as [p|].
    + destruct I as [Hp I]. pose proof (ext_nlen _ _ X02). split; [change (p < nlen s2); lia|]. intros HT. exact (G_ext _ _ _ _ _ X02 (I HT)).
    + destruct I as [Hp I]. split; [intros [C1|C1]; [exact (Hp C1)|exact (D C1)]|exact I].
Qed.

Definition runR (P : list nat) : nat -> R := adj_run (S := R_ops) ns val P (seed (S := R_ops) l (fun _ => 0%R)).
Lemma runR_snoc P n m : runR (P ++ [n]) m = step_adj (S := R_ops) ns val (runR P) n m.
Proof. unfold runR, adj_run. rewrite fold_left_app. reflexivity. Qed.

Lemma grad_node_G P n Q s : l = P ++ n :: Q -> adjG s (runR P) (touched P) ->
  exists s', grad_node n s = Ok (tt, s') /\ adjG s' (runR (P ++ [n])) (touched (P ++ [n])).
Proof.
  intros El I. assert (Hn : In n l) by (rewrite El; apply in_or_app; right; left; reflexivity).
  pose proof (list_valid s0 r l W0 Hr T n Hn) as Ln. destruct (nth_valid s0 n Ln) as ([k t] & En). fold ns in En.
  assert (Hargs : forall a, In a (args ns n) -> In a l /\ a < n).
  { intros a Ha. split; [apply (args_in s0 r l T n a Hn Ha)|apply (wfn_acyclic _ W0 n a Ha)]. }
  unfold args in Hargs. rewrite En in Hargs. cbn [n_args n_kind] in Hargs.
  pose proof I as (W & X & H). pose proof (grows_nth _ _ _ _ (proj1 X) En) as En'.
  pose proof (H n Hn) as Hadj. pose proof (touched_at s0 r l W0 Hr T P n Q El) as Tn. pose proof (grows_len _ _ (proj1 X)) as L0.
  assert (Tnc : k <> KConst -> typ ns n <> CONSTANT).
  { intros Hk C. destruct (typ_const _ _ W0 C) as (nd & E & Kd). fold ns in E. rewrite En in E. injection E as <-. contradiction. }
  assert (KC : forall s1 a, grows s0 s1 -> a < nlen s0 -> is_kconst (st_nodes s1) a <-> is_kconst ns a).
  { intros s1 a (more & E1) Ha. unfold is_kconst. rewrite E1. rewrite nth_error_app1 by exact Ha. reflexivity. }
  assert (TY : forall s1 a, grows s0 s1 -> a < nlen s0 -> typ (st_nodes s1) a = typ ns a).
  { intros s1 a (more & E1) Ha. rewrite E1. apply typ_app, Ha. }
  unfold grad_node. rewrite En'. cbn [n_kind].
  pose proof (in_G n Hn) as Gn.
  destruct k as [| |u a|b x y].
  1,2: exists s; split; [reflexivity|]; eapply adjG_mono; [| |exact I];
    [intros m Hm; rewrite (runR_snoc P n m); unfold step_adj; rewrite En; reflexivity|
     intros m Hm [-> | (c & Hc & Ha)]; [left; reflexivity|]; apply in_app_or in Hc as [Hc|[<-|[]]];
     [right; eauto|unfold args in Ha; fold ns in Ha; rewrite En in Ha; destruct Ha]].
  - destruct (Hargs a (or_introl eq_refl)) as [Ha La].
    destruct (st_adje s n) as [pn|]; [|destruct Hadj; contradiction]. destruct Hadj as [Hpn Hadj]. specialize (Hadj (Tnc ltac:(discriminate))).
    assert (Gu : good_un u (val a)).
    { inversion Gn as [n' nd v0 E Kd L E1 E2|n' u' x t' xv E Gx Gu E1 E2|n' c x y t' xv yv E Gx Gy Gb E1 E2]; rewrite En in E; inversion E; subst; try discriminate.
      - destruct Kd; discriminate.
      - pose proof (GSm_rval _ _ _ _ W0 Gx) as Q1. subst xv. exact Gu. }
    pose proof (G_grows s a _ W (proj1 X) (in_G a Ha)) as Ga.
    destruct (contrib2 s (runR P) (touched P) a (un_grad_expr u (Some pn) (Some a)) (un_grad (S := R_ops) u (runR P n) (val a)) I Ha) as (s' & E & I').
    { apply un_grad_expr_bt; [exact W|exact Hpn|lia]. }
    { intros _. apply un_grad_S; auto. lia. }
    rewrite E. exists s'. split; [reflexivity|]. eapply adjG_mono; [| |exact I'].
    + intros m Hm. rewrite (runR_snoc P n m). unfold step_adj. rewrite En. reflexivity.
    + intros m Hm [-> | (c & Hc & Hma)]; [left; left; reflexivity|]. apply in_app_or in Hc as [Hc|[<-|[]]];
        [left; right; eauto|]. unfold args in Hma. fold ns in Hma. rewrite En in Hma. destruct Hma as [<-|[]]. right. reflexivity.
  - destruct (Hargs x (or_introl eq_refl)) as [Hx Lx]. destruct (Hargs y (or_intror (or_introl eq_refl))) as [Hy Ly].
    destruct (st_adje s n) as [pn|] eqn:Epn; [|destruct Hadj; contradiction]. destruct Hadj as [Hpn Hadj]. specialize (Hadj (Tnc ltac:(discriminate))).
    assert (Gb : good_bin (is_kconst ns y) b (val x) (val y)).
    { inversion Gn as [n' nd v0 E Kd L E1 E2|n' u' x' t' xv E Gx Gu E1 E2|n' c x' y' t' xv yv E Gx Gy Gb E1 E2]; rewrite En in E; inversion E; subst; try discriminate.
      - destruct Kd; discriminate.
      - pose proof (GSm_rval _ _ _ _ W0 Gx) as Q1. pose proof (GSm_rval _ _ _ _ W0 Gy) as Q2. subst xv yv. exact Gb. }
    destruct (contrib2 s (runR P) (touched P) x (bin_grad_expr_l b (Some pn) (Some x) (Some y)) (bin_grad_l (S := R_ops) b (runR P n) (val x) (val y)) I Hx) as (s1 & E1 & I1).
    { apply bin_grad_l_bt; [exact W|exact Hpn|lia|lia]. }
    { intros Tx. apply bin_grad_l_S; [exact W|exact Hpn|lia|lia| |exact Hadj| | |].
      - rewrite (TY s x (proj1 X)) by lia. exact Tx.
      - apply (G_grows s x _ W (proj1 X) (in_G x Hx)).
      - apply (G_grows s y _ W (proj1 X) (in_G y Hy)).
      - eapply good_bin_mono; [|exact Gb]. apply KC; [apply X|lia]. }
    rewrite E1. cbn [obind]. pose proof I1 as (W1 & X1 & H1). pose proof (H1 n Hn) as Hadj1. pose proof (grows_len _ _ (proj1 X1)) as L1.
    destruct (st_adje s1 n) as [qn|]; [|destruct Hadj1 as [Hadj1 _]; exfalso; apply Hadj1; left; exact Tn].
    destruct Hadj1 as [Hqn Hadj1]. specialize (Hadj1 (Tnc ltac:(discriminate))).
    destruct (contrib2 s1 _ _ y (bin_grad_expr_r b (Some qn) (Some x) (Some y))
      (bin_grad_r (S := R_ops) b (upd (runR P) x (runR P x + bin_grad_l (S := R_ops) b (runR P n) (val x) (val y))%R n) (val x) (val y)) I1 Hy) as (s2 & E2 & I2).
    { apply bin_grad_r_bt; [exact W1|exact Hqn|lia|lia]. }
    { intros Ty. apply bin_grad_r_S; [exact W1|exact Hqn|lia|lia| |exact Hadj1| | |].
      - intros C. apply Ty. apply kconst_typ; [exact W0|]. apply (KC s1 y); [apply X1|lia|exact C].
      - apply (G_grows s1 x _ W1 (proj1 X1) (in_G x Hx)).
      - apply (G_grows s1 y _ W1 (proj1 X1) (in_G y Hy)).
      - eapply good_bin_mono; [|exact Gb]. apply KC; [apply X1|lia]. }
    rewrite E2. exists s2. split; [reflexivity|]. eapply adjG_mono; [| |exact I2].
    + intros m Hm. rewrite (runR_snoc P n m). unfold step_adj. rewrite En. reflexivity.
    + intros m Hm [-> | (c & Hc & Hma)]; [left; left; left; reflexivity|]. apply in_app_or in Hc as [Hc|[<-|[]]];
        [left; left; right; eauto|]. unfold args in Hma. fold ns in Hma. rewrite En in Hma. destruct Hma as [<-|[<-|[]]];
        [left; right; reflexivity|right; reflexivity].
Qed.

Lemma grad_nodes_G Q : forall P s, l = P ++ Q -> adjG s (runR P) (touched P) ->
  exists s', eeach grad_node Q s = Ok (tt, s') /\ adjG s' (runR l) (touched l).
Proof.
  induction Q as [|n Q IH]; intros P s El I.
  - rewrite app_nil_r in El. subst P. exists s. auto.
  - destruct (grad_node_G P n Q s El I) as (s1 & E & I1). cbn [eeach]. unfold ebind. rewrite E. cbn [obind].
    apply (IH (P ++ [n])); [rewrite <- app_assoc; exact El|exact I1].
Qed.

Lemma gradient_tree_G wrt : List.Forall (fun w => w < nlen s0) wrt -> NoDup wrt ->
  exists g s', gradient_tree l wrt s0 = Ok (g, s') /\ ext s0 s' /\ wf s' /\
    Forall2 (fun w p =>
       match p with
       | None => ~ In w l
       | Some q => In w l /\ q < nlen s' /\ (typ ns w <> CONSTANT -> G s' lv q (adj_final (S := R_ops) ns val l (fun _ => 0%R) w))
       end) wrt g.
Proof.
  intros Hw NDw. destruct T as (ND & Hin & Ord & rest & El). rewrite (gradient_tree_eq l r rest wrt El). unfold ebind at 1.
  destruct (GS_ofZ s0 1 lv W0) as (u & s1 & E1 & X1 & W1 & Hu & Q1).
  rewrite E1. cbn [obind]. unfold ebind at 1. cbn [obind].
  assert (Hrl : In r l) by (rewrite El; left; reflexivity).
  assert (XA0 : extA s0).
  { split; [apply grows_refl|]. split; [auto|]. split; [intros n _; apply A0|auto]. }
  assert (I0 : adjG (set_adje s1 r (Some u)) (runR []) (touched [])).
  { split; [exact W1|]. split; [apply extA_set; [eapply extA_ext; eassumption|exact Hrl]|].
    intros n Hn. cbn [st_adje set_adje]. unfold runR. cbn [adj_run fold_left]. destruct (Nat.eq_dec n r) as [->|D].
    - rewrite upd_eq. split; [exact Hu|]. intros HT. rewrite El, seed_root.
      + exact Q1.
      + rewrite El in ND. inversion ND; assumption.
    - rewrite upd_ne by exact D. pose proof X1 as (_ & F & _). destruct (F n (list_valid s0 r l W0 Hr T n Hn)) as (_ & _ & E & _).
      rewrite E, A0. split.
      + intros [C|(m & [] & _)]. contradiction.
      + intros HT. rewrite El. apply (seed_rest (S := R_ops)). rewrite El in Hn. destruct Hn as [-> | Hn]; [contradiction|exact Hn]. }
  destruct (grad_nodes_G l [] _ eq_refl I0) as (s2 & E2 & I2). unfold ebind at 1. rewrite E2. cbn [obind].
  destruct (take_adje_ok wrt s2) as (g & f & E3 & Hf & Hg & Hgn). unfold ebind at 1. rewrite E3. cbn [obind].
  destruct (clear_adje_ok l (with_adje s2 f)) as (f2 & E4 & Hf2). unfold ebind. rewrite E4. cbn [obind].
  destruct I2 as (W2 & X2 & H2).
  assert (N2 : forall n, f2 n = None).
  { intros n. rewrite Hf2. destruct (in_dec Nat.eq_dec n l) as [I|N]; [reflexivity|]. cbn [st_adje with_adje]. rewrite Hf.
    destruct (in_dec Nat.eq_dec n wrt); [reflexivity|]. apply X2. exact N. }
  assert (X : ext s0 (with_adje (with_adje s2 f) f2)).
  { destruct X2 as (G0 & F & N & C). split; [exact G0|]. split.
    - intros n Hn. destruct (F n Hn) as (a & b & c). cbn. rewrite N2, A0. auto.
    - intros n Hn. split; [intros _; apply N2|apply C; exact Hn]. }
  exists g, (with_adje (with_adje s2 f) f2). split; [reflexivity|]. split; [exact X|]. split; [exact W2|].
  rewrite (Hgn NDw). clear Hg Hgn E3 Hf NDw. induction wrt as [|w wrt IH]; cbn [map]; constructor.
  - destruct (in_dec Nat.eq_dec w l) as [Il|Nl].
    + specialize (H2 w Il). destruct (st_adje s2 w) as [p|].
      * split; [exact Il|]. exact H2.
      * exfalso. apply H2. apply (touched_all s0 r l W0 Hr T), Il.
    + destruct X2 as (_ & _ & N & _). rewrite (N w Nl). exact Nl.
  - apply IH. inversion Hw; assumption.
Qed.
End Tree.
End Sweep.
