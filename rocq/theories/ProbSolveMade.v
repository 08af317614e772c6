(** What the derivative objects and the Lagrangian of Problem::solve() are, at smooth points (for C80). *)
From Coq Require Import ZArith Reals List Bool Arith Lia Lra.
From Coquelicot Require Import Coquelicot.
From Verif Require Import Base ExprModel GraphSpec GraphProofs ExprInv VarModel VarReach VarProofs JacModel JacProofs SymProofs JacReach JacHist JacSame ExprReal MathSpec MathProofs
  DiffSpec OpDeriv OpMath VarSpec Faith SmoothSpec SmoothGraph SmoothGrad SmoothTree SmoothOpen SmoothJac SmoothHess HistProofs SmoothUser
  NumModel UtilModel SolverModel ProblemModel ProblemInv ProbSolveModel ProbSolveInv ProbSolveEval.
Import ListNotations.
Local Open Scope nat_scope.

Lemma F2_get {A B} (P : A -> B -> Prop) l l' i a : Forall2 P l l' -> nth_error l i = Some a -> exists b, nth_error l' i = Some b /\ P a b.
Proof. intros F. revert i. induction F; intros [|i] E; cbn in E; try discriminate; [injection E as <-; cbn; eauto|apply IHF, E]. Qed.

Section Made.
Context {S : nops} {FS : faith S} {FS2 : faith2 S}.
Implicit Types q : jstate S.
Notation J := (inj (K := S)).

Lemma later_agrees q q' lv : later q q' -> agrees (qst q') lv -> agrees (qst q) lv.
Proof.
  intros L A m Hm. apply later_parts in L as (_ & _ & G & Lf & _). rewrite <- (Lf m (or_introl Hm)). apply A.
  destruct Hm as (nd & E & K). exists nd. split; [eapply grows_nth; eauto|exact K].
Qed.
Lemma later_GSm q q' lv m v : later q q' -> GSm (st_nodes (qst q)) lv m v -> GSm (st_nodes (qst q')) lv m v.
Proof. intros L. apply later_parts in L as (_ & _ & (more & ->) & _). apply GSm_app. Qed.
Lemma later_GSm_back q q' lv m v : wf (qst q) -> later q q' -> m < nlen (qst q) -> GSm (st_nodes (qst q')) lv m v -> GSm (st_nodes (qst q)) lv m v.
Proof. intros W L Hm. apply later_parts in L as (_ & _ & (more & ->) & _). apply GSm_shrink; assumption. Qed.
Lemma slot_at q i : jreach q -> i < length (qenv q) -> exists v m, hvar (qenv q) i = Ok v /\ v_expr v = Some m /\ holds (qenv q) i m /\ m < nlen (qst q).
Proof.
  destruct q as [[e js] s]. cbn [qenv qst fst snd]. intros R Hi. pose proof (jreach_inv _ R) as (H & _).
  destruct (hvar_get e s i H Hi) as (v & n & A & B & C & D & _). exists v, n. split; [exact A|]. split; [exact C|]. split; [exists v; auto|exact D].
Qed.
Lemma holds_new (e : henv) p : holds (e ++ [var_of (Some p)]) (length e) p.
Proof. eexists. split; [rewrite nth_error_app2 by lia; rewrite Nat.sub_diag; reflexivity|reflexivity]. Qed.

Lemma born_un u i k q m : born (HUn u i) k q -> holds (qenv q) i m ->
  exists m', holds (qenv q) k m' /\ forall lv x, agrees (qst q) lv -> GSm (st_nodes (qst q)) lv m x -> good_un u x ->
    GSm (st_nodes (qst q)) lv m' (un_value (S := R_ops) u x).
Proof.
  intros (q0 & q1 & out & R0 & Hs & H & -> & L01 & L1) Hm. pose proof (later_trans _ _ _ L01 L1) as L0. cbn [in_scope] in Hs.
  destruct (slot_at q0 i R0 Hs) as (v & m0 & Ev & En & Hh & Hlt). pose proof (later_holds _ _ _ _ L0 Hh) as Hh'.
  rewrite (holds_fun _ _ _ _ Hm Hh') in *. clear Hm Hh'. pose proof (wf_of _ R0) as W0.
  cbn [hstep] in H. rewrite Ev in H. cbn [obind] in H. rewrite En in H.
  destruct (e_un_built u (qst q0) m0 W0 Hlt) as (p & s' & E & X & W' & Hp & _). rewrite E in H. cbn [obind] in H. injection H as H1 H2 _.
  exists p. split; [eapply later_holds; [exact L1|]; rewrite <- H1; apply holds_new|].
  intros lv x A G Hu. pose proof (later_agrees _ _ _ L1 A) as A1.
  destruct (e_un_S u (qst q0) m0 lv x W0 Hlt) as (p2 & s2 & E2 & _ & _ & _ & G2); [intros _; eapply later_GSm_back; eauto|exact Hu|].
  rewrite E in E2. injection E2 as <- <-. eapply later_GSm; [exact L1|]. rewrite <- H2. apply G2. rewrite H2. exact A1.
Qed.

Lemma born_bin b i j k q m m' : born (HBin b i j) k q -> holds (qenv q) i m -> holds (qenv q) j m' ->
  exists r, holds (qenv q) k r /\ forall lv x y, agrees (qst q) lv -> GSm (st_nodes (qst q)) lv m x -> GSm (st_nodes (qst q)) lv m' y -> good_bin False b x y ->
    GSm (st_nodes (qst q)) lv r (bin_value (S := R_ops) b x y).
Proof.
  intros (q0 & q1 & out & R0 & [Hs Hs'] & H & -> & L01 & L1) Hm Hm'. pose proof (later_trans _ _ _ L01 L1) as L0.
  destruct (slot_at q0 i R0 Hs) as (v & m0 & Ev & En & Hh & Hlt). pose proof (later_holds _ _ _ _ L0 Hh) as Hh'.
  destruct (slot_at q0 j R0 Hs') as (w & n0 & Ew & Enw & Hhw & Hltw). pose proof (later_holds _ _ _ _ L0 Hhw) as Hhw'.
  rewrite (holds_fun _ _ _ _ Hm Hh'), (holds_fun _ _ _ _ Hm' Hhw') in *. clear Hm Hh' Hm' Hhw'. pose proof (wf_of _ R0) as W0.
  cbn [hstep] in H. rewrite Ev in H. cbn [obind] in H. rewrite Ew in H. cbn [obind] in H. rewrite En, Enw in H.
  destruct (e_bin_built b (qst q0) m0 n0 W0 Hlt Hltw) as (p & s' & E & X & W' & Hp & _). rewrite E in H. cbn [obind] in H. injection H as H1 H2 _.
  exists p. split; [eapply later_holds; [exact L1|]; rewrite <- H1; apply holds_new|].
  intros lv x y A G Gy Hb. pose proof (later_agrees _ _ _ L1 A) as A1.
  destruct (e_bin_S b (qst q0) m0 n0 lv x y W0 Hlt Hltw) as (p2 & s2 & E2 & _ & _ & _ & G2);
    [intros _; eapply later_GSm_back; eauto|intros _; eapply later_GSm_back; eauto|eapply good_bin_mono; [|exact Hb]; intros []|].
  rewrite E in E2. injection E2 as <- <-. eapply later_GSm; [exact L1|]. rewrite <- H2. apply G2. rewrite H2. exact A1.
Qed.

Lemma born_const c k q : born (HConst (S := S) (J c)) k q ->
  exists m, holds (qenv q) k m /\ forall lv, agrees (qst q) lv -> GSm (st_nodes (qst q)) lv m c.
Proof.
  intros (q0 & q1 & out & R0 & _ & H & -> & L01 & L1). pose proof (wf_of _ R0) as W0. cbn [hstep] in H.
  destruct (constant_ptr (J c) (qst q0)) as [[p s1]| | |] eqn:E; cbn [obind] in H; try discriminate. injection H as H1 H2 _.
  destruct (GS_const (qst q0) c (st_val (qst q0)) W0) as (p0 & s0 & E0 & _). rewrite E in E0. injection E0 as -> ->.
  exists p0. split; [eapply later_holds; [exact L1|]; rewrite <- H1; apply holds_new|].
  intros lv A. pose proof (later_agrees _ _ _ L1 A) as A1. destruct (GS_const (qst q0) c lv W0) as (p2 & s2 & E2 & _ & _ & _ & G2).
  rewrite E in E2. injection E2 as <- <-. eapply later_GSm; [exact L1|]. rewrite <- H2. apply G2. rewrite H2. exact A1.
Qed.

(** Sums of products, as the code adds them up. *)
Fixpoint dot_from (k : R) (a b : list R) : R := match a, b with x :: a, y :: b => dot_from (k + x * y) a b | _, _ => k end.

Definition valued_at q lv (i : nat) (v : R) : Prop := exists m, holds (qenv q) i m /\ GSm (st_nodes (qst q)) lv m v.

Lemma good_arith b x y : match b with BAdd | BSub | BMul => True | _ => False end -> good_bin False b x y.
Proof. destruct b; intros []; (split; [left; exact I|intros []]). Qed.

Lemma holds_slot q i v lv : valued_at q lv i v -> exists m, holds (qenv q) i m.
Proof. intros (m & H & _). eauto. Qed.

Lemma dots_smooth q lv : agrees (qst q) lv -> forall a b k r va vb vk, dots q k a b r -> Forall2 (valued_at q lv) a va -> Forall2 (valued_at q lv) b vb -> valued_at q lv k vk ->
  valued_at q lv r (dot_from vk va vb).
Proof.
  intros A a. induction a as [|x a IH]; intros b k r va vb vk Hd Fa Fb Hk; inversion Fa as [|? xv ? va' Hx Fa']; subst.
  - cbn in Hd. subst r. destruct vb; exact Hk.
  - inversion Fb as [|y yv b' vb' Hy Fb']; subst; cbn in Hd; [subst r; exact Hk|]. destruct Hd as (t & k' & Ht & Hk' & Hr). cbn [dot_from].
    destruct Hx as (mx & Hmx & Gx), Hy as (my & Hmy & Gy), Hk as (mk & Hmk & Gk).
    destruct (born_bin _ _ _ _ _ _ _ Ht Hmx Hmy) as (mt & Hmt & Gt). specialize (Gt lv xv yv A Gx Gy (good_arith BMul _ _ I)).
    destruct (born_bin _ _ _ _ _ _ _ Hk' Hmk Hmt) as (mk' & Hmk' & Gk'). specialize (Gk' lv _ _ A Gk Gt (good_arith BAdd _ _ I)).
    eapply IH; [exact Hr|exact Fa'|exact Fb'|]. exists mk'. split; [exact Hmk'|exact Gk'].
Qed.

Lemma product_smooth q lv a b r va vb : agrees (qst q) lv -> product q a b r -> Forall2 (valued_at q lv) a va -> Forall2 (valued_at q lv) b vb ->
  valued_at q lv r (dot_from 0 va vb).
Proof.
  intros A (k & Hk & Hd) Fa Fb. rewrite f_ofZ in Hk. destruct (born_const _ _ _ Hk) as (m & Hm & Gm). eapply dots_smooth; eauto. exists m. auto.
Qed.

Lemma negs_smooth q lv a b va : agrees (qst q) lv -> negs q a b -> Forall2 (valued_at q lv) a va -> Forall2 (valued_at q lv) b (map Ropp va).
Proof.
  intros A H. revert va. induction H as [|i i' a b Hi H IH]; intros va F; inversion F as [|? v ? va' (m & Hm & Gm) F']; subst; constructor; [|apply IH, F'].
  destruct (born_un _ _ _ _ _ Hi Hm) as (m' & Hm' & Gm'). exists m'. split; [exact Hm'|]. apply (Gm' lv v A Gm). split; [exact I|intros []].
Qed.

(** The Jacobian objects. *)
Lemma made_jac rows x k q : made (JMake rows x) k q -> exists j, nth_error (qobjs q) k = Some (j, false) /\
  (forall r i m, nth_error rows r = Some i -> holds (qenv q) i m -> nth_error (j_vars j) r = Some (Some m)) /\
  Forall2 (decides (qenv q) (qst q)) x (j_wrt j).
Proof.
  intros (q0 & q1 & out & R0 & Sc & E & -> & L1 & K & G). destruct q0 as [[e0 js0] s0]. cbn [qenv qst qobjs fst snd] in *.
  assert (R1 : jreach q1) by (eapply jreach_step; eauto; exact I).
  destruct (jmake_is rows x e0 js0 s0 q1 out (jreach_inv _ R0) Sc E) as (j & s1 & -> & _ & N & Fr & Fw).
  pose proof (later_parts _ _ L1) as (C & _). pose proof (jcareful_keep _ _ R1 C) as Keep. destruct q as [[e js] s]. destruct Keep as (_ & Keep). cbn [qenv qst qobjs fst snd] in *.
  destruct (Keep (length js0) j false) as (j' & Ej & Ev & Ew); [rewrite nth_error_app2 by lia; rewrite Nat.sub_diag; reflexivity|].
  exists j'. split; [exact Ej|]. rewrite Ev, Ew. split.
  - intros r i m Hi Hm. destruct (F2_get _ _ _ _ _ Fr Hi) as (p & Hp & v & Hv & <-). rewrite Hp. f_equal.
    assert (Hh : exists n, v_expr v = Some n).
    { pose proof (jreach_inv _ R0) as ((_ & _ & F) & _). pose proof (nth_Forall _ _ _ _ F Hv) as (n & En & _). eauto. }
    destruct Hh as (n & En). rewrite En. f_equal. apply (holds_fun e i); [|exact Hm]. apply (holds_ext e0); [exact K|]. exists v. auto.
  - eapply JacProofs.Forall2_impl; [|exact Fw]. intros a b. apply decides_ext; assumption.
Qed.

(** The Hessian objects. *)
Lemma made_hess f x b k q nodes : made (JHess f x b) k q -> Forall2 (holds (qenv q)) x nodes -> NoDup nodes -> exists j n, nth_error (qobjs q) k = Some (j, b) /\ holds (qenv q) f n /\
  j_wrt j = nodes /\ length (j_vars j) = length nodes /\
  (forall i w p, nth_error (j_wrt j) i = Some w -> nth_error (j_vars j) i = Some p -> hess_row (qst q) n w p) /\ n < nlen (qst q).
Proof.
  intros (q0 & q1 & out & R0 & Sc & E & -> & L1 & K & G) Hx ND. destruct q0 as [[e0 js0] s0]. cbn [qenv qst qobjs fst snd] in *.
  assert (R1 : jreach q1) by (eapply jreach_step; eauto; exact I).
  pose proof (jreach_inv _ R0) as ((W & C & F) & A & _). destruct Sc as [Hf Hw]. cbn [jstep] in E.
  destruct (hvar_get e0 s0 f (conj W (conj C F)) Hf) as (v & n & Ev & Ei & En & Hn & _). unfold hexpr in E at 1. rewrite Ev in E. cbn [obind] in E.
  destruct (wrt_get e0 s0 x Hw) as (ws & E2 & Fw & F2). rewrite E2 in E. cbn [obind] in E. rewrite En in E.
  assert (ws = nodes) as ->.
  { clear - F2 Hx K. revert nodes Hx. induction F2 as [|a c x ws (u & U1 & U2 & _) F2 IH]; intros nodes Hx; inversion Hx as [|? n ? ns Hn Hx']; subst; [reflexivity|].
    f_equal; [|apply IH, Hx']. symmetry. eapply holds_fun; [exact Hn|]. eapply holds_ext; [exact K|]. exists u. auto. }
  destruct (hess_make (Some n) (map Some nodes) s0) as [[j s1]| | |] eqn:Eh; cbn [obind] in E; try discriminate. injection E as <- <-.
  pose proof (hess_rows s0 n nodes j s1 W C A Hn Fw ND Eh) as Rows.
  destruct (hess_make_ok s0 (Some n) nodes W C A Hn) as (l & sa & g & sb & j' & s' & _ & _ & N1 & V1 & _ & _ & _ & X2 & _ & _ & Lg & E3 & N3 & V3 & _ & _ & Jv & Jw & _).
  { eapply List.Forall_impl; [|exact Fw]. intros m. apply kvar_wrt, W. }
  rewrite Eh in E3. injection E3 as <- <-.
  pose proof (later_parts _ _ L1) as (Ca & _ & G1 & Lf & _). pose proof (jcareful_keep _ _ R1 Ca) as Keep. pose proof (wf_of _ R1) as W1.
  pose proof (wf_of _ (later_reach _ _ R1 L1)) as Wq. destruct q as [[e js] s]. destruct Keep as (_ & Keep). cbn [qenv qst qobjs fst snd] in *.
  destruct (Keep (length js0) j b) as (j' & Ej & Ev' & Ew'); [rewrite nth_error_app2 by lia; rewrite Nat.sub_diag; reflexivity|].
  assert (Hn1 : n < nlen s1) by (destruct X2 as ((more & Nm) & _); unfold nlen in *; rewrite N3, Nm, N1, app_length; lia).
  exists j', n. split; [exact Ej|]. split; [apply (holds_ext e0); [exact K|]; exists v; auto|]. rewrite Ev', Ew', Jw. split; [reflexivity|]. split; [rewrite Jv; exact Lg|]. split.
  - intros i w p Hi Hp. apply (hess_row_grows s1 s); auto. { intros m Hm. apply Lf. left. exact Hm. } eapply Rows; eauto.
  - pose proof (grows_len _ _ G1). unfold nlen in *. lia.
Qed.

(** Moving the leaves. *)
Lemma moved_hess q ns v q' n w p : jreach q -> moved q ns v q' -> (forall m, In m ns -> ~ is_kconst (st_nodes (qst q)) m) -> n < nlen (qst q) ->
  hess_row (qst q) n w p -> hess_row (qst q') n w p.
Proof.
  intros R (C & E & O & N & V) Hk Hn. pose proof (wf_of _ R) as W. apply hess_row_grows; auto.
  - unfold wf. rewrite N. exact W.
  - exists []. rewrite app_nil_r. exact N.
  - intros m Hm. rewrite V. apply puts_out. intros I0. exact (Hk m I0 Hm).
Qed.

Lemma mat_of q k j b : jreach q -> nth_error (qobjs q) k = Some (j, b) -> jget_mat k q = Ok (if b then lower_part (jac_matrix (qst q) j) else jac_matrix (qst q) j).
Proof.
  destruct q as [[e js] s]. cbn [qobjs qst fst snd]. intros R E. destruct (jvalue_is e js s k j b (jreach_inv _ R) E) as (q' & E'). unfold jget_mat. rewrite E'. reflexivity.
Qed.
Lemma object_of q k j b : jreach q -> nth_error (qobjs q) k = Some (j, b) ->
  wf (qst q) /\ clean_scr (qst q) /\ jacok (qst q) j /\ List.Forall (is_kvar (st_nodes (qst q))) (j_wrt j).
Proof.
  destruct q as [[e js] s]. cbn [qobjs qst fst snd]. intros R Ek. destruct (jreach_inv _ R) as ((W & C & _) & _ & Jo). pose proof (nth_Forall _ _ _ _ Jo Ek) as [Hj Hw]. auto.
Qed.

(** Arithmetic on finite numbers. *)
Lemma K_mul (a b : R) : s_mul S (J a) (J b) = J (a * b)%R.
Proof. exact (f_bin2 BMul a b I). Qed.
Lemma K_add (a b : R) : s_add S (J a) (J b) = J (a + b)%R.
Proof. exact (f_bin2 BAdd a b I). Qed.

Lemma stored_hits (m : list (@triplet S)) i j : stored m i j = false -> entry m i j = s_ofZ S 0.
Proof.
  intros H. apply entry_none, hits_other. intros a b x I0. destruct (Nat.eq_dec a i) as [->|]; [|left; assumption]. destruct (Nat.eq_dec b j) as [->|]; [|right; assumption].
  exfalso. unfold stored in H. assert (T : existsb (fun '(a, b, _) => Nat.eqb a i && Nat.eqb b j) m = true).
  { apply existsb_exists. exists (i, j, x). split; [exact I0|]. rewrite !Nat.eqb_refl. reflexivity. }
  congruence.
Qed.
Lemma scaled_fin c (m : list (@triplet S)) i j d : entry m i j = J d -> scaled (J c) m i j = J (c * d)%R.
Proof.
  intros E. unfold scaled. destruct (stored m i j) eqn:St; [rewrite E; apply K_mul|]. apply stored_hits in St. rewrite E, f_ofZ in St. apply inj_inj in St. subst d.
  rewrite f_ofZ. f_equal. ring.
Qed.
Lemma sum_fin c (a b : list (@triplet S)) i j da db : entry a i j = J da -> entry b i j = J db ->
  (if stored a i j || stored b i j then s_add S (scaled (J c) a i j) (entry b i j) else s_ofZ S 0) = J (c * da + db)%R.
Proof.
  intros Ea Eb. rewrite (scaled_fin c a i j da Ea). destruct (stored a i j || stored b i j) eqn:St; [rewrite Eb; apply K_add|].
  apply orb_false_iff in St as [Sa Sb]. apply stored_hits in Sa, Sb. rewrite Ea, f_ofZ in Sa. rewrite Eb, f_ofZ in Sb. apply inj_inj in Sa, Sb. subst.
  rewrite f_ofZ. f_equal. ring.
Qed.

End Made.
