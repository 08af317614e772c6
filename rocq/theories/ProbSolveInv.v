(** Building the expressions and derivative objects of Problem::solve() succeeds for every program. *)
From Coq Require Import ZArith List Bool Arith Lia.
From Verif Require Import Base ExprModel GraphSpec GraphProofs ExprInv VarModel VarReach VarProofs JacModel JacProofs JacReach JacHist JacSame NumModel SolverModel
  ProblemModel ProblemInv ProbSolveModel.
Import ListNotations.
Local Open Scope nat_scope.

Section Later.
Context {S : nops}.
Implicit Types (q : jstate S) (p : prog S).

(** [q'] comes after [q] and has everything of [q]: variables with their expressions, leaves with their values, and
    derivative objects. *)
Definition leaf (s : st S) (m : nat) : Prop := is_kconst (st_nodes s) m \/ is_kvar (st_nodes s) m.
Definition later q q' : Prop :=
  let '(e, js, s) := q in let '(e', js', s') := q' in
  jcareful q q' /\ keeps e e' /\ grows s s' /\ (forall m, leaf s m -> st_val s' m = st_val s m) /\ length js <= length js'.

Lemma leaf_grows (s s' : st S) m : grows s s' -> leaf s m -> leaf s' m.
Proof. intros G [(nd & E & K)|(nd & E & K)]; [left|right]; exists nd; (split; [eapply grows_nth; eauto|exact K]). Qed.

Lemma jcareful_trans q1 q2 q3 : jcareful q1 q2 -> jcareful q2 q3 -> jcareful q1 q3.
Proof. induction 1; intros H'; [exact H'|]. econstructor; eauto. Qed.

Lemma later_refl q : later q q.
Proof. destruct q as [[e js] s]. repeat split; auto using jcareful_refl, keeps_refl, grows_refl. Qed.
Lemma later_trans q1 q2 q3 : later q1 q2 -> later q2 q3 -> later q1 q3.
Proof.
  destruct q1 as [[e1 js1] s1], q2 as [[e2 js2] s2], q3 as [[e3 js3] s3]. intros (A & B & C & D & E) (A' & B' & C' & D' & E').
  split; [eapply jcareful_trans; eauto|]. split; [eapply keeps_trans; eauto|]. split; [eapply grows_trans; eauto|]. split; [|lia].
  intros m H. rewrite D' by (eapply leaf_grows; eauto). auto.
Qed.
Lemma later_reach q q' : jreach q -> later q q' -> jreach q'.
Proof. destruct q as [[e js] s], q' as [[e' js'] s']. intros R (A & _). eapply jcareful_reach; eauto. Qed.

(** A variable statement. *)
Definition qenv q : henv := fst (fst q).
Definition qst q : st S := snd q.
Definition qobjs q := snd (fst q).

Lemma jvar_ok o q : jreach q -> creates o = true -> in_scope (length (qenv q)) o ->
  exists q', jvar o q = Ok (length (qenv q), q') /\ later q q' /\ qobjs q' = qobjs q /\ length (qenv q') = Datatypes.S (length (qenv q)) /\
    exists out, hstep o (qenv q) (qst q) = Ok (qenv q', qst q', out).
Proof.
  destruct q as [[e js] s]. cbn [qenv qst qobjs fst snd]. intros R Hc Hs. pose proof (jreach_inv _ R) as (H & A & J).
  destruct (hstep_ok o e s H Hs) as (e' & s' & out & E & _). unfold jvar. cbn [jstep]. rewrite E. cbn [obind fst].
  exists (e', js, s'). split; [reflexivity|]. split.
  - split; [|split; [|split; [|split]]]; [| | | |lia].
    + eapply jcareful_step with (o := JH o) (out := map OVal out); [exact Hs|destruct o; exact I || discriminate| |apply jcareful_refl].
      cbn [jstep]. rewrite E. reflexivity.
    + eapply hstep_keeps; [|exact E]. destruct o; reflexivity || discriminate.
    + apply (proj1 (hstep_grows o e s e' s' out H Hs E)).
    + pose proof (hstep_frame o e s e' s' out H Hs E) as Fr. destruct o; try discriminate; exact Fr.
  - split; [reflexivity|]. split; [|eauto]. pose proof (hstep_length o e s e' s' out E) as L. rewrite Hc in L. exact L.
Qed.

Lemma holds_ext e e' i n : keeps e e' -> holds e i n -> holds e' i n.
Proof. intros K (v & A & B). destruct (K _ _ A) as (v' & A' & B'). exists v'. split; congruence. Qed.
Lemma holds_fun e i n n' : holds e i n -> holds e i n' -> n = n'.
Proof. intros (v & A & B) (v' & A' & B'). congruence. Qed.
Lemma decides_holds e (s : st S) i n : decides e s i n -> holds e i n.
Proof. intros (v & A & B & _). exists v. auto. Qed.

Lemma later_parts q q' : later q q' -> jcareful q q' /\ keeps (qenv q) (qenv q') /\ grows (qst q) (qst q') /\
  (forall m, leaf (qst q) m -> st_val (qst q') m = st_val (qst q) m) /\ length (qobjs q) <= length (qobjs q').
Proof. destruct q as [[e js] s], q' as [[e' js'] s']. auto. Qed.

Lemma later_holds q q' i n : later q q' -> holds (qenv q) i n -> holds (qenv q') i n.
Proof. intros L. apply later_parts in L as (_ & K & _). apply holds_ext, K. Qed.
Lemma later_decides q q' i n : later q q' -> decides (qenv q) (qst q) i n -> decides (qenv q') (qst q') i n.
Proof. intros L. apply later_parts in L as (_ & K & G & _). apply decides_ext; assumption. Qed.
Lemma later_len q q' : later q q' -> length (qenv q) <= length (qenv q').
Proof. intros L. apply later_parts in L as (_ & K & _). apply keeps_len, K. Qed.

Lemma jcopy_ok i n q : jreach q -> holds (qenv q) i n ->
  exists q', jvar (HCopy i) q = Ok (length (qenv q), q') /\ later q q' /\ holds (qenv q') (length (qenv q)) n.
Proof.
  intros R Hh. pose proof Hh as (v & Ev & En).
  destruct (jvar_ok (HCopy i) q R eq_refl) as (q' & A & B & _ & L & out & H).
  { cbn. apply nth_error_Some. congruence. }
  exists q'. split; [exact A|]. split; [exact B|]. cbn [hstep] in H. unfold hvar in H. rewrite Ev in H. cbn [obind] in H. injection H as H1 H2 _.
  rewrite <- H1. eexists. split; [rewrite nth_error_app2 by lia; rewrite Nat.sub_diag; reflexivity|]. exact En.
Qed.

Lemma jnew_ok q : jreach q ->
  exists q', jvar HNew q = Ok (length (qenv q), q') /\ later q q' /\ decides (qenv q') (qst q') (length (qenv q)) (length (st_nodes (qst q))) /\
    length (st_nodes (qst q')) = Datatypes.S (length (st_nodes (qst q))).
Proof.
  intros R. destruct (jvar_ok HNew q R eq_refl I) as (q' & A & B & _ & L & out & H). exists q'. split; [exact A|]. split; [exact B|].
  cbn [hstep] in H. unfold alloc in H. cbn [obind] in H. injection H as H1 H2 _. rewrite <- H1, <- H2. cbn [st_nodes]. split.
  - eexists. split; [rewrite nth_error_app2 by lia; rewrite Nat.sub_diag; reflexivity|]. split; [reflexivity|].
    eexists. split; [cbn [st_nodes]; rewrite nth_error_app2 by lia; rewrite Nat.sub_diag; reflexivity|]. reflexivity.
  - rewrite app_length. cbn. lia.
Qed.

Lemma jcopies_ok l : forall ns q, jreach q -> Forall2 (holds (qenv q)) l ns ->
  exists l' q', jcopies l q = Ok (l', q') /\ later q q' /\ Forall2 (holds (qenv q')) l' ns.
Proof.
  induction l as [|i l IH]; intros ns q R F; inversion F as [|i' n l' ns' Hi F' E1 E2]; subst.
  - exists [], q. split; [reflexivity|]. split; [apply later_refl|constructor].
  - destruct (jcopy_ok i n q R Hi) as (q1 & A & B & C). pose proof (later_reach _ _ R B) as R1.
    destruct (IH ns' q1 R1) as (l' & q2 & A' & B' & C').
    { eapply JacProofs.Forall2_impl; [|exact F']. intros a b. apply later_holds, B. }
    exists (length (qenv q) :: l'), q2. unfold jcopies in *. cbn [jmap]. unfold jbind. rewrite A. cbn [obind]. rewrite A'. cbn [obind jret].
    split; [reflexivity|]. split; [eapply later_trans; eauto|]. constructor; [eapply later_holds; eauto|exact C'].
Qed.

Lemma jnews_ok n : forall q, jreach q ->
  exists l q' ns, jnews n q = Ok (l, q') /\ later q q' /\ Forall2 (decides (qenv q') (qst q')) l ns /\ length l = n /\ NoDup ns /\
    (forall m, In m ns -> length (st_nodes (qst q)) <= m < length (st_nodes (qst q'))).
Proof.
  induction n as [|n IH]; intros q R.
  - exists [], q, []. split; [reflexivity|]. split; [apply later_refl|]. split; [constructor|]. split; [reflexivity|]. split; [constructor|intros m []].
  - destruct (jnew_ok q R) as (q1 & A & B & C & D). pose proof (later_reach _ _ R B) as R1.
    destruct (IH q1 R1) as (l & q2 & ns & A' & B' & C' & L & N & I0).
    assert (GL : length (st_nodes (qst q1)) <= length (st_nodes (qst q2))).
    { apply later_parts in B' as (_ & _ & (more & ->) & _). rewrite app_length. lia. }
    exists (length (qenv q) :: l), q2, (length (st_nodes (qst q)) :: ns). unfold jnews in *. cbn [repeat jmap]. unfold jbind. rewrite A. cbn [obind]. rewrite A'. cbn [obind jret].
    split; [reflexivity|]. split; [eapply later_trans; eauto|]. split; [|split; [|split]].
    + constructor; [eapply later_decides; eauto|exact C'].
    + cbn. lia.
    + constructor; [|exact N]. intros X. apply I0 in X. lia.
    + intros m [<-|X]; [lia|]. apply I0 in X. lia.
Qed.

(** Variable [i] of [q] was created by statement [o]. *)
Definition born (o : hop S) (i : nat) q : Prop :=
  exists q0 q1 out, jreach q0 /\ in_scope (length (qenv q0)) o /\ hstep o (qenv q0) (qst q0) = Ok (qenv q1, qst q1, out) /\
    i = length (qenv q0) /\ later q0 q1 /\ later q1 q.
Lemma born_later o i q q' : later q q' -> born o i q -> born o i q'.
Proof. intros L (q0 & q1 & out & A & B & C & D & E & F). exists q0, q1, out. repeat (split; [assumption|]). eapply later_trans; eauto. Qed.

Lemma jvar_some o q : jreach q -> creates o = true -> in_scope (length (qenv q)) o ->
  exists i q', jvar o q = Ok (i, q') /\ later q q' /\ i < length (qenv q') /\ born o i q'.
Proof.
  intros R Hc Hs. destruct (jvar_ok o q R Hc Hs) as (q' & A & B & _ & L & out & H). exists (length (qenv q)), q'. split; [exact A|]. split; [exact B|]. split; [lia|].
  exists q, q', out. repeat (split; [assumption || reflexivity|]). apply later_refl.
Qed.

Definition inside q (l : list nat) : Prop := List.Forall (fun i => i < length (qenv q)) l.
Lemma inside_later q q' l : later q q' -> inside q l -> inside q' l.
Proof. intros L. apply later_len in L. apply List.Forall_impl. intros a. lia. Qed.

Definition negs q (l l' : list nat) : Prop := Forall2 (fun i i' => born (HUn UNeg i) i' q) l l'.
Lemma negs_later q q' l l' : later q q' -> negs q l l' -> negs q' l l'.
Proof. intros L. apply JacProofs.Forall2_impl. intros a b. apply born_later, L. Qed.

Lemma jneg_ok l : forall q, jreach q -> inside q l -> exists l' q', jneg l q = Ok (l', q') /\ later q q' /\ inside q' l' /\ negs q' l l'.
Proof.
  induction l as [|i l IH]; intros q R F; inversion F as [|i' l' Hi F' E1]; subst.
  - exists [], q. split; [reflexivity|]. split; [apply later_refl|]. split; constructor.
  - destruct (jvar_some (HUn UNeg i) q R eq_refl Hi) as (k & q1 & A & B & C & D). pose proof (later_reach _ _ R B) as R1.
    destruct (IH q1 R1 (inside_later _ _ _ B F')) as (l' & q2 & A' & B' & C' & D').
    exists (k :: l'), q2. unfold jneg in *. cbn [jmap]. unfold jbind. rewrite A. cbn [obind]. rewrite A'. cbn [obind jret].
    split; [reflexivity|]. split; [eapply later_trans; eauto|]. split; [|constructor; [eapply born_later; eauto|exact D']]. constructor; [|exact C']. apply later_len in B'. lia.
Qed.

(** [r] is [k] plus the products of the elements of [a] and [b]. *)
Fixpoint dots q (k : nat) (a b : list nat) (r : nat) : Prop :=
  match a, b with
  | x :: a, y :: b => exists t k', born (HBin BMul x y) t q /\ born (HBin BAdd k t) k' q /\ dots q k' a b r
  | _, _ => r = k
  end.
Lemma dots_later q q' a : forall b k r, later q q' -> dots q k a b r -> dots q' k a b r.
Proof.
  induction a as [|x a IH]; intros b k r L; [destruct b; auto|]. destruct b as [|y b]; [auto|]. cbn.
  intros (t & k' & A & B & C). exists t, k'. split; [eapply born_later; eauto|]. split; [eapply born_later; eauto|]. apply IH; assumption.
Qed.

Lemma jdot_ok a : forall b k q, jreach q -> k < length (qenv q) -> inside q a -> inside q b ->
  exists i q', jdot k a b q = Ok (i, q') /\ later q q' /\ i < length (qenv q') /\ dots q' k a b i.
Proof.
  induction a as [|x a IH]; intros b k q R Hk Ha Hb.
  - exists k, q. destruct b; (split; [reflexivity|]; split; [apply later_refl|]; split; [exact Hk|reflexivity]).
  - destruct b as [|y b]; [exists k, q; split; [reflexivity|]; split; [apply later_refl|]; split; [exact Hk|reflexivity]|].
    inversion Ha as [|? ? Hx Ha']; subst. inversion Hb as [|? ? Hy Hb']; subst.
    destruct (jvar_some (HBin BMul x y) q R eq_refl (conj Hx Hy)) as (t & q1 & A & B & C & D). pose proof (later_reach _ _ R B) as R1.
    pose proof (later_len _ _ B) as L1.
    destruct (jvar_some (HBin BAdd k t) q1 R1 eq_refl) as (k' & q2 & A2 & B2 & C2 & D2); [split; [lia|exact C]|].
    pose proof (later_reach _ _ R1 B2) as R2. pose proof (later_trans _ _ _ B B2) as B12.
    destruct (IH b k' q2 R2 C2 (inside_later _ _ _ B12 Ha') (inside_later _ _ _ B12 Hb')) as (i & q3 & A3 & B3 & C3 & D3).
    exists i, q3. cbn [jdot]. unfold jbind. rewrite A. cbn [obind]. rewrite A2. cbn [obind]. split; [exact A3|]. split; [eapply later_trans; eauto|]. split; [exact C3|].
    cbn [dots]. exists t, k'. split; [eapply born_later; [|exact D]; eapply later_trans; eauto|]. split; [eapply born_later; eauto|exact D3].
Qed.

Definition product q (a b : list nat) (r : nat) : Prop := exists k, born (HConst (s_ofZ S 0)) k q /\ dots q k a b r.
Lemma product_later q q' a b r : later q q' -> product q a b r -> product q' a b r.
Proof. intros L (k & A & B). exists k. split; [eapply born_later; eauto|eapply dots_later; eauto]. Qed.

Lemma jprod_ok a b q : jreach q -> inside q a -> inside q b -> exists i q', jprod a b q = Ok (i, q') /\ later q q' /\ i < length (qenv q') /\ product q' a b i.
Proof.
  intros R Ha Hb. destruct (jvar_some (HConst (s_ofZ S 0)) q R eq_refl I) as (k & q1 & A & B & C & D). pose proof (later_reach _ _ R B) as R1.
  destruct (jdot_ok a b k q1 R1 C (inside_later _ _ _ B Ha) (inside_later _ _ _ B Hb)) as (i & q2 & A2 & B2 & C2 & D2).
  exists i, q2. unfold jprod, jbind. rewrite A. cbn [obind]. split; [exact A2|]. split; [eapply later_trans; eauto|]. split; [exact C2|].
  exists k. split; [eapply born_later; eauto|exact D2].
Qed.

(** Derivative object [k] of [q] was made by statement [o], at an earlier point where its variables already had the
    expressions they have now. *)
Definition made (o : jop S) (k : nat) q : Prop :=
  exists q0 q1 out, jreach q0 /\ jscope q0 o /\ jstep o q0 = Ok (q1, out) /\ k = length (qobjs q0) /\ later q1 q /\ keeps (qenv q0) (qenv q) /\ grows (qst q0) (qst q).
Lemma made_later o k q q' : later q q' -> made o k q -> made o k q'.
Proof.
  intros L (q0 & q1 & out & A & B & C & D & E & F & G). pose proof (later_parts _ _ L) as (_ & K & Gr & _).
  exists q0, q1, out. repeat (split; [assumption|]). split; [eapply later_trans; eauto|]. split; [eapply keeps_trans; eauto|eapply grows_trans; eauto].
Qed.

Definition makes (o : jop S) : Prop := match o with JMake _ _ | JHess _ _ _ => True | _ => False end.

Lemma jmat_ok o q : jreach q -> makes o -> jscope q o -> exists q', jmat o q = Ok (length (qobjs q), q') /\ later q q' /\ made o (length (qobjs q)) q' /\
  length (qobjs q') = Datatypes.S (length (qobjs q)).
Proof.
  intros R M Hs. pose proof (jreach_inv _ R) as I0. destruct (jstep_ok o q I0 Hs) as (q' & out & E & _); [destruct q as [[e js] s], o; try exact I; contradiction|].
  assert (L : later q q' /\ length (qobjs q') = Datatypes.S (length (qobjs q))).
  { destruct q as [[e js] s], q' as [[e' js'] s'].
    assert (K : jcareful (e, js, s) (e', js', s')).
    { eapply jcareful_step; [exact Hs| |exact E|apply jcareful_refl]. destruct o; try exact I; contradiction. }
    pose proof (jstep_keep _ _ _ _ _ _ _ _ I0 Hs E) as [G _].
    assert (FR : e' = e /\ length js' = Datatypes.S (length js) /\ forall m, leaf s m -> st_val s' m = st_val s m).
    { destruct o as [h|rows wrt|f wrt lower|k|k]; try contradiction.
      - assert (js' = js' /\ e' = e /\ length js' = Datatypes.S (length js)) as (_ & -> & LL).
        { cbn [jstep] in E. destruct (omap (hexpr e) rows); cbn [obind] in E; try discriminate. destruct (omap (hexpr e) wrt); cbn [obind] in E; try discriminate.
          destruct (jac_make _ _ s) as [[j sj]| | |]; cbn [obind] in E; try discriminate. injection E as <- <- <- <-. rewrite app_length. cbn. split; [reflexivity|]. split; [reflexivity|lia]. }
        split; [reflexivity|]. split; [exact LL|].
        apply (proj1 (proj2 (c26 (JMake rows wrt) e js s e js' s' out R Hs I E))).
      - assert (js' = js' /\ e' = e /\ length js' = Datatypes.S (length js)) as (_ & -> & LL).
        { cbn [jstep] in E. destruct (hexpr e f); cbn [obind] in E; try discriminate. destruct (omap (hexpr e) wrt); cbn [obind] in E; try discriminate.
          destruct (hess_make _ _ s) as [[j sj]| | |]; cbn [obind] in E; try discriminate. injection E as <- <- <- <-. rewrite app_length. cbn. split; [reflexivity|]. split; [reflexivity|lia]. }
        split; [reflexivity|]. split; [exact LL|].
        apply (proj1 (proj2 (c26 (JHess f wrt lower) e js s e js' s' out R Hs I E))). }
    destruct FR as (-> & LL & FR). split; [|exact LL]. split; [exact K|]. split; [apply keeps_refl|]. split; [exact G|]. split; [exact FR|]. lia. }
  destruct L as [L LL]. exists q'. unfold jmat. rewrite E. cbn [obind]. split; [reflexivity|]. split; [exact L|]. split; [|exact LL].
  pose proof (later_parts _ _ L) as (_ & K & G & _).
  exists q, q', out. repeat (split; [assumption || reflexivity|]). split; [apply later_refl|]. split; assumption.
Qed.

(** What the setup of each solver leaves: [nodes] are the decision variables of the problem. *)
Inductive kind := KNewton | KSqp | KIpm.
Record ready (kd : kind) (p : prog S) (nodes : list nat) (t : setup) q : Prop := mkReady {
  rd_reach : jreach q;
  rd_later : later (p_env p, [], p_st p) q;
  rd_x : Forall2 (decides (qenv q) (qst q)) (t_x t) nodes;
  rd_f : match p_f p with
         | Some i => exists n, holds (p_env p) i n /\ holds (qenv q) (t_f t) n
         | None => born (HConst (s_ofZ S 0)) (t_f t) q
         end;
  rd_fin : t_f t < length (qenv q);
  rd_ce : Forall2 (fun i i' => exists n, holds (p_env p) i n /\ holds (qenv q) i' n) (p_eq p) (t_ce t);
  rd_ci : Forall2 (fun i i' => exists n, holds (p_env p) i n /\ holds (qenv q) i' n) (p_ineq p) (t_ci t);
  rd_yz : exists ys zs, Forall2 (decides (qenv q) (qst q)) (t_y t) ys /\ Forall2 (decides (qenv q) (qst q)) (t_z t) zs /\ NoDup (nodes ++ ys ++ zs) /\
            length ys = length (p_eq p) /\ length zs = length (p_ineq p) /\ (forall m, In m (ys ++ zs) -> length (st_nodes (p_st p)) <= m);
  rd_g : made (JMake [t_f t] (t_x t)) (t_g t) q;
  rd_Hf : made (JHess (t_f t) (t_x t) true) (t_Hf t) q;
  rd_Hc : kd <> KNewton -> exists ny Le L, negs q (t_y t) ny /\ product q ny (t_ce t) Le /\
            (kd = KSqp -> L = Le) /\ (kd = KIpm -> exists Li, product q (t_z t) (t_ci t) Li /\ born (HBin BSub Le Li) L q) /\
            made (JHess L (t_x t) true) (t_Hc t) q;
  rd_Ae : kd <> KNewton -> made (JMake (t_ce t) (t_x t)) (t_Ae t) q;
  rd_Ai : kd = KIpm -> made (JMake (t_ci t) (t_x t)) (t_Ai t) q }.

Lemma slots_hold e (s : st S) l : hinv e s -> (forall i, In i l -> i < length e) -> exists ns, Forall2 (holds e) l ns.
Proof.
  intros H. induction l as [|i l IH]; intros Hl; [exists []; constructor|].
  destruct (hvar_get e s i H (Hl i (or_introl eq_refl))) as (v & n & _ & A & B & _).
  destruct IH as (ns & F); [intros j X; apply Hl; right; exact X|]. exists (n :: ns). constructor; [exists v; auto|exact F].
Qed.

Lemma cost_ok p q : pinv p -> jreach q -> keeps (p_env p) (qenv q) ->
  exists i q', cost p q = Ok (i, q') /\ later q q' /\ i < length (qenv q') /\
    match p_f p with
    | Some k => exists n, holds (p_env p) k n /\ holds (qenv q') i n
    | None => born (HConst (s_ofZ S 0)) i q'
    end.
Proof.
  intros I0 R K. unfold cost. destruct (p_f p) as [k|] eqn:Ef.
  - destruct (slots_hold (p_env p) (p_st p) [k]) as (ns & F).
    { apply (jreach_inv _ (i_reach _ I0)). } { intros i [<-|[]]. apply (i_f _ I0), Ef. }
    inversion F as [|? n ? ? Hk ? E1 E2]; subst. destruct (jcopy_ok k n q R (holds_ext _ _ _ _ K Hk)) as (q' & A & B & C).
    exists (length (qenv q)), q'. split; [exact A|]. split; [exact B|]. split; [|eauto]. destruct C as (v & C & _). apply nth_error_Some. congruence.
  - destruct (jvar_some (HConst (s_ofZ S 0)) q R eq_refl I) as (i & q' & A & B & C & D). exists i, q'. auto.
Qed.

Lemma decides_both (e e' : henv) (s s' : st S) l l' ns : Forall2 (decides e s) l ns -> grows s s' -> Forall2 (holds e') l' ns -> Forall2 (decides e' s') l' ns.
Proof.
  intros F G. revert l'. induction F as [|i n l ns H F IH]; intros l' F'; inversion F' as [|i' ? l2 ? H2 F2]; subst; constructor; auto.
  destruct H as (v & _ & _ & K). destruct H2 as (v2 & A & B). exists v2. split; [exact A|]. split; [exact B|]. eapply kvar_grows; eauto.
Qed.
Lemma holds_lists (e e' : henv) l l' ns : Forall2 (holds e) l ns -> Forall2 (holds e') l' ns -> Forall2 (fun i i' => exists n, holds e i n /\ holds e' i' n) l l'.
Proof. intros F. revert l'. induction F; intros l2 F2; inversion F2; subst; constructor; eauto. Qed.
Lemma f2len {A B} (R : A -> B -> Prop) l l' : Forall2 R l l' -> length l = length l'.
Proof. induction 1; cbn; congruence. Qed.
Lemma holds_inside q l ns : Forall2 (holds (qenv q)) l ns -> inside q l.
Proof. induction 1 as [|i n l ns (v & A & _) F IH]; constructor; auto. apply nth_error_Some. congruence. Qed.
Lemma decides_wrt e (s : st S) l ns : Forall2 (decides e s) l ns -> forall i, In i l -> exists n, decides e s i n.
Proof. induction 1 as [|i n l ns H F IH]; intros j []; subst; eauto. Qed.
Lemma Forall2_holds q l ns : Forall2 (decides (qenv q) (qst q)) l ns -> Forall2 (holds (qenv q)) l ns.
Proof. apply JacProofs.Forall2_impl. intros a b. apply decides_holds. Qed.
Lemma Forall2_later q q' l ns : later q q' -> Forall2 (holds (qenv q)) l ns -> Forall2 (holds (qenv q')) l ns.
Proof. intros L. apply JacProofs.Forall2_impl. intros a b. apply later_holds, L. Qed.
Lemma Forall2_later_d q q' l ns : later q q' -> Forall2 (decides (qenv q) (qst q)) l ns -> Forall2 (decides (qenv q') (qst q')) l ns.
Proof. intros L. apply JacProofs.Forall2_impl. intros a b. apply later_decides, L. Qed.
Lemma same_later (e : henv) q q' l l' : later q q' -> Forall2 (fun i i' => exists n, holds e i n /\ holds (qenv q) i' n) l l' ->
  Forall2 (fun i i' => exists n, holds e i n /\ holds (qenv q') i' n) l l'.
Proof. intros L. apply JacProofs.Forall2_impl. intros a b (n & A & B). exists n. split; [exact A|eapply later_holds; eauto]. Qed.
Lemma scope_make q rows x nodes : inside q rows -> Forall2 (decides (qenv q) (qst q)) x nodes -> jscope q (JMake rows x).
Proof.
  destruct q as [[e js] s]. intros A B. split; [|apply (decides_wrt _ _ _ _ B)]. unfold inside in A. rewrite List.Forall_forall in A. exact A.
Qed.
Lemma scope_hess q f x nodes : f < length (qenv q) -> Forall2 (decides (qenv q) (qst q)) x nodes -> jscope q (JHess f x true).
Proof. destruct q as [[e js] s]. intros A B. split; [exact A|apply (decides_wrt _ _ _ _ B)]. Qed.

Lemma p_slots p : pinv p -> exists nodes fs es is_, Forall2 (decides (p_env p) (p_st p)) (p_dec p) nodes /\ NoDup nodes /\
  (forall n, In n nodes -> n < length (st_nodes (p_st p))) /\ match p_f p with Some i => holds (p_env p) i fs | None => True end /\
  Forall2 (holds (p_env p)) (p_eq p) es /\ Forall2 (holds (p_env p)) (p_ineq p) is_.
Proof.
  intros I0. pose proof (jreach_inv _ (i_reach _ I0)) as (H & _). destruct (i_dec _ I0) as (nodes & D & N).
  destruct (slots_hold _ _ _ H (i_eq _ I0)) as (es & F1). destruct (slots_hold _ _ _ H (i_ineq _ I0)) as (ins & F2).
  assert (exists fs, match p_f p with Some i => holds (p_env p) i fs | None => True end) as (fs & F3).
  { destruct (p_f p) as [i|] eqn:E; [|exists 0; exact I]. destruct (hvar_get _ _ i H (i_f _ I0 i E)) as (v & n & _ & A & B & _). exists n, v. auto. }
  exists nodes, fs, es, ins. repeat (split; [assumption|]). split; [|auto]. intros n Hn. eapply (dec_nodes_lt (p_env p) (p_st p)); eauto.
Qed.

Lemma nodup_app2 {A} (l l' : list A) : NoDup l -> NoDup l' -> (forall k, In k l -> In k l' -> False) -> NoDup (l ++ l').
Proof.
  induction l as [|a l IH]; intros N N' D; [exact N'|]. inversion N as [|? ? Na Nl]; subst. cbn. constructor.
  - intros X. apply in_app_or in X as [X|X]; [auto|]. apply (D a); [left; reflexivity|exact X].
  - apply IH; auto. intros k X Y. apply (D k); [right; exact X|exact Y].
Qed.

Ltac run A := unfold jbind at 1; rewrite A; cbn [obind].

Lemma newton_ready p : pinv p -> p_eq p = [] -> p_ineq p = [] ->
  exists nodes t q, newton_setup p (p_env p, [], p_st p) = Ok (t, q) /\ Forall2 (decides (p_env p) (p_st p)) (p_dec p) nodes /\ ready KNewton p nodes t q.
Proof.
  intros I0 E1 E2. destruct (p_slots p I0) as (nodes & fs & es & ins & D & N & Nl & Hf & He & Hi). pose proof (i_reach _ I0) as R0.
  set (q0 := (p_env p, [], p_st p) : jstate S) in *.
  destruct (jcopies_ok (p_dec p) nodes q0 R0) as (x & q1 & A1 & L1 & X1). { eapply JacProofs.Forall2_impl; [|exact D]. intros a b. apply decides_holds. }
  pose proof (later_reach _ _ R0 L1) as R1. pose proof (later_parts _ _ L1) as (_ & K1 & G1 & _).
  pose proof (decides_both _ _ _ _ _ _ _ D G1 X1) as DX1.
  destruct (cost_ok p q1 I0 R1 K1) as (f & q2 & A2 & L2 & F2 & H2). pose proof (later_reach _ _ R1 L2) as R2.
  pose proof (Forall2_later_d _ _ _ _ L2 DX1) as DX2.
  destruct (jmat_ok (JMake [f] x) q2 R2 I) as (q3 & A3 & L3 & M3 & _). { apply (scope_make q2 [f] x nodes); [constructor; [exact F2|constructor]|exact DX2]. }
  pose proof (later_reach _ _ R2 L3) as R3. pose proof (Forall2_later_d _ _ _ _ L3 DX2) as DX3. pose proof (later_len _ _ L3) as LL3.
  destruct (jmat_ok (JHess f x true) q3 R3 I) as (q4 & A4 & L4 & M4 & _). { apply (scope_hess q3 f x nodes); [lia|exact DX3]. }
  pose proof (later_reach _ _ R3 L4) as R4. pose proof (Forall2_later_d _ _ _ _ L4 DX3) as DX4. pose proof (later_len _ _ L4) as LL4.
  exists nodes, (mkSetup x f [] [] [] [] (length (qobjs q2)) (length (qobjs q3)) (length (qobjs q3)) (length (qobjs q3)) (length (qobjs q3))), q4.
  split; [unfold newton_setup; run A1; run A2; run A3; run A4; reflexivity|]. split; [exact D|].
  pose proof (later_trans _ _ _ L1 L2) as L02. pose proof (later_trans _ _ _ L02 (later_trans _ _ _ L3 L4)) as L04. pose proof (later_trans _ _ _ L3 L4) as L24.
  constructor; cbn [t_x t_f t_ce t_ci t_y t_z t_g t_Hf t_Hc t_Ae t_Ai]; try (intros X; exfalso; congruence).
  - exact R4.
  - exact L04.
  - exact DX4.
  - destruct (p_f p) as [i0|]; [destruct H2 as (n & Ha & Hb); exists n; split; [exact Ha|eapply later_holds; eauto]|eapply born_later; eauto].
  - lia.
  - rewrite E1. constructor.
  - rewrite E2. constructor.
  - exists [], []. rewrite E1, E2. cbn [app length]. rewrite app_nil_r. split; [constructor|]. split; [constructor|]. split; [exact N|]. split; [reflexivity|]. split; [reflexivity|intros m []].
  - eapply made_later; [|exact M3]; exact L4.
  - exact M4.
Qed.

Lemma inside_one q i : i < length (qenv q) -> inside q [i].
Proof. intros H. constructor; [exact H|constructor]. Qed.

Lemma sqp_ready p : pinv p -> p_ineq p = [] ->
  exists nodes t q, sqp_setup p (p_env p, [], p_st p) = Ok (t, q) /\ Forall2 (decides (p_env p) (p_st p)) (p_dec p) nodes /\ ready KSqp p nodes t q.
Proof.
  intros I0 E2. destruct (p_slots p I0) as (nodes & fs & es & ins & D & N & Nl & Hf & He & Hi). pose proof (i_reach _ I0) as R0.
  set (q0 := (p_env p, [], p_st p) : jstate S) in *.
  destruct (jcopies_ok (p_dec p) nodes q0 R0) as (x & q1 & A1 & L1 & X1). { eapply JacProofs.Forall2_impl; [|exact D]. intros a b. apply decides_holds. }
  pose proof (later_reach _ _ R0 L1) as R1. pose proof (later_parts _ _ L1) as (_ & K1 & G1 & _).
  pose proof (decides_both _ _ _ _ _ _ _ D G1 X1) as DX1.
  destruct (cost_ok p q1 I0 R1 K1) as (f & q2 & A2 & L2 & F2 & H2). pose proof (later_reach _ _ R1 L2) as R2.
  pose proof (later_trans _ _ _ L1 L2) as L02.
  destruct (jcopies_ok (p_eq p) es q2 R2) as (ce & q3 & A3 & L3 & C3). { apply (Forall2_later q0 q2); [exact L02|exact He]. }
  pose proof (later_reach _ _ R2 L3) as R3. pose proof (later_trans _ _ _ L02 L3) as L03.
  destruct (jnews_ok (length (p_eq p)) q3 R3) as (y & q4 & ys & A4 & L4 & Y4 & LY & NY & FY).
  pose proof (later_reach _ _ R3 L4) as R4. pose proof (later_trans _ _ _ L2 (later_trans _ _ _ L3 L4)) as L14. pose proof (later_trans _ _ _ L1 L14) as L04.
  pose proof (Forall2_later_d _ _ _ _ L14 DX1) as DX4.
  assert (F4 : f < length (qenv q4)) by (pose proof (later_len _ _ L3); pose proof (later_len _ _ L4); lia).
  destruct (jmat_ok (JMake [f] x) q4 R4 I) as (q5 & A5 & L5 & M5 & _). { apply (scope_make q4 [f] x nodes); [apply inside_one, F4|exact DX4]. }
  pose proof (later_reach _ _ R4 L5) as R5. pose proof (later_len _ _ L5) as LL5. pose proof (Forall2_later_d _ _ _ _ L5 DX4) as DX5.
  destruct (jmat_ok (JHess f x true) q5 R5 I) as (q6 & A6 & L6 & M6 & _). { apply (scope_hess q5 f x nodes); [lia|exact DX5]. }
  pose proof (later_reach _ _ R5 L6) as R6. pose proof (later_trans _ _ _ L5 L6) as L46. pose proof (Forall2_later_d _ _ _ _ L6 DX5) as DX6.
  pose proof (Forall2_later_d _ _ _ _ L46 Y4) as Y6.
  destruct (jneg_ok y q6 R6) as (ny & q7 & A7 & L7 & I7 & N7). { eapply holds_inside, Forall2_holds, Y6. }
  pose proof (later_reach _ _ R6 L7) as R7.
  assert (L37 : later q3 q7) by (eapply later_trans; [exact L4|eapply later_trans; eauto]).
  destruct (jprod_ok ny ce q7 R7 I7) as (L & q8 & A8 & L8 & F8 & P8). { eapply holds_inside, Forall2_later; eauto. }
  pose proof (later_reach _ _ R7 L8) as R8. pose proof (later_trans _ _ _ L7 L8) as L68. pose proof (Forall2_later_d _ _ _ _ L68 DX6) as DX8.
  destruct (jmat_ok (JHess L x true) q8 R8 I) as (q9 & A9 & L9 & M9 & _). { apply (scope_hess q8 L x nodes); [lia|exact DX8]. }
  pose proof (later_reach _ _ R8 L9) as R9. pose proof (Forall2_later_d _ _ _ _ L9 DX8) as DX9.
  assert (L39 : later q3 q9) by (eapply later_trans; [exact L37|eapply later_trans; eauto]).
  destruct (jmat_ok (JMake ce x) q9 R9 I) as (q10 & A10 & L10 & M10 & _). { apply (scope_make q9 ce x nodes); [|exact DX9]. eapply holds_inside, Forall2_later; eauto. }
  pose proof (later_reach _ _ R9 L10) as R10.
  exists nodes. eexists. exists q10. split; [unfold sqp_setup; run A1; run A2; run A3; run A4; run A5; run A6; run A7; run A8; run A9; run A10; reflexivity|]. split; [exact D|].
  pose proof (later_trans _ _ _ L39 L10) as L310.
  assert (L610 : later q6 q10) by (eapply later_trans; [exact L68|eapply later_trans; eauto]).
  assert (L810 : later q8 q10) by (eapply later_trans; eauto).
  assert (L710 : later q7 q10) by (eapply later_trans; eauto).
  assert (L510 : later q5 q10) by (eapply later_trans; eauto).
  assert (L210 : later q2 q10) by (eapply later_trans; eauto).
  constructor; cbn [t_x t_f t_ce t_ci t_y t_z t_g t_Hf t_Hc t_Ae t_Ai]; try (intros X; exfalso; congruence).
  - exact R10.
  - exact (later_trans _ _ _ L02 L210).
  - eapply Forall2_later_d; [exact L10|exact DX9].
  - destruct (p_f p) as [i0|]; [destruct H2 as (n & Ha & Hb); exists n; split; [exact Ha|eapply later_holds; eauto]|eapply born_later; eauto].
  - pose proof (later_len _ _ L210). lia.
  - eapply same_later; [exact L310|]. eapply holds_lists; eauto.
  - rewrite E2. constructor.
  - exists ys, []. split; [eapply Forall2_later_d; [|exact Y6]; exact L610|]. rewrite E2, app_nil_r. split; [constructor|]. split; [|split; [|split; [reflexivity|]]].
    + apply nodup_app2; auto. intros k Ha Hb. apply Nl in Ha. apply FY in Hb. apply later_parts in L03 as (_ & _ & (more & G) & _). change (st_nodes (qst q0)) with (st_nodes (p_st p)) in G. rewrite G, app_length in Hb. lia.
    + rewrite <- LY. symmetry. eapply f2len; eauto.
    + intros m Hm. apply FY in Hm. apply later_parts in L03 as (_ & _ & (more & G) & _). change (st_nodes (qst q0)) with (st_nodes (p_st p)) in G. rewrite G, app_length in Hm. lia.
  - eapply made_later; [|exact M5]; exact L510.
  - eapply made_later; [|exact M6]. exact L610.
  - intros _. exists ny, L, L. split; [exact (negs_later _ _ _ _ L710 N7)|]. split; [exact (product_later _ _ _ _ _ L810 P8)|]. split; [auto|]. split; [discriminate|]. eapply made_later; [|exact M9]; exact L10.
  - intros _. exact M10.
Qed.

Lemma ipm_ready p : pinv p ->
  exists nodes t q, ipm_setup p (p_env p, [], p_st p) = Ok (t, q) /\ Forall2 (decides (p_env p) (p_st p)) (p_dec p) nodes /\ ready KIpm p nodes t q.
Proof.
  intros I0. destruct (p_slots p I0) as (nodes & fs & es & ins & D & N & Nl & Hf & He & Hi). pose proof (i_reach _ I0) as R0.
  set (q0 := (p_env p, [], p_st p) : jstate S) in *.
  destruct (jcopies_ok (p_dec p) nodes q0 R0) as (x & q1 & A1 & L1 & X1). { eapply JacProofs.Forall2_impl; [|exact D]. intros a b. apply decides_holds. }
  pose proof (later_reach _ _ R0 L1) as R1. pose proof (later_parts _ _ L1) as (_ & K1 & G1 & _).
  pose proof (decides_both _ _ _ _ _ _ _ D G1 X1) as DX1.
  destruct (cost_ok p q1 I0 R1 K1) as (f & q2 & A2 & L2 & F2 & H2). pose proof (later_reach _ _ R1 L2) as R2.
  pose proof (later_trans _ _ _ L1 L2) as L02.
  destruct (jcopies_ok (p_eq p) es q2 R2) as (ce & q3 & A3 & L3 & C3). { apply (Forall2_later q0 q2); [exact L02|exact He]. }
  pose proof (later_reach _ _ R2 L3) as R3. pose proof (later_trans _ _ _ L02 L3) as L03.
  destruct (jcopies_ok (p_ineq p) ins q3 R3) as (ci & q3' & A3' & L3' & C3'). { apply (Forall2_later q0 q3); [exact L03|exact Hi]. }
  pose proof (later_reach _ _ R3 L3') as R3'. pose proof (later_trans _ _ _ L03 L3') as L03'.
  destruct (jnews_ok (length (p_eq p)) q3' R3') as (y & qy & ys & Ay & Ly & Yy & LY & NY & FY).
  pose proof (later_reach _ _ R3' Ly) as Ry. pose proof (later_trans _ _ _ L03' Ly) as L0y.
  destruct (jnews_ok (length (p_ineq p)) qy Ry) as (z & q4 & zs & A4 & L4 & Z4 & LZ & NZ & FZ).
  pose proof (later_reach _ _ Ry L4) as R4.
  assert (L24 : later q2 q4) by (eapply later_trans; [exact L3|eapply later_trans; [exact L3'|eapply later_trans; eauto]]).
  assert (L34 : later q3 q4) by (eapply later_trans; [exact L3'|eapply later_trans; eauto]).
  assert (L34' : later q3' q4) by (eapply later_trans; eauto).
  pose proof (later_trans _ _ _ L2 L24) as L14. pose proof (later_trans _ _ _ L1 L14) as L04.
  pose proof (Forall2_later_d _ _ _ _ L14 DX1) as DX4. pose proof (Forall2_later_d _ _ _ _ L4 Yy) as Y4.
  assert (F4 : f < length (qenv q4)) by (pose proof (later_len _ _ L24); lia).
  destruct (jmat_ok (JMake [f] x) q4 R4 I) as (q5 & A5 & L5 & M5 & _). { apply (scope_make q4 [f] x nodes); [apply inside_one, F4|exact DX4]. }
  pose proof (later_reach _ _ R4 L5) as R5. pose proof (later_len _ _ L5) as LL5. pose proof (Forall2_later_d _ _ _ _ L5 DX4) as DX5.
  destruct (jmat_ok (JHess f x true) q5 R5 I) as (q6 & A6 & L6 & M6 & _). { apply (scope_hess q5 f x nodes); [lia|exact DX5]. }
  pose proof (later_reach _ _ R5 L6) as R6. pose proof (later_trans _ _ _ L5 L6) as L46. pose proof (Forall2_later_d _ _ _ _ L6 DX5) as DX6.
  pose proof (Forall2_later_d _ _ _ _ L46 Y4) as Y6. pose proof (Forall2_later_d _ _ _ _ L46 Z4) as Z6.
  destruct (jneg_ok y q6 R6) as (ny & q7 & A7 & L7 & I7 & N7). { eapply holds_inside, Forall2_holds, Y6. }
  pose proof (later_reach _ _ R6 L7) as R7. pose proof (later_trans _ _ _ L46 L7) as L47.
  destruct (jprod_ok ny ce q7 R7 I7) as (Le & q8 & A8 & L8 & F8 & P8). { eapply holds_inside, (Forall2_later q3); [eapply later_trans; eauto|exact C3]. }
  pose proof (later_reach _ _ R7 L8) as R8. pose proof (later_trans _ _ _ L47 L8) as L48.
  destruct (jprod_ok z ci q8 R8) as (Li & q8' & A8' & L8' & F8' & P8').
  { eapply holds_inside, Forall2_holds, (Forall2_later_d q4); [exact L48|exact Z4]. } { eapply holds_inside, (Forall2_later q3'); [eapply later_trans; eauto|exact C3']. }
  pose proof (later_reach _ _ R8 L8') as R8'. pose proof (later_len _ _ L8') as LL8.
  destruct (jvar_some (HBin BSub Le Li) q8' R8' eq_refl) as (L & qL & AL & LL & FL & BL). { split; lia. }
  pose proof (later_reach _ _ R8' LL) as RL.
  assert (L4L : later q4 qL) by (eapply later_trans; [exact L48|eapply later_trans; eauto]).
  pose proof (Forall2_later_d _ _ _ _ L4L DX4) as DXL.
  destruct (jmat_ok (JHess L x true) qL RL I) as (q9 & A9 & L9 & M9 & _). { apply (scope_hess qL L x nodes); [lia|exact DXL]. }
  pose proof (later_reach _ _ RL L9) as R9. pose proof (Forall2_later_d _ _ _ _ L9 DXL) as DX9. pose proof (later_trans _ _ _ L4L L9) as L49.
  destruct (jmat_ok (JMake ce x) q9 R9 I) as (q10 & A10 & L10 & M10 & _).
  { apply (scope_make q9 ce x nodes); [|exact DX9]. eapply holds_inside, (Forall2_later q3); [eapply later_trans; eauto|exact C3]. }
  pose proof (later_reach _ _ R9 L10) as R10. pose proof (Forall2_later_d _ _ _ _ L10 DX9) as DX10. pose proof (later_trans _ _ _ L49 L10) as L410.
  destruct (jmat_ok (JMake ci x) q10 R10 I) as (q11 & A11 & L11 & M11 & _).
  { apply (scope_make q10 ci x nodes); [|exact DX10]. eapply holds_inside, (Forall2_later q3'); [eapply later_trans; eauto|exact C3']. }
  pose proof (later_reach _ _ R10 L11) as R11.
  exists nodes. eexists. exists q11.
  split; [unfold ipm_setup; run A1; run A2; run A3; run A3'; run Ay; run A4; run A5; run A6; run A7; run A8; run A8'; run AL; run A9; run A10; run A11; reflexivity|]. split; [exact D|].
  pose proof (later_trans _ _ _ L10 L11) as L911. pose proof (later_trans _ _ _ L9 L911) as LL11. pose proof (later_trans _ _ _ LL LL11) as L811'.
  pose proof (later_trans _ _ _ L8' L811') as L811. pose proof (later_trans _ _ _ L8 L811) as L711. pose proof (later_trans _ _ _ L7 L711) as L611.
  pose proof (later_trans _ _ _ L6 L611) as L511. pose proof (later_trans _ _ _ L5 L511) as L411. pose proof (later_trans _ _ _ L24 L411) as L211.
  constructor; cbn [t_x t_f t_ce t_ci t_y t_z t_g t_Hf t_Hc t_Ae t_Ai]; try (intros X; exfalso; congruence).
  - exact R11.
  - exact (later_trans _ _ _ L04 L411).
  - eapply Forall2_later_d; [exact L11|exact DX10].
  - destruct (p_f p) as [i0|]; [destruct H2 as (n & Ha & Hb); exists n; split; [exact Ha|eapply later_holds; eauto]|eapply born_later; eauto].
  - pose proof (later_len _ _ L211). lia.
  - eapply same_later; [eapply later_trans; [exact L34|exact L411]|]. eapply holds_lists; eauto.
  - eapply same_later; [eapply later_trans; [exact L34'|exact L411]|]. eapply holds_lists; eauto.
  - exists ys, zs. split; [eapply Forall2_later_d; [|exact Y6]; exact L611|]. split; [eapply Forall2_later_d; [|exact Z6]; exact L611|].
    assert (G : length (st_nodes (p_st p)) <= length (st_nodes (qst q3')) /\ length (st_nodes (qst q3')) <= length (st_nodes (qst qy))).
    { apply later_parts in L03' as (_ & _ & (more & G) & _). apply later_parts in Ly as (_ & _ & (more' & G') & _). change (st_nodes (qst q0)) with (st_nodes (p_st p)) in G. rewrite G', G, !app_length. lia. }
    split; [|split; [|split]].
    + apply nodup_app2; auto; [apply nodup_app2; auto|].
      * intros k Ha Hb. apply FY in Ha. apply FZ in Hb. lia.
      * intros k Ha Hb. apply Nl in Ha. apply in_app_or in Hb as [Hb|Hb]; [apply FY in Hb|apply FZ in Hb]; lia.
    + rewrite <- LY. symmetry. eapply f2len; eauto.
    + rewrite <- LZ. symmetry. eapply f2len; eauto.
    + intros m Hm. apply in_app_or in Hm as [Hm|Hm]; [apply FY in Hm|apply FZ in Hm]; lia.
  - eapply made_later; [|exact M5]; exact L511.
  - eapply made_later; [|exact M6]. exact L611.
  - intros _. exists ny, Le, L. split; [exact (negs_later _ _ _ _ L711 N7)|]. split; [exact (product_later _ _ _ _ _ L811 P8)|]. split; [discriminate|]. split.
    + intros _. exists Li. split; [exact (product_later _ _ _ _ _ L811' P8')|exact (born_later _ _ _ _ LL11 BL)].
    + eapply made_later; [|exact M9]; exact L911.
  - intros _. eapply made_later; [|exact M10]; exact L11.
  - intros _. exact M11.
Qed.

End Later.
