(** Matrices depend only on the graph and the leaf values (C26, C27). *)
From Coq Require Import ZArith List Bool Arith Lia.
From Verif Require Import Base ExprModel GraphSpec GraphProofs ExprInv VarModel VarReach VarProofs
  JacModel AdjProofs JacProofs SymProofs JacReach JacHist.
Import ListNotations.

Section Same.
Context {S : sops}.
Implicit Types (s : st S) (e : henv).

Definition leaves_kept s s' : Prop :=
  forall n, is_kconst (st_nodes s) n \/ is_kvar (st_nodes s) n -> st_val s' n = st_val s n.

Lemma eval_kept s s' : wf s -> wf s' -> grows s s' -> leaves_kept s s' ->
  forall n, n < nlen s -> eval (st_nodes s') (st_val s') n = eval (st_nodes s) (st_val s) n.
Proof.
  intros W W' G L n. induction n as [n IH] using (well_founded_induction lt_wf). intros Hn.
  rewrite (eval_eq _ _ n W), (eval_eq _ _ n W'). destruct (nth_valid s n Hn) as ([k t] & E).
  rewrite (grows_nth s s' n _ G E), E. destruct (W n _ E) as [A _]. cbn [n_kind n_args] in *.
  destruct k as [| |u a|b x y]; cbn in A.
  - apply L. left. exists (mkN KConst t). auto.
  - apply L. right. exists (mkN KVar t). auto.
  - assert (a < n) by auto. rewrite IH by lia. reflexivity.
  - assert (x < n) by auto. assert (y < n) by auto. rewrite !IH by lia. reflexivity.
Qed.

Lemma row_kept s s' r l o wrt row : wf s -> wf s' -> grows s s' -> leaves_kept s s' -> r < nlen s ->
  sorted (st_nodes s) r l -> o = outs_of wrt l ->
  row_triplets row (st_nodes s') (eval (st_nodes s') (st_val s')) l o =
  row_triplets row (st_nodes s) (eval (st_nodes s) (st_val s)) l o.
Proof.
  intros W W' G L Hr Hs ->. pose proof (sorted_valid s r l W Hr Hs) as Hv. pose proof G as (more & N).
  apply row_triplets_ext. intros c m Hi. apply outs_in in Hi as [Hi _]. unfold adj_final.
  assert (E : adj_run (st_nodes s') (eval (st_nodes s') (st_val s')) l (seed l (fun _ => s_ofZ S 0)) =
    adj_run (st_nodes s) (eval (st_nodes s') (st_val s')) l (seed l (fun _ => s_ofZ S 0))).
  { rewrite N at 1. apply adj_run_grows, Hv. }
  rewrite E. apply (adj_agree (st_nodes s) _ _ l (closed_incl _ _ (sorted_closed _ _ _ Hs))); auto using incl_refl.
  intros n Hn. apply eval_kept; auto.
Qed.

Lemma nl_kept s s' wrt vars lists rows : wf s -> clean_scr s -> wf s' -> grows s s' -> leaves_kept s s' ->
  Forall2 (sort_is s) vars lists ->
  nl_triplets (st_nodes s') (st_val s') rows lists wrt = nl_triplets (st_nodes s) (st_val s) rows lists wrt.
Proof.
  intros W C W' G L Hl. unfold nl_triplets. induction rows as [|r rows IH]; [reflexivity|]. cbn [flat_map]. rewrite IH. f_equal.
  destruct (nth_error lists r) as [l|] eqn:El; [|reflexivity].
  assert (K : exists v, sort_is s v l).
  { clear - Hl El. revert r El. induction Hl as [|v l' vars lists H _ IH]; intros [|r] E; cbn in E; try discriminate.
    - injection E as ->. exists v. exact H.
    - eapply IH; eauto. }
  destruct K as ([n|] & Hs).
  - eapply row_kept; eauto; [exact (proj1 Hs)|apply sort_is_sorted; assumption].
  - cbn in Hs. subst l. reflexivity.
Qed.

Lemma sort_is_det s v l l' : sort_is s v l -> sort_is s v l' -> l = l'.
Proof.
  destruct v as [n|]; cbn; [|congruence]. intros (_ & scr & E) (_ & scr' & E'). rewrite E in E'. injection E' as ->. reflexivity.
Qed.
Lemma sort_list_det s vars : forall ls ls', Forall2 (sort_is s) vars ls -> Forall2 (sort_is s) vars ls' -> ls = ls'.
Proof.
  induction vars as [|v vars IH]; intros ls ls' H H'; inversion H; inversion H'; subst; [reflexivity|].
  f_equal; [eapply sort_is_det; eauto|apply IH; assumption].
Qed.

Lemma matrix_same s s' (j j' : jac S) : wf s -> clean_scr s -> wf s' -> clean_scr s' -> grows s s' -> leaves_kept s s' ->
  jacok s j -> jacok s' j' -> j_vars j' = j_vars j -> j_wrt j' = j_wrt j -> jac_matrix s' j' = jac_matrix s j.
Proof.
  intros W C W' C' G L (Hw & Hl & _ & Hn & Hc & _) (Hw' & Hl' & _ & Hn' & Hc' & _) Ev Ew.
  assert (El : j_lists j' = j_lists j).
  { eapply (sort_list_det s' (j_vars j)); [rewrite <- Ev; exact Hl'|].
    eapply Forall2_impl; [|exact Hl]. intros a b. apply sort_is_grows; assumption. }
  unfold jac_matrix. rewrite Hc, Hc', Hn, Hn', El, Ev, Ew. f_equal.
  - apply lin_same; auto.
  - rewrite (nonlin_same s s' (j_vars j) (j_lists j) 0 G Hl). eapply nl_kept; eauto.
Qed.

(** The derivative statements. *)
Definition derives (o : jop S) : Prop := match o with JH _ => False | _ => True end.

Lemma derive_frame o e js s e' js' s' out : jinv (e, js, s) -> jscope (e, js, s) o -> derives o ->
  jstep o (e, js, s) = Ok ((e', js', s'), out) ->
  grows s s' /\ leaves_kept s s' /\ exists more, e' = e ++ more.
Proof.
  intros (H & A & J) Hsc D. pose proof H as (W & C & F). cbn [jscope] in Hsc. cbn [jstep].
  assert (Hx : forall s1 s2, ext s1 s2 -> leaves_kept s1 s2).
  { intros s1 s2 (_ & Fx & _) n Hn. apply Fx. unfold nlen.
    destruct Hn as [(nd & En & _)|(nd & En & _)]; apply nth_error_Some; congruence. }
  destruct o as [o|rows wrt|f wrt lower|k0|k0]; [destruct D| | | |].
  - destruct Hsc as [Hr Hw]. destruct (rows_get e s rows H Hr) as (vars & E1 & Fv & _). rewrite E1. cbn [obind].
    destruct (wrt_get e s wrt Hw) as (ws & E2 & Fw & _). rewrite E2. cbn [obind].
    destruct (jac_make_ok s vars ws W C) as (j & s1 & E & N & V & _).
    { eapply Forall_impl; [|exact Fv]. intros p. apply some_valid. }
    { eapply Forall_impl; [|exact Fw]. intros n. apply kvar_wrt, W. }
    rewrite E. cbn [obind]. intros Q. injection Q as <- <- <- <-. split; [apply grows_same, N|].
    split; [intros n _; rewrite V; reflexivity|]. exists []. rewrite app_nil_r. reflexivity.
  - destruct Hsc as [Hf Hw]. destruct (hvar_get e s f H Hf) as (v & n & Ev & Ei & En & Hn & _).
    unfold hexpr at 1. rewrite Ev. cbn [obind].
    destruct (wrt_get e s wrt Hw) as (ws & E2 & Fw & _). rewrite E2. cbn [obind].
    destruct (hess_make_ok s (v_expr v) ws W C A) as
      (l & s1 & g & s2 & j & s3 & _ & _ & N1 & V1 & A1 & C1 & _ & X2 & W2 & _ & _ & E & N & V & A' & C' & _ & Ew & Hj).
    { rewrite En. exact Hn. }
    { eapply Forall_impl; [|exact Fw]. intros m. apply kvar_wrt, W. }
    rewrite E. cbn [obind]. intros Q. injection Q as <- <- <- <-. split.
    { destruct (proj1 X2) as (more & Nm). exists more. rewrite N, Nm, N1. reflexivity. }
    split; [|exists []; rewrite app_nil_r; reflexivity].
    intros m Hm. rewrite V, (Hx s1 s2 X2 m), V1; [reflexivity|]. rewrite N1. exact Hm.
  - destruct (nth_error js k0) as [[j lower]|] eqn:Ek; [|apply nth_error_None in Ek; lia].
    pose proof (nth_Forall _ _ _ _ J Ek) as [Hj Hjw]. cbn [fst] in Hj, Hjw.
    destruct (jac_value_ok s j W C Hj) as (j1 & s1 & E & (N & Hv) & Ae & Sc & Ev & Ew & _ & Hj').
    rewrite E. cbn [obind]. intros Q. injection Q as <- <- <- <-. split; [apply grows_same, N|].
    split; [exact Hv|]. exists []. rewrite app_nil_r. reflexivity.
  - destruct (nth_error js k0) as [[j lower]|] eqn:Ek; [|apply nth_error_None in Ek; lia].
    pose proof (nth_Forall _ _ _ _ J Ek) as [Hj Hjw]. cbn [fst] in Hj, Hjw.
    destruct (jac_get_ok s j W C A Hj) as (m & s1 & E & X & _).
    rewrite E. cbn [obind]. intros Q. injection Q as <- <- <- <-. split; [exact (proj1 X)|].
    split; [apply Hx, X|]. eexists. reflexivity.
Qed.

(** C26. *)
Lemma c26 o e js s e' js' s' out : jreach (e, js, s) -> jscope (e, js, s) o -> derives o ->
  jstep o (e, js, s) = Ok ((e', js', s'), out) ->
  (forall n nd, nth_error (st_nodes s) n = Some nd -> nth_error (st_nodes s') n = Some nd) /\
  leaves_kept s s' /\
  (exists more, e' = e ++ more) /\
  (forall n x, n < length (st_nodes s) -> (Ev (st_nodes s) (st_val s) n x <-> Ev (st_nodes s') (st_val s') n x)) /\
  (forall n, st_adje s' n = None /\ st_scr s' n = (-1)%Z) /\
  (forall k, k < length js -> exists q1 q2 m, jstep (JValue k) (e, js, s) = Ok (q1, [OMat m]) /\
     jstep (JValue k) (e', js', s') = Ok (q2, [OMat m])).
Proof.
  intros R Hsc D E. pose proof (jreach_inv _ R) as I. pose proof I as ((W & C & F) & A & J).
  assert (Hk : keeps_constants (e, js, s) o) by (destruct o; [destruct D|exact Logic.I..]).
  pose proof (jreach_step o _ _ _ R Hsc Hk E) as R'. pose proof (jreach_inv _ R') as I'. pose proof I' as ((W' & C' & F') & A' & J').
  destruct (derive_frame o e js s e' js' s' out I Hsc D E) as (G & L & Ee).
  destruct (jstep_keep o e js s e' js' s' out I Hsc E) as (_ & Keep).
  split; [intros n nd; apply grows_nth, G|]. split; [exact L|]. split; [exact Ee|]. split; [|split; [intros n; split; [apply A'|apply C']|]].
  - intros n x Hn. pose proof (grows_len s s' G) as Ln. unfold nlen in Ln. split; intros H.
    + apply (Ev_eval _ _ _ _ W) in H. subst x. rewrite <- (eval_kept s s' W W' G L n Hn). apply eval_Ev; [exact W'|lia].
    + apply (Ev_eval _ _ _ _ W') in H. subst x. rewrite (eval_kept s s' W W' G L n Hn). apply eval_Ev; assumption.
  - intros k Lk. destruct (nth_error js k) as [[j b]|] eqn:Ek; [|apply nth_error_None in Ek; lia].
    destruct (Keep k j b Ek) as (j' & Ek' & Ev & Ew).
    destruct (jvalue_is e js s k j b I Ek) as (q1 & E1). destruct (jvalue_is e' js' s' k j' b I' Ek') as (q2 & E2).
    pose proof (nth_Forall _ _ _ _ J Ek) as [Hj _]. pose proof (nth_Forall _ _ _ _ J' Ek') as [Hj' _]. cbn [fst] in Hj, Hj'.
    rewrite (matrix_same s s' j j' W C W' C' G L Hj Hj' Ev Ew) in E2. exists q1, q2. eexists. split; [exact E1|exact E2].
Qed.

Lemma Forall2_compose {A B C} (P : A -> B -> Prop) (Q : B -> C -> Prop) (T : A -> C -> Prop) l1 l2 l3 :
  (forall a b c, P a b -> Q b c -> T a c) -> Forall2 P l1 l2 -> Forall2 Q l2 l3 -> Forall2 T l1 l3.
Proof.
  intros H F. revert l3. induction F as [|a b l1 l2 Hab F IH]; intros l3 G; inversion G; subst; constructor; eauto.
Qed.
Lemma Forall2_fun_eq {A B} (P Q : A -> B -> Prop) l l1 l2 : (forall a b c, P a b -> Q a c -> b = c) ->
  Forall2 P l l1 -> Forall2 Q l l2 -> l1 = l2.
Proof.
  intros H F. revert l2. induction F as [|a b l l1 Hab F IH]; intros l2 G; inversion G; subst; [reflexivity|].
  f_equal; eauto.
Qed.

(** C27. *)
Lemma c27 e js s rows wrt q1 out e2 js2 s2 rows2 wrt2 : jreach (e, js, s) -> jscope (e, js, s) (JMake rows wrt) ->
  jstep (JMake rows wrt) (e, js, s) = Ok (q1, out) -> jcareful q1 (e2, js2, s2) ->
  Forall2 (fun i i2 => exists n, holds e i n /\ holds e2 i2 n) rows rows2 ->
  Forall2 (fun i i2 => exists n, holds e i n /\ holds e2 i2 n) wrt wrt2 ->
  exists q3 q4 q5 m, jstep (JValue (length js)) (e2, js2, s2) = Ok (q3, [OMat m]) /\
    jstep (JMake rows2 wrt2) (e2, js2, s2) = Ok (q4, []) /\ jstep (JValue (length js2)) q4 = Ok (q5, [OMat m]).
Proof.
  intros R Hsc E K Fr Fw. pose proof (jreach_inv _ R) as I.
  destruct (jmake_is rows wrt e js s q1 out I Hsc E) as (j & s1 & -> & -> & N1 & Vj & Wj).
  assert (R1 : jreach (e, js ++ [(j, false)], s1)) by (eapply jreach_step; eauto; exact Logic.I).
  pose proof (jcareful_reach _ _ R1 K) as R2. pose proof (jreach_inv _ R2) as I2. pose proof I2 as (H2 & A2 & J2).
  destruct (jcareful_keep _ _ R1 K) as [G Keep].
  assert (Ek : nth_error (js ++ [(j, false)]) (length js) = Some (j, false)) by (rewrite nth_error_app2, Nat.sub_diag by lia; reflexivity).
  destruct (Keep _ _ _ Ek) as (j2 & Ek2 & Ev2 & Ew2).
  destruct (jvalue_is e2 js2 s2 (length js) j2 false I2 Ek2) as (q3 & E3).
  assert (Hsc2 : jscope (e2, js2, s2) (JMake rows2 wrt2)).
  { split.
    - intros i Hi. clear - Fr Hi. induction Fr as [|a b l l' (n & _ & (v & Ev & _)) F IH]; [destruct Hi|].
      destruct Hi as [<-|Hi]; [apply nth_error_Some; congruence|apply IH, Hi].
    - intros i Hi. clear - Fw Wj N1 G Hi.
      assert (F : Forall2 (fun w i2 => holds e2 i2 w /\ is_kvar (st_nodes s) w) (j_wrt j) wrt2).
      { apply (Forall2_compose (fun w i => decides e s i w) (fun i i2 => exists n, holds e i n /\ holds e2 i2 n) _ _ wrt); [| |exact Fw].
        - intros w a b (v & Ev & En & Kw) (n & (v' & Ev' & En') & H2). rewrite Ev in Ev'. injection Ev' as <-.
          rewrite En in En'. injection En' as <-. auto.
        - clear - Wj. induction Wj; constructor; auto. }
      clear - F G N1 Hi. induction F as [|w b l l' ((v & Ev & En) & Kw) F IH]; [destruct Hi|].
      destruct Hi as [<-|Hi]; [|apply IH, Hi]. exists w, v. split; [exact Ev|]. split; [exact En|].
      apply (kvar_grows s1 s2); [exact G|]. rewrite N1. exact Kw. }
  destruct (jstep_ok (JMake rows2 wrt2) _ I2 Hsc2 Logic.I) as (q4 & out4 & E4 & I4).
  destruct (jmake_is rows2 wrt2 e2 js2 s2 q4 out4 I2 Hsc2 E4) as (j4 & s4 & -> & -> & N4 & V4 & W4).
  assert (Ek4 : nth_error (js2 ++ [(j4, false)]) (length js2) = Some (j4, false)) by (rewrite nth_error_app2, Nat.sub_diag by lia; reflexivity).
  destruct (jvalue_is e2 _ s4 (length js2) j4 false I4 Ek4) as (q5 & E5).
  exists q3, (e2, js2 ++ [(j4, false)], s4), q5, (jac_matrix s2 j2). split; [exact E3|]. split; [exact E4|].
  rewrite E5. f_equal. f_equal. f_equal. f_equal.
  destruct (derive_frame _ _ _ _ _ _ _ _ I2 Hsc2 Logic.I E4) as (G4 & L4 & _).
  pose proof I4 as ((W4' & C4' & _) & _ & J4). pose proof H2 as (W2 & C2 & _).
  pose proof (nth_Forall _ _ _ _ J2 Ek2) as [Hj2 _]. pose proof (nth_Forall _ _ _ _ J4 Ek4) as [Hj4 _]. cbn [fst] in Hj2, Hj4.
  apply matrix_same; auto.
  - rewrite Ev2. symmetry. apply (Forall2_fun_eq (fun i p => exists v, nth_error e i = Some v /\ v_expr v = p)
      (fun i p => exists i2 n, holds e i n /\ holds e2 i2 n /\ exists v, nth_error e2 i2 = Some v /\ v_expr v = p) rows); [|exact Vj|].
    + intros i p p' (v & E1 & P1) (i2 & n & (v' & E1' & P1') & (v2 & E2' & P2) & (v3 & E3' & P3)). congruence.
    + eapply (Forall2_compose (fun i i2 => exists n, holds e i n /\ holds e2 i2 n)); [|exact Fr|exact V4].
      intros a b c (n & H & H') (v & X & Y). exists b, n. eauto.
  - rewrite Ew2. symmetry. apply (Forall2_fun_eq (decides e s)
      (fun i w => exists i2 n, holds e i n /\ holds e2 i2 n /\ decides e2 s2 i2 w) wrt); [|exact Wj|].
    + intros i p p' (v & E1 & P1 & _) (i2 & n & (v' & E1' & P1') & (v2 & E2' & P2) & (v3 & E3' & P3 & _)). congruence.
    + eapply (Forall2_compose (fun i i2 => exists n, holds e i n /\ holds e2 i2 n)); [|exact Fw|exact W4].
      intros a b c (n & H & H') D. exists b, n. auto.
Qed.

(** Triplets lie inside the matrix. *)
Lemma outs_lt wrt l c n : In (c, n) (outs_of wrt l) -> c < length wrt.
Proof. intros H. apply outs_in in H as [_ H]. apply col_some in H as [_ H]. rewrite Nat.sub_0_r in H. apply nth_error_Some. congruence. Qed.

Lemma row_in row ns (val : nat -> S) l wrt i c x : In (i, c, x) (row_triplets row ns val l (outs_of wrt l)) -> i = row /\ c < length wrt.
Proof.
  unfold row_triplets. intros H. apply in_map_iff in H as ([c' n] & E & H). injection E as <- <- _. split; [reflexivity|eapply outs_lt; eauto].
Qed.

Lemma lin_in ns (val : nat -> S) wrt vars : forall row lists i c x, In (i, c, x) (lin_triplets ns val row vars lists wrt) ->
  row <= i < row + length vars /\ c < length wrt.
Proof.
  induction vars as [|v vars IH]; intros row lists i c x H; [destruct H|]. cbn [lin_triplets] in H.
  destruct lists as [|l lists]; [destruct H|]. apply in_app_or in H as [H|H].
  - destruct v as [n|]; [|destruct H]. destruct (etype_eqb _ _); [|destruct H]. apply row_in in H as [-> H]. cbn. lia.
  - apply IH in H. cbn. lia.
Qed.

Lemma matrix_in s (j : jac S) i c x : jacok s j -> In (i, c, x) (jac_matrix s j) -> i < length (j_vars j) /\ c < length (j_wrt j).
Proof.
  intros (_ & _ & _ & Hn & Hc & _) H. unfold jac_matrix in H. apply in_app_or in H as [H|H].
  - rewrite Hc in H. apply lin_in in H. lia.
  - unfold nl_triplets in H. apply in_flat_map in H as (r & Hr & H). rewrite Hn in Hr. apply nonlin_lt in Hr.
    destruct (nth_error (j_lists j) r); [|destruct H]. apply row_in in H as [-> H]. lia.
Qed.

End Same.
