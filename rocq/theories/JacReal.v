(** Reachable Jacobians and Hessians over the reals (C22, C25, C29). *)
From Coq Require Import ZArith Reals List Bool Arith Lia Lra.
From Coquelicot Require Import Coquelicot.
From Verif Require Import Base ExprModel GraphSpec GraphProofs ExprInv ExprReal MathSpec MathProofs VarModel VarReach VarProofs
  DiffSpec DegreeSpec OpDeriv JacModel AdjProofs JacProofs SymProofs GradProofs SymReal JacReach JacHist JacSame.
Import ListNotations.
Local Open Scope nat_scope.

Notation stR := (st R_ops).

(** ** Transport along growth. *)
Lemma args_grows (s s' : stR) n : grows s s' -> n < nlen s -> args (st_nodes s') n = args (st_nodes s) n.
Proof.
  intros G Hn. unfold args. destruct (nth_valid s n Hn) as (nd & E). rewrite (grows_nth s s' n nd G E), E. reflexivity.
Qed.

Lemma reach_grows (s s' : stR) r n : wf s -> grows s s' -> r < nlen s -> reach (st_nodes s') r n -> reach (st_nodes s) r n /\ n < nlen s.
Proof.
  intros W G Hr H. induction H as [|n a H [IH Ln] Ha]; [split; [constructor|exact Hr]|].
  rewrite (args_grows s s' n G Ln) in Ha. pose proof (wfn_acyclic _ W n a Ha). split; [eapply reach_arg; eauto|lia].
Qed.
Lemma reach_grows' (s s' : stR) r n : wf s -> grows s s' -> r < nlen s -> reach (st_nodes s) r n -> reach (st_nodes s') r n /\ n < nlen s.
Proof.
  intros W G Hr H. induction H as [|n a H [IH Ln] Ha]; [split; [constructor|exact Hr]|].
  pose proof (wfn_acyclic _ W n a Ha). rewrite <- (args_grows s s' n G Ln) in Ha. split; [eapply reach_arg; eauto|lia].
Qed.

Lemma eval_grows (s s' : stR) lv n : wf s -> wf s' -> grows s s' -> n < nlen s ->
  eval (S := R_ops) (st_nodes s') lv n = eval (S := R_ops) (st_nodes s) lv n.
Proof. intros W W' (m & E) Hn. unfold wf in *. rewrite E in *. apply eval_app; assumption. Qed.

Lemma Ev_grows (s s' : stR) lv n x : wf s -> wf s' -> grows s s' -> n < nlen s ->
  Ev (S := R_ops) (st_nodes s) lv n x -> Ev (S := R_ops) (st_nodes s') lv n x.
Proof.
  intros W W' G Hn H. apply (Ev_eval _ _ _ _ W) in H. subst x. rewrite <- (eval_grows s s' lv n W W' G Hn).
  apply eval_Ev; [exact W'|]. pose proof (grows_len s s' G). unfold nlen in *. lia.
Qed.
Lemma Ev_shrinks (s s' : stR) lv n x : wf s -> wf s' -> grows s s' -> n < nlen s ->
  Ev (S := R_ops) (st_nodes s') lv n x -> Ev (S := R_ops) (st_nodes s) lv n x.
Proof.
  intros W W' G Hn H. apply (Ev_eval _ _ _ _ W') in H. subst x. rewrite (eval_grows s s' lv n W W' G Hn).
  apply eval_Ev; [exact W|exact Hn].
Qed.

Lemma kconst_shrinks (s s' : stR) n : grows s s' -> n < nlen s -> is_kconst (st_nodes s') n -> is_kconst (st_nodes s) n.
Proof.
  intros G Hn (nd & E & K). destruct (nth_valid s n Hn) as (nd' & E'). rewrite (grows_nth s s' n nd' G E') in E. injection E as <-.
  exists nd'. auto.
Qed.

Lemma regular_shrinks (s s' : stR) lv r : wf s -> wf s' -> grows s s' -> r < nlen s ->
  regular (st_nodes s') lv r -> regular (st_nodes s) lv r.
Proof.
  intros W W' G Hr H n Hn. destruct (reach_grows' s s' r n W G Hr Hn) as [Hn' Ln].
  intros nd E. specialize (H n Hn' nd (grows_nth s s' n nd G E)). destruct (W n nd E) as [A _]. unfold n_args in A.
  destruct (n_kind nd) as [| |u a|b x y]; [exact I|exact I| |].
  - intros v Hv. apply H. apply (Ev_grows s s'); auto. assert (a < n) by (apply A; left; reflexivity). lia.
  - assert (x < n) by (apply A; left; reflexivity). assert (y < n) by (apply A; right; left; reflexivity).
    intros v v' Hv Hv'. destruct (H v v') as [D|(D & K & P)]; [apply (Ev_grows s s'); auto; lia..|left; exact D|].
    right. split; [exact D|]. split; [apply (kconst_shrinks s s'); auto; lia|exact P].
Qed.

Lemma regular_grows (s s' : stR) lv r : wf s -> wf s' -> grows s s' -> r < nlen s ->
  regular (st_nodes s) lv r -> regular (st_nodes s') lv r.
Proof.
  intros W W' G Hr H n Hn. destruct (reach_grows s s' r n W G Hr Hn) as [Hn' Ln].
  intros nd E. destruct (nth_valid s n Ln) as (nd' & E'). rewrite (grows_nth s s' n nd' G E') in E. injection E as ->.
  specialize (H n Hn' nd E'). destruct (W n nd E') as [A _]. unfold n_args in A.
  destruct (n_kind nd) as [| |u a|b x y]; [exact I|exact I| |].
  - intros v Hv. apply H. apply (Ev_shrinks s s'); auto. assert (a < n) by (apply A; left; reflexivity). lia.
  - assert (x < n) by (apply A; left; reflexivity). assert (y < n) by (apply A; right; left; reflexivity).
    intros v v' Hv Hv'. destruct (H v v') as [D|(D & (ndc & Ec & K) & P)]; [apply (Ev_shrinks s s'); auto; lia..|left; exact D|].
    right. split; [exact D|]. split; [exists ndc; split; [eapply grows_nth; eauto|exact K]|exact P].
Qed.

Lemma smooth_regular ns lv r : smooth ns lv r -> regular ns lv r.
Proof. intros H n Hn. apply H, Hn. Qed.

Lemma row_grows (s s' : stR) lv r l w : wf s -> wf s' -> grows s s' -> r < nlen s -> sorted (st_nodes s) r l ->
  row_entry (st_nodes s') lv l w = row_entry (st_nodes s) lv l w.
Proof.
  intros W W' G Hr Hs. pose proof (sorted_valid s r l W Hr Hs) as Hv. pose proof G as (more & N).
  unfold row_entry. destruct (in_dec Nat.eq_dec w l) as [Hi|]; [|reflexivity]. unfold adj_final.
  assert (E : adj_run (S := R_ops) (st_nodes s') (eval (S := R_ops) (st_nodes s') lv) l (seed (S := R_ops) l (fun _ => 0%R)) =
    adj_run (S := R_ops) (st_nodes s) (eval (S := R_ops) (st_nodes s') lv) l (seed (S := R_ops) l (fun _ => 0%R))).
  { rewrite N at 1. apply adj_run_grows, Hv. }
  rewrite E. apply (adj_agree (S := R_ops) (st_nodes s) _ _ l (closed_incl _ _ (sorted_closed _ _ _ Hs))); auto using incl_refl.
  intros n Hn. apply eval_grows; auto.
Qed.

Lemma GEv_Ev ns lv n v : GEv ns lv n v -> Ev (S := R_ops) ns lv n v.
Proof.
  induction 1 as [n t E|n t E|n u a t x v E _ IH M|n b l r t x y v E _ IHl _ IHr M].
  - apply (Ev_const (S := R_ops) ns lv n t E).
  - apply (Ev_var (S := R_ops) ns lv n t E).
  - rewrite <- (un_value_math u x v M). eapply Ev_un; eauto.
  - rewrite <- (bin_value_math b x y v M). eapply Ev_bin; eauto.
Qed.

Lemma partial_gpartial ns lv r w d : wfn ns -> r < length ns -> partial ns lv r w d -> gpartial ns lv r w d.
Proof.
  intros W Hr H F HF. apply (is_derive_ext_loc (fun t => eval (S := R_ops) ns (upd lv w t) r)).
  - destruct HF as (eps & HF). exists eps. intros t Ht. symmetry. apply (Ev_eval (S := R_ops) _ _ _ _ W). apply GEv_Ev, HF, Ht.
  - apply H. intros t. apply eval_Ev; assumption.
Qed.

Lemma Forall2_get {A B} (P : A -> B -> Prop) l l' i a : Forall2 P l l' -> nth_error l i = Some a -> exists b, nth_error l' i = Some b /\ P a b.
Proof.
  intros H. revert i. induction H as [|x y l l' Hxy H IH]; intros [|i] E; cbn in E; try discriminate; [|apply IH, E].
  injection E as ->. exists y. auto.
Qed.

(** Every object in a reachable state: what value() shows. *)
Lemma objects (e : henv) js (s : stR) k j b : jreach (S := R_ops) (e, js, s) -> nth_error js k = Some (j, b) ->
  wf s /\ clean_scr s /\ jacok s j /\ List.Forall (is_kvar (st_nodes s)) (j_wrt j).
Proof.
  intros R Ek. destruct (jreach_inv _ R) as ((W & C & _) & _ & J). pose proof (nth_Forall _ _ _ _ J Ek) as [Hj Hw]. auto.
Qed.

Lemma entry_row (s : stR) (j : jac R_ops) i c w p : wf s -> clean_scr s -> jacok s j -> List.Forall (is_kvar (st_nodes s)) (j_wrt j) ->
  NoDup (j_wrt j) -> nth_error (j_wrt j) c = Some w -> nth_error (j_vars j) i = Some p ->
  exists l, sort_is s p l /\ nth_error (j_lists j) i = Some l /\
    entry (S := R_ops) (jac_matrix s j) i c = row_entry (st_nodes s) (st_val s) l w.
Proof.
  intros W C Hj Kw ND Hc Hi. pose proof Hj as (_ & Hl & _).
  destruct (Forall2_get _ _ _ i p Hl Hi) as (l & El & Hs). exists l. split; [exact Hs|]. split; [exact El|].
  rewrite (matrix_entry s (j_wrt j) W C ND Kw j i c w Hj eq_refl Hc), El. reflexivity.
Qed.

Lemma kvar_nonconst (s : stR) w : is_kvar (st_nodes s) w -> ~ is_kconst (st_nodes s) w.
Proof. intros (nd & E & K) (nd' & E' & K'). congruence. Qed.

Lemma c22 (e : henv) js (s : stR) rows wrt q1 out e2 js2 s2 : jreach (S := R_ops) (e, js, s) -> jscope (e, js, s) (JMake rows wrt) ->
  jstep (JMake rows wrt) (e, js, s) = Ok (q1, out) -> jcareful q1 (e2, js2, s2) -> distinct e s wrt ->
  exists m q3, jstep (JValue (length js)) (e2, js2, s2) = Ok (q3, [OMat m]) /\
    (forall i c x, In (i, c, x) m -> i < length rows /\ c < length wrt) /\
    forall i c ri ci n w, nth_error rows i = Some ri -> holds e ri n -> nth_error wrt c = Some ci -> decides e s ci w ->
      (smooth (st_nodes s2) (st_val s2) n ->
         partial (st_nodes s2) (st_val s2) n w (entry (S := R_ops) m i c) /\
         gpartial (st_nodes s2) (st_val s2) n w (entry (S := R_ops) m i c)) /\
      (~ reach (st_nodes s2) n w -> entry (S := R_ops) m i c = 0%R).
Proof.
  intros R Hsc E K D. pose proof (jreach_inv _ R) as I.
  destruct (jmake_is rows wrt e js s q1 out I Hsc E) as (j & s1 & -> & -> & N1 & Vj & Wj).
  assert (R1 : jreach (e, js ++ [(j, false)], s1)) by (eapply jreach_step; eauto; exact Logic.I).
  pose proof (jcareful_reach _ _ R1 K) as R2. pose proof (jreach_inv _ R2) as I2.
  destruct (jcareful_keep _ _ R1 K) as [G Keep].
  assert (Ek : nth_error (js ++ [(j, false)]) (length js) = Some (j, false)) by (rewrite nth_error_app2, Nat.sub_diag by lia; reflexivity).
  destruct (Keep _ _ _ Ek) as (j2 & Ek2 & Ev2 & Ew2).
  destruct (jvalue_is e2 js2 s2 (length js) j2 false I2 Ek2) as (q3 & E3).
  destruct (objects e2 js2 s2 (length js) j2 false R2 Ek2) as (W2 & C2 & Hj2 & Kw2).
  exists (jac_matrix s2 j2), q3. split; [exact E3|]. split.
  { intros i c x Hin. apply (matrix_in s2 j2 i c x Hj2) in Hin. rewrite Ev2, Ew2 in Hin.
    rewrite (Forall2_len _ _ _ Vj), (Forall2_len _ _ _ Wj). exact Hin. }
  intros i c ri ci n w Ei (v & Evr & En) Ec Dw.
  assert (Hi : nth_error (j_vars j2) i = Some (Some n)).
  { rewrite Ev2. destruct (Forall2_get _ _ _ i ri Vj Ei) as (p & Ep & (v' & E1 & E2)). rewrite Ep. rewrite Evr in E1. injection E1 as <-.
    rewrite <- E2, En. reflexivity. }
  assert (Hc : nth_error (j_wrt j2) c = Some w).
  { rewrite Ew2. destruct (Forall2_get _ _ _ c ci Wj Ec) as (p & Ep & (v' & E1 & E2 & _)). rewrite Ep.
    destruct Dw as (v'' & E1' & E2' & _). congruence. }
  assert (ND : NoDup (j_wrt j2)) by (rewrite Ew2; eapply distinct_nodup; eauto).
  destruct (entry_row s2 j2 i c w (Some n) W2 C2 Hj2 Kw2 ND Hc Hi) as (l & Hs & El & Ee). rewrite Ee.
  pose proof (sort_is_sorted s2 n l W2 C2 Hs) as Hsort. pose proof Hs as (Hn & _). unfold nlen in Hn.
  assert (Kw : is_kvar (st_nodes s2) w) by (rewrite List.Forall_forall in Kw2; apply Kw2; eapply nth_error_In; eauto).
  split.
  - intros Sm. assert (P : partial (st_nodes s2) (st_val s2) n w (row_entry (st_nodes s2) (st_val s2) l w)) by (apply grad_partial; auto).
    split; [exact P|]. apply partial_gpartial; auto.
  - intros Nr. unfold row_entry. destruct (in_dec Nat.eq_dec w l) as [Hw|]; [|reflexivity]. exfalso. apply Nr.
    destruct Hsort as [[_ ->]|[_ (_ & Hin & _)]]; [destruct Hw|]. apply Hin, Hw.
Qed.

(** ** C25 *)
Lemma emap_cons {A B} (f : A -> E R_ops B) x l s : emap f (x :: l) s =
  (let* (y, s) := f x s in let* (ys, s) := emap f l s in Ok (y :: ys, s)).
Proof.
  cbn [emap]. unfold ebind. destruct (f x s) as [[y s']| | |]; cbn [obind]; [|reflexivity..].
  destruct (emap f l s') as [[ys s'']| | |]; reflexivity.
Qed.

Lemma row_get (s : stR) v l wrt : wf s -> clean_scr s -> adje_none s -> List.Forall (is_kvar (st_nodes s)) wrt -> NoDup wrt ->
  sort_is s v l ->
  exists row s', (do g <- gradient_tree l wrt; emap or_zero g) s = Ok (row, s') /\ ext s s' /\ wf s' /\ adje_none s' /\
    Forall2 (fun w p => some_ptr s' p /\ forall lv, agrees s' lv -> (forall n, v = Some n -> regular (st_nodes s) lv n) ->
               pvalR s' lv p = row_entry (st_nodes s) lv l w) wrt row.
Proof.
  intros W C A0 Kw ND Hs.
  assert (K : exists g s1, gradient_tree l wrt s = Ok (g, s1) /\ ext s s1 /\ wf s1 /\ adje_none s1 /\ List.Forall (valid_ptr s1) g /\
    Forall2 (fun w p => forall lv, agrees s1 lv -> (forall n, v = Some n -> regular (st_nodes s) lv n) ->
       pvalR s1 lv p = row_entry (st_nodes s) lv l w) wrt g).
  { destruct v as [n|].
    - destruct (gradient_tree_R s n l wrt W (proj1 Hs) (sort_is_sorted s n l W C Hs) A0 Kw ND) as (g & s1 & E & X & W1 & A1 & Hg & _ & Q).
      exists g, s1. split; [exact E|]. split; [exact X|]. split; [exact W1|]. split; [exact A1|]. split; [exact Hg|].
      eapply Forall2_impl; [|exact Q]. intros w p H lv Ha Hr. apply H; auto.
    - cbn in Hs. subst l. exists (map (fun _ => None) wrt), s. split; [reflexivity|]. split; [apply ext_refl|]. split; [exact W|].
      split; [exact A0|]. split; [apply List.Forall_forall; intros p Hp; apply in_map_iff in Hp as (w & <- & _); exact I|].
      clear. induction wrt as [|w wrt IH]; constructor; [|exact IH]. reflexivity. }
  destruct K as (g & s1 & E1 & X1 & W1 & A1 & Hg & Q). unfold ebind. rewrite E1. cbn [obind].
  destruct (or_zero_ok g s1 W1 A1 Hg) as (row & s2 & E2 & X2 & W2 & A2 & Hsome & Q2). exists row, s2.
  split; [exact E2|]. split; [eapply ext_trans; eauto|]. split; [exact W2|]. split; [exact A2|].
  clear - Q Q2 Hsome Hg X2 W1 W2 X1. revert row Q2 Hsome. induction Q as [|w p wrt g Hp Q IH]; intros row Q2 Hsome;
    inversion Q2 as [|p' p2 g' row' H2 Q2' Ep]; subst; [constructor|].
  inversion Hsome; subst. inversion Hg; subst. constructor; [|apply IH; assumption]. split; [assumption|].
  intros lv Ha Hr. rewrite <- (Hp lv (ext_agrees _ _ _ X2 Ha) Hr). destruct p as [q|].
  - subst p2. cbn [pvalR]. apply (ext_ev s1 s2 lv q W1 W2 X2). assumption.
  - destruct H2 as (q & -> & Hz). cbn [pvalR]. apply Hz, Ha.
Qed.

Lemma rows_getR wrt : forall vars lists (s : stR), wf s -> clean_scr s -> adje_none s -> List.Forall (is_kvar (st_nodes s)) wrt -> NoDup wrt ->
  Forall2 (sort_is s) vars lists ->
  exists m s', emap (fun l => do g <- gradient_tree l wrt; emap or_zero g) lists s = Ok (m, s') /\ ext s s' /\ wf s' /\
    length m = length lists /\
    forall i v l row, nth_error vars i = Some v -> nth_error lists i = Some l -> nth_error m i = Some row ->
      Forall2 (fun w p => some_ptr s' p /\ forall lv, agrees s' lv -> (forall n, v = Some n -> regular (st_nodes s) lv n) ->
               pvalR s' lv p = row_entry (st_nodes s) lv l w) wrt row.
Proof.
  induction vars as [|v vars IH]; intros lists s W C A0 Kw ND H; inversion H as [|v' l vars' lists' Hv Hr]; subst.
  - exists [], s. split; [reflexivity|]. split; [apply ext_refl|]. split; [exact W|]. split; [reflexivity|].
    intros i v l row E. destruct i; discriminate.
  - rewrite emap_cons. destruct (row_get s v l wrt W C A0 Kw ND Hv) as (row & s1 & E1 & X1 & W1 & A1 & Q1).
    rewrite E1. cbn [obind]. pose proof (ext_clean _ _ X1 C) as C1. pose proof (proj1 X1) as G1.
    destruct (IH lists' s1 W1 C1 A1) as (m & s2 & E2 & X2 & W2 & L2 & Q2); auto.
    { eapply List.Forall_impl; [|exact Kw]. intros n. apply kvar_grows, G1. }
    { eapply Forall2_impl; [|exact Hr]. intros a b. apply sort_is_grows; assumption. }
    rewrite E2. cbn [obind]. exists (row :: m), s2. split; [reflexivity|]. split; [eapply ext_trans; eauto|].
    split; [exact W2|]. split; [cbn; congruence|].
    intros [|i] v0 l0 row0 Ev El Er; cbn in Ev, El, Er.
    + injection Ev as <-. injection El as <-. injection Er as <-. eapply Forall2_impl; [|exact Q1].
      intros w p [Hp Hq]. split; [eapply some_grows; [exact (proj1 X2)|exact Hp]|]. intros lv Ha Hreg.
      rewrite <- (Hq lv (ext_agrees _ _ _ X2 Ha) Hreg). destruct p as [q|]; [|destruct Hp]. cbn [pvalR].
      apply (ext_ev s1 s2 lv q W1 W2 X2 Hp).
    + eapply Forall2_impl; [|exact (Q2 i v0 l0 row0 Ev El Er)].
      intros w p [Hp Hq]. split; [exact Hp|]. intros lv Ha Hreg.
      pose proof (Forall2_nth _ _ _ i v0 l0 Hr Ev El) as Hsv. destruct v0 as [n|].
      * rewrite (Hq lv Ha).
        -- apply (row_grows s s1 lv n l0 w W W1 G1 (proj1 Hsv) (sort_is_sorted s n l0 W C Hsv)).
        -- intros n' E. injection E as <-. apply (regular_grows s s1 lv n W W1 G1 (proj1 Hsv)), Hreg. reflexivity.
      * rewrite (Hq lv Ha) by (intros n' E; discriminate). cbn in Hsv. subst l0. reflexivity.
Qed.

Lemma nth_concat {A} (m : list (list A)) c : forall i row, List.Forall (fun r => length r = c) m -> nth_error m i = Some row ->
  forall k x, nth_error row k = Some x -> nth_error (concat m) (i * c + k) = Some x.
Proof.
  induction m as [|r m IH]; intros i row H E k x Ex; [destruct i; discriminate|]. inversion H; subst. destruct i as [|i]; cbn in E |- *.
  - injection E as ->. rewrite nth_error_app1; [exact Ex|]. apply nth_error_Some. congruence.
  - rewrite nth_error_app2 by lia. replace (length r + i * length r + k - length r) with (i * length r + k) by lia.
    eapply IH; eauto.
Qed.

Lemma lower_entry (m : list (@triplet R_ops)) i c : entry (S := R_ops) (lower_part m) i c = (if Nat.leb c i then entry (S := R_ops) m i c else 0%R).
Proof.
  rewrite !entry_ents. induction m as [|[[a b] x] m IH]; cbn [lower_part filter ents].
  - destruct (Nat.leb c i); reflexivity.
  - unfold lower_part in IH. destruct (Nat.leb b a) eqn:Eb; cbn [ents]; rewrite IH; destruct (Nat.eqb a i) eqn:Ea, (Nat.eqb b c) eqn:Ec; cbn [andb];
      try (destruct (Nat.leb c i); lra).
    + apply Nat.eqb_eq in Ea, Ec. subst. rewrite Eb. reflexivity.
    + apply Nat.eqb_eq in Ea, Ec. subst. rewrite Eb. reflexivity.
Qed.

(** Constants keep their values along careful runs that start with some object. *)
Lemma jstep_consts o e js s e' js' s' out : jinv (S := R_ops) (e, js, s) -> jscope (e, js, s) o -> keeps_constants (e, js, s) o -> js <> [] ->
  jstep o (e, js, s) = Ok ((e', js', s'), out) ->
  js' <> [] /\ forall m, is_kconst (st_nodes s) m -> st_val s' m = st_val s m.
Proof.
  intros I Hsc Hk Hne E. destruct (jstep_keep o e js s e' js' s' out I Hsc E) as [_ Keep]. split.
  { destruct js as [|[j b] js]; [congruence|]. destruct (Keep 0 j b eq_refl) as (j' & E' & _). destruct js'; discriminate. }
  destruct o as [o| | | |].
  2-5: destruct (derive_frame _ e js s e' js' s' out I Hsc Logic.I E) as (_ & L & _); intros m Hm; apply L; left; exact Hm.
  pose proof I as (H & A & J). cbn [jscope] in Hsc. cbn [jstep] in E. cbn [keeps_constants] in Hk.
  destruct (hstep o e s) as [[[e1 s1] out1]| | |] eqn:E1; cbn [obind] in E; try discriminate. injection E as <- <- <- <-.
  pose proof (hstep_frame o e s e1 s1 out1 H Hsc E1) as Fr. intros m Hm. destruct o; try (apply Fr; left; exact Hm).
  destruct Hk as [->|Hk]; [congruence|]. destruct Fr as (v & n & Ei & En & N & Hv). rewrite Hv.
  destruct (Nat.eqb m n) eqn:X; [|reflexivity]. apply Nat.eqb_eq in X. subst m. exfalso. apply (Hk v n Ei En Hm).
Qed.

Lemma jcareful_consts (q q' : jstate R_ops) : jreach q -> jcareful q q' ->
  let '(e, js, s) := q in let '(e', js', s') := q' in
  js <> [] -> forall m, is_kconst (st_nodes s) m -> st_val s' m = st_val s m.
Proof.
  intros R H. induction H as [[[e js] s]|[[e js] s] o [[e1 js1] s1] out [[e2 js2] s2] Hs Hk E _ IH]; [auto|].
  intros Hne m Hm. pose proof (jreach_inv _ R) as I.
  destruct (jstep_consts o e js s e1 js1 s1 out I Hs Hk Hne E) as [Hne1 Hc].
  assert (R1 : jreach (e1, js1, s1)) by (eapply jreach_step; eauto).
  rewrite (IH R1 Hne1 m), (Hc m Hm); [reflexivity|]. destruct Hm as (nd & En & Kn). exists nd. split; [|exact Kn].
  eapply grows_nth; [|exact En]. apply (jstep_keep o e js s e1 js1 s1 out I Hs E).
Qed.

Definition shown (b : bool) (m : list (@triplet R_ops)) := if b then lower_part m else m.

Lemma c25 (e : henv) js (s : stR) k j b q1 out e2 js2 s2 : jreach (S := R_ops) (e, js, s) -> nth_error js k = Some (j, b) ->
  NoDup (j_wrt j) -> jstep (JGet k) (e, js, s) = Ok (q1, out) -> jcareful q1 (e2, js2, s2) ->
  exists m q3, jstep (JValue k) (e2, js2, s2) = Ok (q3, [OMat m]) /\
  forall i c p w, nth_error (j_vars j) i = Some p -> nth_error (j_wrt j) c = Some w -> (b = true -> c <= i) ->
    (forall n, p = Some n -> regular (st_nodes s2) (st_val s2) n) ->
    exists g, holds (fst (fst q1)) (length e + (i * length (j_wrt j) + c)) g /\
      Ev (S := R_ops) (st_nodes s2) (st_val s2) g (entry (S := R_ops) m i c).
Proof.
  intros R Ek ND E K. pose proof (jreach_inv _ R) as I. pose proof I as ((W & C & F) & A & J).
  assert (Lk : k < length js) by (apply nth_error_Some; congruence).
  destruct (objects e js s k j b R Ek) as (_ & _ & Hj & Kw). pose proof Hj as (_ & Hl & _).
  destruct (rows_getR (j_wrt j) (j_vars j) (j_lists j) s W C A Kw ND Hl) as (M & s1 & E1 & X1 & W1 & LM & Q).
  assert (R1 : jreach (S := R_ops) q1) by (apply (jreach_step (JGet k) _ _ _ R Lk Logic.I E)).
  cbn [jstep] in E. rewrite Ek in E. unfold jac_get in E. rewrite E1 in E. cbn [obind] in E. injection E as <- <-. cbn [fst].
  destruct (jcareful_keep _ _ R1 K) as [G2 Keep]. destruct (Keep k j b Ek) as (j2 & Ek2 & Ev2 & Ew2).
  assert (Hne : js <> []) by (intros ->; destruct k; discriminate).
  pose proof (jcareful_consts _ _ R1 K Hne) as Hc2.
  pose proof (jcareful_reach _ _ R1 K) as R2. pose proof (jreach_inv _ R2) as I2.
  destruct (jvalue_is e2 js2 s2 k j2 b I2 Ek2) as (q3 & E3).
  destruct (objects e2 js2 s2 k j2 b R2 Ek2) as (W2 & C2 & Hj2 & Kw2).
  exists (shown b (jac_matrix s2 j2)), q3. split; [exact E3|]. intros i c p w Hi Hc Hb Hreg.
  destruct (entry_row s2 j2 i c w p W2 C2 Hj2 Kw2) as (l & Hs2 & El2 & Ee); [rewrite Ew2; exact ND|rewrite Ew2; exact Hc|rewrite Ev2; exact Hi|].
  assert (Esh : entry (S := R_ops) (shown b (jac_matrix s2 j2)) i c = row_entry (st_nodes s2) (st_val s2) l w).
  { rewrite <- Ee. destruct b; [|reflexivity]. cbn [shown]. rewrite lower_entry, (proj2 (Nat.leb_le c i) (Hb eq_refl)). reflexivity. }
  rewrite Esh.
  destruct (Forall2_get _ _ _ i p Hl Hi) as (l' & El & Hs).
  assert (El' : l' = l).
  { eapply (sort_is_det s2); [|exact Hs2]. apply (sort_is_grows s s2); auto. eapply grows_trans; [exact (proj1 X1)|exact G2]. }
  subst l'. pose proof (grows_trans _ _ _ (proj1 X1) G2) as G02.
  destruct (nth_error M i) as [row|] eqn:EM.
  2:{ apply nth_error_None in EM. rewrite LM in EM. assert (i < length (j_lists j)) by (apply nth_error_Some; congruence). lia. }
  pose proof (Q i p l row Hi El EM) as Qr. destruct (Forall2_get _ _ _ c w Qr Hc) as (g & Eg & Hg & Vg).
  destruct g as [g|]; [|destruct Hg]. exists g. split.
  - exists (var_of (Some g)). split; [|reflexivity].
    rewrite nth_error_app2 by lia. replace (length e + (i * length (j_wrt j) + c) - length e) with (i * length (j_wrt j) + c) by lia.
    apply map_nth_error. apply (nth_concat M _ i row); [|exact EM|exact Eg].
    apply List.Forall_forall. intros r Hr. apply In_nth_error in Hr as (i0 & Er).
    destruct (nth_error (j_lists j) i0) as [l0|] eqn:El0.
    2:{ apply nth_error_None in El0. assert (i0 < length M) by (apply nth_error_Some; congruence). lia. }
    destruct (nth_error (j_vars j) i0) as [v0|] eqn:Ev0.
    2:{ apply nth_error_None in Ev0. rewrite (Forall2_len _ _ _ Hl) in Ev0. assert (i0 < length (j_lists j)) by (apply nth_error_Some; congruence). lia. }
    symmetry. apply (Forall2_len _ _ _ (Q i0 v0 l0 r Ev0 El0 Er)).
  - assert (Ha : agrees s1 (st_val s2)) by (intros n Hn; apply Hc2, Hn).
    assert (Hr : forall n, p = Some n -> regular (st_nodes s) (st_val s2) n).
    { intros n ->. apply (regular_shrinks s s2); auto. exact (proj1 Hs). }
    specialize (Vg (st_val s2) Ha Hr). cbn [pvalR] in Vg.
    assert (Er : row_entry (st_nodes s2) (st_val s2) l w = row_entry (st_nodes s) (st_val s2) l w).
    { destruct p as [n|]; [apply (row_grows s s2 (st_val s2) n l w W W2 G02 (proj1 Hs) (sort_is_sorted s n l W C Hs))|].
      cbn in Hs. subst l. reflexivity. }
    rewrite Er, <- Vg. unfold ev. rewrite <- (eval_grows s1 s2 (st_val s2) g W1 W2 G2 Hg).
    apply eval_Ev; [exact W2|]. pose proof (grows_len s1 s2 G2). cbn in Hg. unfold nlen in *. lia.
Qed.

(** ** C29 *)
Lemma jhess_is f wrt lower (e : henv) js (s : stR) q1 out : jinv (e, js, s) -> jscope (e, js, s) (JHess f wrt lower) -> distinct e s wrt ->
  jstep (JHess f wrt lower) (e, js, s) = Ok (q1, out) ->
  exists j s1 n l, q1 = (e, js ++ [(j, lower)], s1) /\ out = [] /\ grows s s1 /\ holds e f n /\ sort_is s (Some n) l /\
    Forall2 (decides e s) wrt (j_wrt j) /\
    Forall2 (fun w p => forall lv, agrees s1 lv -> regular (st_nodes s) lv n -> pvalR s1 lv p = row_entry (st_nodes s) lv l w) (j_wrt j) (j_vars j).
Proof.
  intros (H & A & J) [Hf Hw] D. pose proof H as (W & C & F). cbn [jstep].
  destruct (hvar_get e s f H Hf) as (v & n & Ev & Ei & En & Hn & _). unfold hexpr at 1. rewrite Ev. cbn [obind].
  destruct (wrt_get e s wrt Hw) as (ws & E2 & Fw & F2). rewrite E2. cbn [obind].
  destruct (hess_make_ok s (v_expr v) ws W C A) as
    (l & s1 & g & s2 & j & s3 & Et & Hs & N1 & V1 & A1 & C1 & Eg & X2 & W2 & _ & _ & E & N & V & A' & C' & Evj & Ew & Hj).
  { rewrite En. exact Hn. }
  { eapply List.Forall_impl; [|exact Fw]. intros m. apply kvar_wrt, W. }
  rewrite E. cbn [obind]. intros Q. injection Q as <- <-. exists j, s3, n, l. split; [reflexivity|]. split; [reflexivity|].
  split. { destruct (proj1 X2) as (more & Nm). exists more. rewrite N, Nm, N1. reflexivity. }
  split; [exists v; auto|]. rewrite En in Hs. pose proof (sort_is_sorted s n l W C Hs) as Hsort. split; [exact Hs|].
  split; [rewrite Ew; exact F2|]. rewrite Evj, Ew.
  assert (W1 : wf s1) by (unfold wf; rewrite N1; exact W).
  destruct (gradient_tree_R s1 n l ws) as (g' & s2' & Eg' & _ & _ & _ & _ & _ & Q); auto.
  { unfold nlen. rewrite N1. exact Hn. }
  { rewrite N1. exact Hsort. }
  { intros m. rewrite A1. apply A. }
  { rewrite N1. exact Fw. }
  { eapply distinct_nodup; eauto. }
  rewrite Eg in Eg'. injection Eg' as <- <-. eapply Forall2_impl; [|exact Q]. intros w p Hp lv Ha Hr.
  assert (Ha2 : agrees s2 lv) by (intros m Hm; rewrite <- V; apply Ha; rewrite N; exact Hm).
  rewrite N1 in Hp. rewrite <- (Hp lv Ha2 Hr). destruct p as [q|]; [|reflexivity]. cbn [pvalR]. unfold ev. rewrite N. reflexivity.
Qed.

Lemma upd_upd_eq (lv : nat -> R) w t : upd lv w t w = t.
Proof. apply upd_eq. Qed.

Lemma c29 (e : henv) js (s : stR) f wrt lower q1 out e2 js2 s2 : jreach (S := R_ops) (e, js, s) -> jscope (e, js, s) (JHess f wrt lower) ->
  jstep (JHess f wrt lower) (e, js, s) = Ok (q1, out) -> jcareful q1 (e2, js2, s2) -> distinct e s wrt ->
  exists m q3 j, jstep (JValue (length js)) (e2, js2, s2) = Ok (q3, [OMat m]) /\ nth_error js2 (length js) = Some (j, lower) /\
    (forall i c x, In (i, c, x) m -> i < length wrt /\ c < length wrt /\ (lower = true -> c <= i)) /\
    forall i c wi wc n vi vc, nth_error wrt i = Some wi -> nth_error wrt c = Some wc -> holds e f n ->
      decides e s wi vi -> decides e s wc vc -> (lower = true -> c <= i) ->
      locally (st_val s2 vc) (fun t => smooth (st_nodes s2) (upd (st_val s2) vc t) n) ->
      (forall g, nth_error (j_vars j) i = Some (Some g) -> smooth (st_nodes s2) (st_val s2) g) ->
      partial2 (st_nodes s2) (st_val s2) n vi vc (entry (S := R_ops) m i c).
Proof.
  intros R Hsc E K D. pose proof (jreach_inv _ R) as I. pose proof I as ((W & C & F) & A & J).
  destruct (jhess_is f wrt lower e js s q1 out I Hsc D E) as (j & s1 & n & l & -> & -> & G1 & Hf & Hs & Wj & Vj).
  pose proof Hs as (Hn & _). pose proof (sort_is_sorted s n l W C Hs) as Hsort.
  assert (R1 : jreach (e, js ++ [(j, lower)], s1)) by (eapply jreach_step; eauto; exact Logic.I).
  pose proof (jreach_inv _ R1) as ((W1 & C1 & _) & _ & _).
  pose proof (jcareful_reach _ _ R1 K) as R2. pose proof (jreach_inv _ R2) as I2.
  destruct (jcareful_keep _ _ R1 K) as [G2 Keep].
  assert (Hne : js ++ [(j, lower)] <> []) by (destruct js; discriminate).
  pose proof (jcareful_consts _ _ R1 K Hne) as Hc2.
  assert (Ek : nth_error (js ++ [(j, lower)]) (length js) = Some (j, lower)) by (rewrite nth_error_app2, Nat.sub_diag by lia; reflexivity).
  destruct (Keep _ _ _ Ek) as (j2 & Ek2 & Ev2 & Ew2).
  destruct (jvalue_is e2 js2 s2 (length js) j2 lower I2 Ek2) as (q3 & E3).
  destruct (objects e2 js2 s2 (length js) j2 lower R2 Ek2) as (W2 & C2 & Hj2 & Kw2).
  exists (shown lower (jac_matrix s2 j2)), q3, j2. split; [exact E3|]. split; [exact Ek2|].
  assert (Lw : length wrt = length (j_wrt j)) by apply (Forall2_len _ _ _ Wj).
  assert (Lv : length (j_wrt j) = length (j_vars j)) by apply (Forall2_len _ _ _ Vj).
  split.
  { intros i c x Hin. assert (Hin' : In (i, c, x) (jac_matrix s2 j2) /\ (lower = true -> c <= i)).
    { destruct lower; [|split; [exact Hin|discriminate]]. unfold shown, lower_part in Hin. apply filter_In in Hin as [Hin Hle].
      split; [exact Hin|]. intros _. apply Nat.leb_le, Hle. }
    destruct Hin' as [Hin' Hle]. apply (matrix_in s2 j2 i c x Hj2) in Hin'. rewrite Ev2, Ew2 in Hin'. split; [lia|]. split; [lia|exact Hle]. }
  intros i c wi wc n' vi vc Ei Ec Hf' Dwi Dwc Hb Hsm Hg.
  assert (n' = n) by (destruct Hf as (v & X & Y), Hf' as (v' & X' & Y'); congruence). subst n'.
  assert (Hi : nth_error (j_wrt j) i = Some vi).
  { destruct (Forall2_get _ _ _ i wi Wj Ei) as (p & Ep & (v' & X1 & X2 & _)). rewrite Ep. destruct Dwi as (v'' & Y1 & Y2 & _). congruence. }
  assert (Hc : nth_error (j_wrt j2) c = Some vc).
  { rewrite Ew2. destruct (Forall2_get _ _ _ c wc Wj Ec) as (p & Ep & (v' & X1 & X2 & _)). rewrite Ep. destruct Dwc as (v'' & Y1 & Y2 & _). congruence. }
  assert (ND : NoDup (j_wrt j2)) by (rewrite Ew2; eapply distinct_nodup; eauto).
  destruct (Forall2_get _ _ _ i vi Vj Hi) as (p & Hp & Vp).
  destruct (entry_row s2 j2 i c vc p W2 C2 Hj2 Kw2 ND Hc) as (l2 & Hs2 & El2 & Ee); [rewrite Ev2; exact Hp|].
  assert (Esh : entry (S := R_ops) (shown lower (jac_matrix s2 j2)) i c = row_entry (st_nodes s2) (st_val s2) l2 vc).
  { rewrite <- Ee. destruct lower; [|reflexivity]. cbn [shown]. rewrite lower_entry, (proj2 (Nat.leb_le c i) (Hb eq_refl)). reflexivity. }
  rewrite Esh. pose proof (grows_trans _ _ _ G1 G2) as G02.
  assert (Hn2 : n < nlen s2) by (pose proof (grows_len _ _ G02); lia).
  assert (Kvi : is_kvar (st_nodes s2) vi).
  { rewrite List.Forall_forall in Kw2. apply Kw2. rewrite Ew2. eapply nth_error_In; eauto. }
  assert (Kvc : is_kvar (st_nodes s2) vc) by (rewrite List.Forall_forall in Kw2; apply Kw2; eapply nth_error_In; eauto).
  assert (Hsort2 : sorted (st_nodes s2) n l).
  { apply sort_is_sorted; auto. apply (sort_is_grows s s2); auto. }
  exists (fun t => pvalR s2 (upd (st_val s2) vc t) p). split.
  - destruct Hsm as (eps & Hsm). exists eps. intros t Ht. specialize (Hsm t Ht).
    assert (Ha : agrees s1 (upd (st_val s2) vc t)).
    { intros m Hm. unfold upd. destruct (Nat.eqb m vc) eqn:X; [|apply Hc2, Hm]. apply Nat.eqb_eq in X. subst m. exfalso.
      apply (kvar_nonconst s2 vc Kvc). destruct Hm as (nd & En & Kn). exists nd. split; [exact (grows_nth s1 s2 vc nd G2 En)|exact Kn]. }
    assert (Hr : regular (st_nodes s) (upd (st_val s2) vc t) n).
    { apply (regular_shrinks s s2); auto. apply smooth_regular, Hsm. }
    assert (Eval : pvalR s2 (upd (st_val s2) vc t) p = row_entry (st_nodes s2) (upd (st_val s2) vc t) l vi).
    { rewrite (row_grows s s2 _ n l vi W W2 G02 Hn Hsort), <- (Vp _ Ha Hr). destruct p as [q|]; [|reflexivity]. cbn [pvalR].
      unfold ev. apply (eval_grows s1 s2 _ q W1 W2 G2).
      pose proof (objects e (js ++ [(j, lower)]) s1 (length js) j lower R1 Ek) as (_ & _ & (_ & Hl1 & _) & _).
      destruct (Forall2_get _ _ _ i (Some q) Hl1 Hp) as (lq & _ & (Hq & _)). exact Hq. }
    rewrite Eval. apply grad_partial; auto.
  - destruct p as [q|].
    + assert (Sq : smooth (st_nodes s2) (st_val s2) q) by (apply Hg; rewrite Ev2; exact Hp).
      pose proof Hs2 as (Hq & _). pose proof (sort_is_sorted s2 q l2 W2 C2 Hs2) as Hsq.
      apply (grad_partial _ _ _ _ _ W2 Kvc Hq Hsq Sq). intros t. cbn [pvalR]. apply eval_Ev; [exact W2|exact Hq].
    + cbn in Hs2. subst l2. unfold row_entry. cbn. apply (is_derive_const (V := R_NormedModule)).
Qed.
