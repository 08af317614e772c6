(** Entries of Hessian matrices at smooth points: second partial derivatives, over any scalar type that computes the user's mathematics. *)
From Coq Require Import ZArith Reals List Bool Arith Lia Lra.
From Coquelicot Require Import Coquelicot.
From Verif Require Import Base ExprModel GraphSpec GraphProofs ExprInv VarModel VarReach VarProofs AdjProofs JacModel JacProofs SymProofs ExprReal MathSpec MathProofs
  DiffSpec OpDeriv OpMath GradProofs Faith SmoothGraph SmoothGrad SmoothTree SmoothOpen SmoothJac.
Import ListNotations.
Local Open Scope nat_scope.

Section Hess.
Context {K : sops} {FK : faith K} {FK2 : faith2 K}.
Notation J := (inj (K := K)).

Lemma path_app ns more (lv : nat -> K) w n t : wfn ns -> wfn (ns ++ more) -> n < length ns -> path (ns ++ more) lv w n t = path ns lv w n t.
Proof. intros W W' Hn. unfold path, along. apply (eval_app (S := R_ops)); assumption. Qed.

Lemma GSm_shrink ns more (lv : nat -> K) n v : wfn ns -> n < length ns -> GSm (ns ++ more) lv n v -> GSm ns lv n v.
Proof.
  intros W Hn G.
  assert (A : forall m nd, m < length ns -> nth_error (ns ++ more) m = Some nd -> nth_error ns m = Some nd).
  { intros m nd Hm E. rewrite nth_error_app1 in E; assumption. }
  induction G as [n nd v E Kd L|n u a t x E _ IH G|n b l r t x y E _ IHl _ IHr G]; apply (A _ _ Hn) in E; pose proof (W n _ E) as [Ac _]; unfold n_args in Ac; cbn [n_kind] in Ac.
  - econstructor; eauto.
  - econstructor 2; [exact E| |exact G]. apply IH. assert (a < n) by (apply Ac; left; reflexivity). lia.
  - assert (l < n) by (apply Ac; left; reflexivity). assert (r < n) by (apply Ac; right; left; reflexivity).
    econstructor 3; [exact E|apply IHl; lia|apply IHr; lia|]. eapply good_bin_mono; [|exact G].
    intros (nd & En & Kn). exists nd. split; [|exact Kn]. apply A; [lia|exact En].
Qed.

(** What row [p] of the gradient tree of [f] is with respect to leaf [w]: the partial derivative of [f], wherever [f] is smooth. *)
Definition hess_row (s : st K) (f w : nat) (p : @ptr) : Prop :=
  forall lv x v, agrees s lv -> GSm (st_nodes s) lv f v -> lv w = J x ->
  match p with
  | None => is_derive (path (st_nodes s) lv w f) x 0%R
  | Some q => q < nlen s /\ exists d, is_derive (path (st_nodes s) lv w f) x d /\ GSm (st_nodes s) lv q d
  end.

Lemma hess_row_grows s s' f w p : wf s -> wf s' -> grows s s' -> f < nlen s -> (forall m, is_kconst (st_nodes s) m -> st_val s' m = st_val s m) ->
  hess_row s f w p -> hess_row s' f w p.
Proof.
  intros W W' (more & N) Hf Hc H lv x v A G Lw. unfold wf in *. rewrite N in *.
  assert (A0 : agrees s lv).
  { intros m Hm. rewrite <- (Hc m Hm). apply A. rewrite N. apply kconst_grow, Hm. }
  specialize (H lv x v A0 (GSm_shrink _ _ _ _ _ W Hf G) Lw). assert (P : forall t, path (st_nodes s) lv w f t = path (st_nodes s ++ more) lv w f t).
  { intros t. symmetry. apply path_app; auto. }
  destruct p as [q|].
  - destruct H as (Hq & d & D & Gq). split; [unfold nlen in *; rewrite N, app_length; lia|]. exists d. split; [apply (is_derive_ext _ _ _ _ P), D|apply GSm_app, Gq].
  - apply (is_derive_ext _ _ _ _ P), H.
Qed.

Lemma hess_rows s f wrt j s' : wf s -> clean_scr s -> (forall n, st_adje s n = None) -> f < nlen s -> List.Forall (is_kvar (st_nodes s)) wrt -> NoDup wrt ->
  hess_make (Some f) (map Some wrt) s = Ok (j, s') ->
  forall i w p, nth_error wrt i = Some w -> nth_error (j_vars j) i = Some p -> hess_row s' f w p.
Proof.
  intros W C A0 Hf Kw ND E i w p Hi Hp lv x v A G Lw.
  assert (Kc : List.Forall (fun w => w < nlen s /\ typ (st_nodes s) w <> CONSTANT) wrt).
  { eapply List.Forall_impl; [|exact Kw]. intros w' (nd & En & Kn). split; [apply nth_error_Some; congruence|].
    rewrite (typ_some _ _ _ En). destruct (W w' _ En) as [_ Ty]. rewrite Kn in Ty. cbn in Ty. congruence. }
  destruct (hess_make_ok s (Some f) wrt W C A0 Hf Kc)
    as (l & s1 & g & s2 & j' & s'' & _ & Hs & N1 & V1 & A1 & C1 & E2 & X2 & W2 & _ & Lg & E3 & N3 & V3 & _ & _ & Jv & _ & _).
  rewrite E in E3. injection E3 as <- <-. rewrite Jv in Hp.
  assert (Av : agrees s2 lv).
  { intros m Hm. rewrite (A m) by (rewrite N3; exact Hm). rewrite V3. reflexivity. }
  assert (W1 : wf s1) by (unfold wf; rewrite N1; exact W).
  assert (Ln : nlen s1 = nlen s) by (unfold nlen; rewrite N1; reflexivity).
  pose proof (sort_is_sorted s f l W C Hs) as So.
  pose proof X2 as ((more & N2) & _). rewrite N1 in N2. assert (W2' : wfn (st_nodes s ++ more)) by (rewrite <- N2; exact W2).
  unfold hess_row, nlen in *. rewrite N3, N2 in *. pose proof (GSm_shrink _ _ _ _ _ W Hf G) as G0.
  assert (Kv : is_kvar (st_nodes s) w) by (rewrite List.Forall_forall in Kw; apply Kw; eapply nth_error_In; eauto).
  rewrite List.Forall_forall in Kc. destruct (Kc w (nth_error_In _ _ Hi)) as [_ Tw].
  assert (P : forall t, path (st_nodes s) lv w f t = path (st_nodes s ++ more) lv w f t) by (intros t; symmetry; apply path_app; auto).
  pose proof (GSm_derive (st_nodes s) lv w x W Kv Lw f v l G0 So) as D. apply (is_derive_ext _ _ _ _ P) in D.
  destruct So as [[_ ->]|[Tf T]].
  - cbn in E2. injection E2 as <- <-. apply nth_error_In, in_map_iff in Hp as (w' & <- & _). unfold row_entry in D. cbn in D. exact D.
  - assert (T1 : topological (st_nodes s1) f l) by (rewrite N1; exact T).
    assert (G1 : GSm (st_nodes s1) lv f v) by (rewrite N1; exact G0).
    assert (Hf1 : f < nlen s1) by (unfold nlen; lia). assert (A01 : forall n, st_adje s1 n = None) by (intros n; rewrite A1; apply A0).
    destruct (gradient_tree_G s1 f l lv v W1 Hf1 T1 A01 G1 wrt) as (g' & s2' & E2' & _ & _ & Q).
    { apply List.Forall_forall. intros y Hy. unfold nlen. rewrite N1. apply Kc, Hy. }
    { exact ND. }
    rewrite E2 in E2'. injection E2' as <- <-. pose proof (Forall2_nth _ _ _ _ _ _ Q Hi Hp) as H. cbv beta in H.
    destruct p as [q|].
    + destruct H as (I & Hq & H). rewrite N1 in H. specialize (H Tw Av). unfold nlen in Hq. rewrite N2 in H, Hq. split; [exact Hq|].
      exists (row_entry (st_nodes s) (prv lv) l w). split; [exact D|]. unfold row_entry. destruct (in_dec Nat.eq_dec w l); [exact H|contradiction].
    + unfold row_entry in D. destruct (in_dec Nat.eq_dec w l); [contradiction|exact D].
Qed.

(** The second partial derivative of [f] at the current point, first along [wi] and then along [wc]. *)
Lemma hess_entry s j i c wi wc p f v x : wf s -> clean_scr s -> jacok s j -> NoDup (j_wrt j) -> List.Forall (is_kvar (st_nodes s)) (j_wrt j) ->
  nth_error (j_vars j) i = Some p -> nth_error (j_wrt j) i = Some wi -> nth_error (j_wrt j) c = Some wc -> hess_row s f wi p ->
  GSm (st_nodes s) (st_val s) f v -> st_val s wc = J x -> (exists xi, st_val s wi = J xi) ->
  exists h d, entry (jac_matrix s j) i c = J d /\ is_derive h x d /\
    locally x (fun t => is_derive (path (st_nodes s) (upd (st_val s) wc (J t)) wi f) (pr (upd (st_val s) wc (J t) wi)) (h t)).
Proof.
  intros W C Hj ND Kw Hp Hi Hc Hrow G Lc (xi & Li).
  assert (Kc : is_kvar (st_nodes s) wc) by (rewrite List.Forall_forall in Kw; apply Kw; eapply nth_error_In; eauto).
  pose proof (GSm_open (st_nodes s) (st_val s) wc x W Kc Lc f v G) as Op.
  assert (At : forall t, agrees s (upd (st_val s) wc (J t))).
  { intros t m (nd & En & Kn). unfold upd. destruct (Nat.eqb m wc) eqn:X; [|reflexivity]. apply Nat.eqb_eq in X. subst m.
    destruct Kc as (nd' & En' & Kn'). congruence. }
  assert (Lt : forall t, upd (st_val s) wc (J t) wi = J (pr (upd (st_val s) wc (J t) wi))).
  { intros t. unfold upd. destruct (Nat.eqb wi wc); [rewrite f_pr; reflexivity|]. rewrite Li, f_pr. reflexivity. }
  destruct p as [q|].
  - assert (Gq : exists d, GSm (st_nodes s) (st_val s) q d).
    { destruct (Hrow (st_val s) xi v (fun m _ => eq_refl) G Li) as (_ & d & _ & Gq). exists d. exact Gq. }
    destruct Gq as (dq & Gq).
    destruct (entry_derive s j i c wc q dq W C Hj ND Kw Hc x Hp Gq Lc) as (d & E & D).
    exists (path (st_nodes s) (st_val s) wc q), d. split; [exact E|]. split; [exact D|].
    eapply loc_mono; [|exact (filter_and (F := locally x) _ _ Op (GSm_open (st_nodes s) (st_val s) wc x W Kc Lc q dq Gq))]. intros t [Ht Hq].
    destruct (Hrow _ _ _ (At t) Ht (Lt t)) as (_ & d' & D' & G'). rewrite (GSm_fun _ _ _ _ _ W Hq G'). exact D'.
  - exists (fun _ => 0%R), 0%R. split; [apply (null_entry s j i c wc W C Hj ND Kw Hc Hp)|]. split; [apply (is_derive_const (V := R_NormedModule))|].
    eapply loc_mono; [|exact Op]. intros t Ht. apply (Hrow _ _ _ (At t) Ht (Lt t)).
Qed.
End Hess.
