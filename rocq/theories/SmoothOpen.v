(** A graph that is smooth at a point is smooth around it, and its values are differentiable there. *)
From Coq Require Import ZArith Reals List Bool Arith Lia Lra.
From Coquelicot Require Import Coquelicot.
From Verif Require Import Base ExprModel GraphSpec GraphProofs ExprInv VarModel VarReach VarProofs AdjProofs JacModel JacProofs ExprReal MathSpec MathProofs
  DiffSpec OpDeriv OpMath GradProofs Faith SmoothGraph SmoothGrad SmoothTree.
Import ListNotations.
Open Scope R_scope.

Lemma loc_ne (u : R -> R) t a : continuous u t -> u t <> a -> locally t (fun s => u s <> a).
Proof.
  intros C N. destruct (Rtotal_order (u t) a) as [L|[E|L]]; [|contradiction|].
  - eapply loc_mono; [|apply (loc_gt u t a C L)]. intros s. cbv beta. lra.
  - eapply loc_mono; [|apply (loc_lt u t a C L)]. intros s. cbv beta. lra.
Qed.

Lemma un_open u (f : R -> R) t : continuous f t -> good_un u (f t) -> locally t (fun s => good_un u (f s)).
Proof.
  intros C [Hr Hk].
  assert (A : locally t (fun s => regular_un u (f s))).
  { destruct u; cbn in *; try (apply filter_true); try (apply loc_lt; assumption); try (apply loc_ne; assumption).
    - apply filter_and; [apply loc_lt|apply loc_gt]; tauto.
    - apply filter_and; [apply loc_lt|apply loc_gt]; tauto.
    - apply (loc_ne (fun s => cos (f s))); [|exact Hr]. apply (continuous_comp f cos); [exact C|]. apply continuous_cos. }
  assert (B : locally t (fun s => ~ kink_un u (f s))).
  { destruct u; cbn in *; try (apply (filter_forall (F := locally t)); tauto); apply loc_ne; assumption. }
  apply (filter_and (F := locally t)); assumption.
Qed.

Lemma pow_open (f : R -> R) t p : continuous f t -> int_power (f t) p -> locally t (fun s => int_power (f s) p).
Proof.
  intros C (z & -> & [H|H]).
  - eapply loc_mono; [|apply (loc_ne f t 0 C H)]. intros s Hs. exists z. auto.
  - apply (filter_forall (F := locally t)). intros s. exists z. auto.
Qed.

Lemma bin_open (c : Prop) b (f g : R -> R) t : continuous f t -> continuous g t -> (c -> forall s, g s = g t) -> good_bin c b (f t) (g t) ->
  locally t (fun s => good_bin c b (f s) (g s)).
Proof.
  intros Cf Cg Hc [Hr Hk].
  assert (D : continuous (fun s => f s - g s) t) by (apply (continuous_minus f g); assumption).
  assert (A : locally t (fun s => regular_bin b (f s) (g s) \/ (b = BPow /\ c /\ int_power (f s) (g s)))).
  { destruct Hr as [Hr|(-> & c0 & Hp)].
    - eapply loc_mono with (P := fun s => regular_bin b (f s) (g s)); [auto|].
      destruct b; cbn in *; try (apply filter_true); try (apply loc_lt; assumption); try (apply loc_ne; assumption).
      + destruct Hr as [H|H]; [eapply loc_mono; [|apply (loc_ne f t 0 Cf H)]|eapply loc_mono; [|apply (loc_ne g t 0 Cg H)]]; intros s; cbv beta; tauto.
      + destruct Hr as [H|H]; [eapply loc_mono; [|apply (loc_ne f t 0 Cf H)]|eapply loc_mono; [|apply (loc_ne g t 0 Cg H)]]; intros s; cbv beta; tauto.
    - eapply loc_mono; [|apply (pow_open f t _ Cf Hp)]. intros s Hs. right. rewrite (Hc c0 s). auto. }
  assert (B : locally t (fun s => ~ kink_bin b (f s) (g s))).
  { destruct b; cbn in *; try (apply (filter_forall (F := locally t)); tauto).
    - destruct (Req_dec (f t) 0) as [E|E].
      + destruct Hr as [[H|H]|(X & _)]; [contradiction| |discriminate]. assert (P : 0 < g t) by (destruct (Rtotal_order (g t) 0) as [L|[L|L]]; tauto).
        eapply loc_mono; [|apply (loc_lt g t 0 Cg P)]. intros s; cbv beta. lra.
      + eapply loc_mono; [|apply (loc_ne f t 0 Cf E)]. intros s; cbv beta. tauto.
    - eapply loc_mono; [|apply (loc_ne _ t 0 D)]; [|lra]. intros s; cbv beta. lra.
    - eapply loc_mono; [|apply (loc_ne _ t 0 D)]; [|lra]. intros s; cbv beta. lra. }
  apply (filter_and (F := locally t)); assumption.
Qed.

(** Smooth in the sense of DiffSpec. *)
Lemma GSm_smooth ns (lv : nat -> R) r v : wfn ns -> GSm (K := R_ops) ns lv r v -> smooth ns lv r.
Proof.
  intros W Gr n Rn. destruct (GSm_reach _ _ _ _ _ Gr Rn) as (w & Gn).
  assert (U : forall a x x', GSm (K := R_ops) ns lv a x -> Ev (S := R_ops) ns lv a x' -> x' = x).
  { intros a x x' G1 E1. apply (Ev_eval _ _ _ _ W) in E1. rewrite E1. exact (GSm_ev (K := R_ops) _ _ _ _ W G1). }
  inversion Gn as [n' nd v0 E Kd L E1 E2|n' u x t xv E Gx Gu E1 E2|n' c x y t xv yv E Gx Gy Gb E1 E2]; subst.
  - split; intros nd' E'; rewrite E in E'; injection E' as <-; destruct Kd as [-> | ->]; exact I.
  - split; intros nd' E'; rewrite E in E'; injection E' as <-; cbn [n_kind]; intros x' Ex; rewrite (U _ _ _ Gx Ex); apply Gu.
  - split; intros nd' E'; rewrite E in E'; injection E' as <-; cbn [n_kind]; intros x' y' Ex Ey; rewrite (U _ _ _ Gx Ex), (U _ _ _ Gy Ey); apply Gb.
Qed.

Section Open.
Context {K : sops} {FK : faith K} {FK2 : faith2 K}.
Notation J := (inj (K := K)).
Context (ns : list node) (lv : nat -> K) (w : nat) (x0 : R).
Hypothesis W : wfn ns.
Hypothesis Kw : is_kvar ns w.
Hypothesis Lw : lv w = J x0.

Definition path (n : nat) (t : R) : R := along ns (prv lv) w n t.
Lemma prv_w : prv lv w = x0. Proof. unfold prv. rewrite Lw. apply f_pr. Qed.
Lemma path_at n v : GSm ns lv n v -> path n x0 = v.
Proof.
  intros H. unfold path. rewrite <- prv_w, (along_at ns (prv lv) w W). symmetry. exact (GSm_rval _ _ _ _ W H).
Qed.

Lemma GSm_path_derive r v n : GSm ns lv r v -> (r < length ns)%nat -> reach ns r n -> ex_derive (path n) x0.
Proof.
  intros G Hr Rn. pose proof (GSm_smooth ns (prv lv) r v W (GSm_R _ _ _ _ G)) as Sm.
  destruct (nodes_derive ns (prv lv) w W Kw r Hr Sm n Rn) as [D _]. rewrite prv_w in D. eexists. exact D.
Qed.
Lemma GSm_valid n v : GSm ns lv n v -> (n < length ns)%nat.
Proof. intros G. apply nth_error_Some. inversion G; congruence. Qed.
Lemma GSm_path_cont n v : GSm ns lv n v -> continuous (path n) x0.
Proof. intros G. apply (ex_derive_continuous (V := R_NormedModule)), (GSm_path_derive n v n G); [eapply GSm_valid, G|constructor]. Qed.

Lemma GSm_open n v : GSm ns lv n v -> locally x0 (fun t => GSm ns (upd lv w (J t)) n (path n t)).
Proof.
  induction 1 as [n nd v E Kd L|n u a t x E Ga IH Gu|n b l r t x y E Gl IHl Gr IHr Gb].
  - apply (filter_forall (F := locally x0)). intros t. econstructor 1; [exact E|exact Kd|].
    unfold path, along. rewrite (eval_leaf _ _ _ _ W E Kd). unfold upd. destruct (Nat.eqb n w); [reflexivity|].
    unfold prv. rewrite L, f_pr. reflexivity.
  - assert (Go : locally x0 (fun s => good_un u (path a s))).
    { apply un_open; [eapply GSm_path_cont, Ga|]. rewrite (path_at _ _ Ga). exact Gu. }
    pose proof (filter_and (F := locally x0) _ _ IH Go) as A. eapply loc_mono; [|exact A]. intros s [Hs Hg].
    assert (P : path n s = un_value (S := R_ops) u (path a s)) by (unfold path, along; rewrite (eval_eq _ _ n W), E; reflexivity).
    rewrite P. econstructor 2; eauto.
  - assert (Go : locally x0 (fun s => good_bin (is_kconst ns r) b (path l s) (path r s))).
    { apply bin_open; [eapply GSm_path_cont, Gl|eapply GSm_path_cont, Gr| |].
      - intros c s. unfold path. pose proof (kconst_typ ns r W c) as T. rewrite !(along_const ns (prv lv) w W Kw r _ T). reflexivity.
      - rewrite (path_at _ _ Gl), (path_at _ _ Gr). exact Gb. }
    pose proof (filter_and (F := locally x0) _ _ (filter_and (F := locally x0) _ _ IHl IHr) Go) as A. eapply loc_mono; [|exact A]. intros s [[Hl Hr] Hg].
    assert (P : path n s = bin_value (S := R_ops) b (path l s) (path r s)) by (unfold path, along; rewrite (eval_eq _ _ n W), E; reflexivity).
    rewrite P. econstructor 3; eauto.
Qed.

(** The adjoint of the numeric sweep is the derivative. *)
Lemma GSm_derive r v l : GSm ns lv r v -> sorted ns r l -> is_derive (path r) x0 (row_entry ns (prv lv) l w).
Proof.
  intros G Hs. pose proof (GSm_valid _ _ G) as Hr. pose proof (GSm_smooth ns (prv lv) r v W (GSm_R _ _ _ _ G)) as Sm.
  rewrite <- prv_w. destruct Hs as [[Tr ->]|[_ T]].
  - unfold row_entry. cbn. apply (is_derive_ext (fun _ => prv lv r)); [|apply (is_derive_const (V := R_NormedModule))].
    intros t. symmetry. apply along_const; assumption.
  - apply (grad_derive ns (prv lv) w W Kw r l Hr T Sm).
Qed.
End Open.
