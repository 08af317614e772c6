(** Nodes of constant or linear type over the reals with infinities and NaN: as functions of some variable leaves they
    are affine with finite coefficients, or never a number. *)
From Coq Require Import ZArith Reals List Bool Arith Lia Lra.
From Verif Require Import Base ExprModel NumModel LinR XArith ProbSolveEval GraphSpec GraphProofs MathSpec ExprReal ExprXR ExprInv.
Import ListNotations.
Local Open Scope nat_scope.

Lemma type_const_X (s : st X_ops) n : wf s -> typ (st_nodes s) n = CONSTANT -> is_kconst (st_nodes s) n.
Proof.
  intros W T. unfold typ in T. destruct (nth_error (st_nodes s) n) as [[k t]|] eqn:E; [|discriminate]. cbn in T. subst t.
  pose proof (W n _ E) as (_ & H). cbn [n_kind n_type] in H. exists (mkN k CONSTANT). split; [exact E|]. cbn.
  destruct k as [| |u a|b l r]; cbn in H; try discriminate; try reflexivity.
  - destruct u, (typ (st_nodes s) a); discriminate.
  - destruct b, (typ (st_nodes s) l), (typ (st_nodes s) r); discriminate.
Qed.

Section Affine.
Variables (s : st X_ops) (lv : nat -> XR) (nodes : list nat).
Hypothesis W : wf s.
Hypothesis ND : NoDup nodes.
Hypothesis Kv : forall m, In m nodes -> is_kvar (st_nodes s) m.
Let n := length nodes.
Definition ev_at (x : list R) (m : nat) : XR := eval (S := X_ops) (st_nodes s) (puts (S := Xn) lv nodes (map Fin x)) m.

Definition lin (c : nat -> R) (b : R) (x : list R) : R := (sumn n (fun j => c j * nth j x 0) + b)%R.
Definition affine_node (m : nat) : Prop := exists c b, forall x, length x = n -> ev_at x m = Fin (lin c b x).
Definition dead_node (m : nat) : Prop := forall x, length x = n -> ~ fin (ev_at x m).
Definition const_node (m : nat) : Prop := exists v, forall x, length x = n -> ev_at x m = v.

Lemma lin_add c b c' b' x : lin (fun j => c j + c' j)%R (b + b')%R x = (lin c b x + lin c' b' x)%R.
Proof. unfold lin. rewrite (sumn_ext n _ (fun j => c j * nth j x 0 + c' j * nth j x 0)%R) by (intros; ring). rewrite sumn_plus. ring. Qed.
Lemma lin_scale k c b x : lin (fun j => k * c j)%R (k * b)%R x = (k * lin c b x)%R.
Proof. unfold lin. rewrite (sumn_ext n _ (fun j => k * (c j * nth j x 0))%R) by (intros; ring). rewrite sumn_scal. ring. Qed.
Lemma lin_const b x : lin (fun _ => 0%R) b x = b.
Proof. unfold lin. rewrite sumn_0; [ring|]. intros; ring. Qed.
Lemma lin_unit j x : j < n -> lin (fun i => if Nat.eqb i j then 1 else 0)%R 0 x = nth j x 0%R.
Proof.
  unfold lin. intros H. rewrite Rplus_0_r. revert H. generalize n as k. induction k as [|k IH]; [lia|]. intros H. cbn [sumn].
  destruct (Nat.eq_dec j k) as [->|Ne].
  - rewrite Nat.eqb_refl. rewrite sumn_0; [ring|]. intros i Hi. destruct (Nat.eqb_spec i k); [lia|ring].
  - rewrite IH by lia. destruct (Nat.eqb_spec k j); [lia|ring].
Qed.

Lemma const_is_node m : typ (st_nodes s) m = CONSTANT -> const_node m.
Proof.
  intros T. pose proof (type_const_X s m W T) as K. pose proof K as (nd & E & Kd). exists (lv m). intros x Lx. unfold ev_at. rewrite (eval_eq _ _ _ W), E, Kd.
  apply (puts_out (S := Xn)). intros I0. exact (kvar_not_const _ _ (Kv m I0) K).
Qed.
Lemma const_dich m : const_node m -> affine_node m \/ dead_node m.
Proof.
  intros (v & H). destruct v as [r| | |]; [left; exists (fun _ => 0%R), r; intros x Lx; rewrite lin_const; apply H, Lx|right|right|right];
    intros x Lx F; rewrite (H x Lx) in F; discriminate F.
Qed.

Lemma node_eq m nd x : nth_error (st_nodes s) m = Some nd -> ev_at x m =
  match n_kind nd with
  | KConst | KVar => puts (S := Xn) lv nodes (map Fin x) m
  | KUn u a => un_value (S := X_ops) u (ev_at x a)
  | KBin b l r => bin_value (S := X_ops) b (ev_at x l) (ev_at x r)
  end.
Proof. intros E. unfold ev_at. rewrite (eval_eq _ _ _ W), E. reflexivity. Qed.

Lemma var_dich m t : nth_error (st_nodes s) m = Some (mkN KVar t) -> affine_node m \/ dead_node m.
Proof.
  intros E. destruct (in_dec Nat.eq_dec m nodes) as [I0|N0].
  - left. destruct (In_nth_error _ _ I0) as (j & Ej). assert (Hj : j < n) by (apply nth_error_Some; congruence).
    exists (fun i => if Nat.eqb i j then 1 else 0)%R, 0%R. intros x Lx. rewrite (node_eq _ _ _ E). cbn [n_kind]. rewrite lin_unit by exact Hj.
    rewrite (puts_in (S := Xn) nodes (map Fin x) lv j m (Fin 0)) by (try assumption; rewrite map_length; exact Lx). apply map_nth.
  - apply const_dich. exists (lv m). intros x Lx. rewrite (node_eq _ _ _ E). cbn [n_kind]. apply (puts_out (S := Xn)), N0.
Qed.


Lemma neg_dich m a t : nth_error (st_nodes s) m = Some (mkN (KUn UNeg a) t) -> affine_node a \/ dead_node a -> affine_node m \/ dead_node m.
Proof.
  intros E [(c & b & H)|H]; [left|right].
  - exists (fun j => -1 * c j)%R, (-1 * b)%R. intros x Lx. rewrite (node_eq _ _ _ E). cbn [n_kind un_value]. rewrite (H x Lx), lin_scale. cbn. f_equal. ring.
  - intros x Lx F. apply (H x Lx). rewrite (node_eq _ _ _ E) in F. cbn [n_kind un_value] in F. destruct (ev_at x a); [reflexivity|discriminate F..].
Qed.
Lemma add_dich m b l r t : b = BAdd \/ b = BSub -> nth_error (st_nodes s) m = Some (mkN (KBin b l r) t) ->
  affine_node l \/ dead_node l -> affine_node r \/ dead_node r -> affine_node m \/ dead_node m.
Proof.
  intros Hb E Hl Hr.
  assert (Q : forall x y, fin (bin_value (S := X_ops) b x y) -> fin x /\ fin y).
  { intros x y. destruct Hb as [-> | ->]; destruct x, y; cbn; intros F; try discriminate F; split; reflexivity. }
  destruct Hl as [(c & k & H)|H]; [|right; intros x Lx F; rewrite (node_eq _ _ _ E) in F; apply Q in F; apply (H x Lx), F].
  destruct Hr as [(c' & k' & H')|H']; [|right; intros x Lx F; rewrite (node_eq _ _ _ E) in F; apply Q in F; apply (H' x Lx), F]. left.
  destruct Hb as [-> | ->].
  - exists (fun j => c j + c' j)%R, (k + k')%R. intros x Lx. rewrite (node_eq _ _ _ E), lin_add. cbn [n_kind bin_value]. rewrite (H x Lx), (H' x Lx). reflexivity.
  - exists (fun j => c j + -1 * c' j)%R, (k + -1 * k')%R. intros x Lx. rewrite (node_eq _ _ _ E), lin_add, (lin_scale (-1) c' k'). cbn [n_kind bin_value]. rewrite (H x Lx), (H' x Lx).
    cbn. f_equal. ring.
Qed.
Lemma mul_dich m l r t : nth_error (st_nodes s) m = Some (mkN (KBin BMul l r) t) -> affine_node l \/ dead_node l -> affine_node r \/ dead_node r ->
  const_node l \/ const_node r -> affine_node m \/ dead_node m.
Proof.
  intros E Hl Hr Hc.
  assert (Q : forall x y, fin (bin_value (S := X_ops) BMul x y) -> fin x /\ fin y).
  { intros x y F. destruct x as [x| | |], y as [y| | |]; cbn in F; try discriminate F; try (split; reflexivity); exfalso; unfold fin in F; cbn in F;
      repeat match type of F with context [if ?d then _ else _] => destruct d end; cbn in F; try discriminate F;
      unfold X_mul, xsgn, xinf in F; cbn in F; repeat match type of F with context [if ?d then _ else _] => destruct d end; discriminate F. }
  destruct Hl as [(c & k & H)|H]; [|right; intros x Lx F; rewrite (node_eq _ _ _ E) in F; apply Q in F; apply (H x Lx), F].
  destruct Hr as [(c' & k' & H')|H']; [|right; intros x Lx F; rewrite (node_eq _ _ _ E) in F; apply Q in F; apply (H' x Lx), F]. left.
  assert (Lz : length (repeat 0%R n) = n) by apply repeat_length.
  destruct Hc as [(v & V)|(v & V)].
  - pose proof (V _ Lz) as V0. rewrite (H _ Lz) in V0. set (a := lin c k (repeat 0%R n)) in V0. exists (fun j => a * c' j)%R, (a * k')%R. intros x Lx.
    rewrite (node_eq _ _ _ E), lin_scale. cbn [n_kind bin_value]. rewrite (V x Lx), (H' x Lx), <- V0. reflexivity.
  - pose proof (V _ Lz) as V0. rewrite (H' _ Lz) in V0. set (a := lin c' k' (repeat 0%R n)) in V0. exists (fun j => a * c j)%R, (a * k)%R. intros x Lx.
    rewrite (node_eq _ _ _ E), lin_scale. cbn [n_kind bin_value]. rewrite (V x Lx), (H x Lx), <- V0. cbn. f_equal. ring.
Qed.
Lemma div_dich m l r t : nth_error (st_nodes s) m = Some (mkN (KBin BDiv l r) t) -> affine_node l \/ dead_node l -> const_node r -> affine_node m \/ dead_node m.
Proof.
  intros E Hl (v & V).
  assert (Q : forall x y, fin (bin_value (S := X_ops) BDiv x y) -> fin x).
  { intros x y F. destruct x as [x| | |]; [reflexivity|..]; exfalso; destruct y; unfold fin in F; cbn in F; unfold X_div, xsgn, xinf in F; cbn in F;
      repeat match type of F with context [if ?d then _ else _] => destruct d end; discriminate F. }
  destruct Hl as [(c & k & H)|H]; [|right; intros x Lx F; rewrite (node_eq _ _ _ E) in F; apply Q in F; exact (H x Lx F)].
  destruct v as [a| | |].
  - destruct (Req_EM_T a 0) as [->|Na].
    + right. intros x Lx F. rewrite (node_eq _ _ _ E) in F. cbn [n_kind bin_value] in F. rewrite (H x Lx), (V x Lx) in F. cbn in F. unfold fin, X_div, xsgn, xinf in F.
      destruct (Req_EM_T 0 0) as [_|X]; [|exact (X eq_refl)]. cbn in F. repeat match type of F with context [if ?d then _ else _] => destruct d end; discriminate F.
    + left. exists (fun j => / a * c j)%R, (/ a * k)%R. intros x Lx. rewrite (node_eq _ _ _ E), lin_scale. cbn [n_kind bin_value]. rewrite (H x Lx), (V x Lx). cbn. unfold X_div.
      destruct (Req_EM_T a 0) as [X|_]; [contradiction|]. f_equal. unfold Rdiv. ring.
  - left. exists (fun _ => 0%R), 0%R. intros x Lx. rewrite (node_eq _ _ _ E), lin_const. cbn [n_kind bin_value]. rewrite (H x Lx), (V x Lx). reflexivity.
  - left. exists (fun _ => 0%R), 0%R. intros x Lx. rewrite (node_eq _ _ _ E), lin_const. cbn [n_kind bin_value]. rewrite (H x Lx), (V x Lx). reflexivity.
  - right. intros x Lx F. rewrite (node_eq _ _ _ E) in F. cbn [n_kind bin_value] in F. rewrite (H x Lx), (V x Lx) in F. discriminate F.
Qed.

Lemma linear_dich : forall m, typ (st_nodes s) m = CONSTANT \/ typ (st_nodes s) m = LINEAR -> affine_node m \/ dead_node m.
Proof.
  induction m as [m IH] using lt_wf_ind. intros Ht.
  destruct (nth_error (st_nodes s) m) as [[k t]|] eqn:E; [|unfold typ in Ht; rewrite E in Ht; destruct Ht; discriminate].
  assert (T : typ (st_nodes s) m = t) by (unfold typ; rewrite E; reflexivity).
  destruct Ht as [Ht|Ht]; [apply const_dich, const_is_node, Ht|]. rewrite T in Ht. subst t.
  pose proof (W m _ E) as (Ha & H). cbn [n_kind n_type n_args] in H, Ha.
  destruct k as [| |u a|b l r]; cbn in H.
  - discriminate.
  - eapply var_dich, E.
  - pose proof (IH a (Ha a (or_introl eq_refl))) as Pa. clear IH Ha.
    destruct u; destruct (typ (st_nodes s) a) eqn:Ta; try discriminate; eapply neg_dich; eauto.
  - pose proof (IH l (Ha l (or_introl eq_refl))) as Pl. pose proof (IH r (Ha r (or_intror (or_introl eq_refl)))) as Pr. clear IH Ha.
    destruct b; destruct (typ (st_nodes s) l) eqn:Tl; try discriminate; destruct (typ (st_nodes s) r) eqn:Tr; try discriminate; clear H;
    specialize (Pl ltac:(auto)); specialize (Pr ltac:(auto));
      first [ eapply add_dich; [|exact E|exact Pl|exact Pr]; solve [auto]
            | eapply mul_dich; [exact E|exact Pl|exact Pr|solve [left; apply const_is_node, Tl|right; apply const_is_node, Tr]]
            | eapply div_dich; [exact E|exact Pl|apply const_is_node, Tr] ].
Qed.
End Affine.
