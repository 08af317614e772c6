(** Degrees (C21). *)
From Coq Require Import ZArith Reals List Bool Arith Lia Lra.
From Verif Require Import Base ExprModel GraphSpec ExprInv MathSpec DegreeSpec ExprReal.
Import ListNotations.
Local Open Scope nat_scope.

Definition pscale (k : R) (p : poly) : poly := map (fun '(c, vs) => ((k * c)%R, vs)) p.
Definition pmul (p q : poly) : poly := flat_map (fun '(c, vs) => map (fun '(d, ws) => ((c * d)%R, vs ++ ws)) q) p.

Lemma mon_app lv vs ws : mon lv (vs ++ ws) = (mon lv vs * mon lv ws)%R.
Proof. induction vs as [|v vs IH]; cbn [app mon]; [|rewrite IH]; ring. Qed.
Lemma peval_app lv p q : peval lv (p ++ q) = (peval lv p + peval lv q)%R.
Proof. induction p as [|[c vs] p IH]; cbn [app peval]; [|rewrite IH]; ring. Qed.
Lemma peval_scale lv k p : peval lv (pscale k p) = (k * peval lv p)%R.
Proof. induction p as [|[c vs] p IH]; cbn [pscale map peval]; [|unfold pscale in IH; rewrite IH]; ring. Qed.
Lemma peval_mon lv c vs q : peval lv (map (fun '(d, ws) => ((c * d)%R, vs ++ ws)) q) = (c * mon lv vs * peval lv q)%R.
Proof. induction q as [|[d ws] q IH]; cbn [map peval]; [ring|]. rewrite IH, mon_app. ring. Qed.
Lemma peval_mul lv p q : peval lv (pmul p q) = (peval lv p * peval lv q)%R.
Proof.
  unfold pmul. induction p as [|[c vs] p IH]; cbn [flat_map peval]; [ring|]. rewrite peval_app, peval_mon, IH. ring.
Qed.

Lemma deg_app ns d p q : degree_le ns d p -> degree_le ns d q -> degree_le ns d (p ++ q).
Proof. intros H K c vs Hi. apply in_app_or in Hi as [Hi|Hi]; eauto. Qed.
Lemma deg_scale ns d k p : degree_le ns d p -> degree_le ns d (pscale k p).
Proof. intros H c vs Hi. apply in_map_iff in Hi as ([c' vs'] & E & Hi). injection E as <- <-. eauto. Qed.
Lemma deg_mul ns d d' p q : degree_le ns d p -> degree_le ns d' q -> degree_le ns (d + d') (pmul p q).
Proof.
  intros H K c vs Hi. apply in_flat_map in Hi as ([c1 v1] & H1 & Hi). apply in_map_iff in Hi as ([c2 v2] & E & H2).
  injection E as <- <-. destruct (H _ _ H1) as [L1 F1], (K _ _ H2) as [L2 F2]. split; [rewrite app_length; lia|].
  apply Forall_app. auto.
Qed.
Lemma deg_mono ns d d' p : d <= d' -> degree_le ns d p -> degree_le ns d' p.
Proof. intros L H c vs Hi. destruct (H c vs Hi). split; [lia|assumption]. Qed.

(** [p] is the function rooted at [n], for leaf values that agree with the constants of [s]. *)
Definition is_poly (s : st R_ops) (n d : nat) : Prop :=
  exists p, degree_le (st_nodes s) d p /\ forall (lv : nat -> R) v, agrees (S := R_ops) s lv -> GEv (st_nodes s) lv n v -> v = peval lv p.

Lemma const_poly (s : st R_ops) n (c : R) : (forall (lv : nat -> R) v, agrees (S := R_ops) s lv -> GEv (st_nodes s) lv n v -> v = c) -> is_poly s n 0.
Proof.
  intros H. exists [(c, [])]. split.
  - intros c' vs [E|[]]. injection E as <- <-. split; [auto|constructor].
  - intros lv v A G. cbn. rewrite (H lv v A G). ring.
Qed.

Lemma GEv_node (s : st R_ops) lv n nd v : nth_error (st_nodes s) n = Some nd -> GEv (st_nodes s) lv n v ->
  match n_kind nd with
  | KConst | KVar => v = lv n
  | KUn u a => exists x, GEv (st_nodes s) lv a x /\ math_un u x v
  | KBin b l r => exists x y, GEv (st_nodes s) lv l x /\ GEv (st_nodes s) lv r y /\ math_bin b x y v
  end.
Proof.
  intros E G. destruct G as [n t E'|n t E'|n u a t x v E' G M|n b l r t x y v E' G1 G2 M]; rewrite E in E'; injection E' as ->; cbn; eauto.
Qed.

Lemma type_const (s : st R_ops) n : wf s -> typ (st_nodes s) n = CONSTANT -> is_kconst (st_nodes s) n.
Proof.
  intros W T. unfold typ in T. destruct (nth_error (st_nodes s) n) as [[k t]|] eqn:E; [|discriminate]. cbn in T. subst t.
  pose proof (W n _ E) as (_ & H). cbn [n_kind n_type] in H. exists (mkN k CONSTANT). split; [exact E|]. cbn.
  destruct k as [| |u a|b l r]; cbn in H; try discriminate; try reflexivity.
  - destruct u, (typ (st_nodes s) a); discriminate.
  - destruct b, (typ (st_nodes s) l), (typ (st_nodes s) r); discriminate.
Qed.

Lemma const_value (s : st R_ops) n : wf s -> typ (st_nodes s) n = CONSTANT ->
  forall (lv : nat -> R) v, agrees (S := R_ops) s lv -> GEv (st_nodes s) lv n v -> v = st_val s n.
Proof.
  intros W T lv v A G. pose proof (type_const s n W T) as K. pose proof K as ([k t] & E & Hk). cbn in Hk. subst k.
  pose proof (GEv_node s lv n _ v E G) as H. cbn in H. rewrite H. apply A, K.
Qed.


Section Nodes.
Context (s : st R_ops).
Hypothesis W : wf s.
Context (n : nat) (k : kind) (t : etype).
Hypothesis E : nth_error (st_nodes s) n = Some (mkN k t).

Lemma poly_var : k = KVar -> is_poly s n 1.
Proof.
  intros ->. exists [(1%R, [n])]. split.
  - intros c vs [X|[]]. injection X as <- <-. split; [auto|]. constructor; [|constructor]. eexists. split; [exact E|reflexivity].
  - intros lv v A G. rewrite (GEv_node s lv n _ v E G). cbn. ring.
Qed.

Lemma poly_neg a e : k = KUn UNeg a -> is_poly s a e -> is_poly s n e.
Proof.
  intros -> (p & D & P). exists (pscale (-1) p). split; [apply deg_scale, D|].
  intros lv v A G. destruct (GEv_node s lv n _ v E G) as (x & Gx & M). inversion M; subst.
  rewrite peval_scale, <- (P lv x A Gx). ring.
Qed.

Lemma poly_up m e e' : e <= e' -> is_poly s m e -> is_poly s m e'.
Proof. intros Le (p & D & P). exists p. split; [eapply deg_mono; eauto|exact P]. Qed.

Lemma poly_add l r e e' d : k = KBin BAdd l r \/ k = KBin BSub l r -> is_poly s l e -> is_poly s r e' -> e <= d -> e' <= d -> is_poly s n d.
Proof.
  intros K Hl Hr L L'. destruct (poly_up l e d L Hl) as (p & D & P), (poly_up r e' d L' Hr) as (q & D' & Q).
  destruct K as [-> | ->]; [exists (p ++ q)|exists (p ++ pscale (-1) q)]; (split; [apply deg_app; [exact D|try apply deg_scale; exact D']|]);
  intros lv v A G; destruct (GEv_node s lv n _ v E G) as (x & y & Gx & Gy & M); inversion M; subst;
  rewrite peval_app, ?peval_scale, <- (P lv x A Gx), <- (Q lv y A Gy); ring.
Qed.

Lemma poly_mul l r e e' d : k = KBin BMul l r -> is_poly s l e -> is_poly s r e' -> e + e' <= d -> is_poly s n d.
Proof.
  intros -> (p & D & P) (q & D' & Q) L. apply (poly_up n (e + e') d L). exists (pmul p q). split; [apply deg_mul; assumption|].
  intros lv v A G. destruct (GEv_node s lv n _ v E G) as (x & y & Gx & Gy & M). inversion M; subst.
  rewrite peval_mul, <- (P lv x A Gx), <- (Q lv y A Gy). ring.
Qed.

Lemma poly_div l r e : k = KBin BDiv l r -> is_poly s l e -> typ (st_nodes s) r = CONSTANT -> is_poly s n e.
Proof.
  intros -> (p & D & P) Tr. exists (pscale (/ (st_val s r : R))%R p). split; [apply deg_scale, D|].
  intros lv v A G. destruct (GEv_node s lv n _ v E G) as (x & y & Gx & Gy & M). inversion M; subst.
  rewrite peval_scale, <- (P lv x A Gx). rewrite (const_value s r W Tr lv y A Gy) in *. field. assumption.
Qed.
End Nodes.

Lemma degree (s : st R_ops) : wf s -> forall n d, promised (typ (st_nodes s) n) = Some d -> is_poly s n d.
Proof.
  intros W. induction n as [n IH] using lt_wf_ind. intros d Hd.
  destruct (nth_error (st_nodes s) n) as [[k t]|] eqn:E; [|unfold typ in Hd; rewrite E in Hd; discriminate].
  assert (T : typ (st_nodes s) n = t) by (unfold typ; rewrite E; reflexivity). rewrite T in Hd.
  pose proof (W n _ E) as (Ha & H). cbn [n_kind n_type n_args] in H, Ha.
  assert (IHt : forall a t', In a (n_args (mkN k t)) -> typ (st_nodes s) a = t' -> forall d, promised t' = Some d -> is_poly s a d).
  { intros a t' Hi <-. apply IH, Ha, Hi. }
  cbn [n_args n_kind] in IHt. clear IH.
  destruct k as [| |u a|b l r]; cbn in H.
  - injection H as <-. injection Hd as <-. apply (const_poly s n (st_val s n)). apply const_value; assumption.
  - injection H as <-. injection Hd as <-. eapply poly_var; eauto.
  - pose proof (fun t' => IHt a t' (or_introl eq_refl)) as Pa. clear IHt.
    destruct u; destruct (typ (st_nodes s) a) eqn:Ta; try discriminate; injection H as <-; try discriminate; injection Hd as <-;
      eapply poly_neg; eauto; eapply Pa; eauto.
  - pose proof (fun t' => IHt l t' (or_introl eq_refl)) as Pl. pose proof (fun t' => IHt r t' (or_intror (or_introl eq_refl))) as Pr. clear IHt.
    destruct b; destruct (typ (st_nodes s) l) eqn:Tl; try discriminate; destruct (typ (st_nodes s) r) eqn:Tr; try discriminate;
      injection H as <-; try discriminate; injection Hd as <-; specialize (Pl _ eq_refl _ eq_refl);
      first [ eapply poly_div; eauto; fail
            | specialize (Pr _ eq_refl _ eq_refl);
              first [ eapply poly_add; eauto; lia | eapply poly_mul; eauto; lia ] ].
Qed.
