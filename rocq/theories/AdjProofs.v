(** Reverse accumulation as a function of the graph, the stored values and the sorted list. *)
From Coq Require Import ZArith List Bool Arith Lia.
From Verif Require Import Base ExprModel GraphSpec GraphProofs ExprInv VarModel VarReach VarProofs.
Import ListNotations.

Section Gen.
Context {S : sops}.
Implicit Types s : st S.
Local Notation zero := (s_ofZ S 0%Z).
Local Notation one := (s_ofZ S 1%Z).

Definition step_adj (ns : list node) (val : nat -> S) (adj : nat -> S) (n : nat) : nat -> S :=
  match nth_error ns n with
  | Some nd =>
      match n_kind nd with
      | KConst | KVar => adj
      | KUn u a => upd adj a (s_add S (adj a) (un_grad u (adj n) (val a)))
      | KBin b l r =>
          let adj := upd adj l (s_add S (adj l) (bin_grad_l b (adj n) (val l) (val r))) in
          upd adj r (s_add S (adj r) (bin_grad_r b (adj n) (val l) (val r)))
      end
  | None => adj
  end.
Definition adj_run ns val l adj := fold_left (step_adj ns val) l adj.
Definition seed (l : list nat) (adj : nat -> S) : nat -> S :=
  match l with [] => adj | r :: rest => fold_left (fun adj n => upd adj n zero) rest (upd adj r one) end.
Definition adj_final ns val l adj := adj_run ns val l (seed l adj).

Definition with_adj s a := mkSt (st_nodes s) (st_val s) a (st_adje s) (st_scr s).

Lemma zero_adj l : forall s, each (fun n s => Ok (set_adj s n zero)) l s
  = Ok (with_adj s (fold_left (fun adj n => upd adj n zero) l (st_adj s))).
Proof.
  induction l as [|x l IH]; intros s; cbn [each fold_left obind]; [destruct s; reflexivity|].
  rewrite IH. reflexivity.
Qed.

Lemma run_adj l : forall s, (forall n, In n l -> n < nlen s) ->
  each propagate_node l s = Ok (with_adj s (adj_run (st_nodes s) (st_val s) l (st_adj s))).
Proof.
  induction l as [|x l IH]; intros s Hv; cbn [each]; [destruct s; reflexivity|].
  destruct (nth_valid s x (Hv x (or_introl eq_refl))) as ([k t] & E).
  unfold propagate_node. rewrite E. cbn [n_kind]. unfold adj_run. cbn [fold_left]. unfold step_adj at 2. rewrite E. cbn [n_kind].
  destruct k as [| |u a|b a c]; cbn [obind]; rewrite IH; try (intros n Hn; apply Hv; right; exact Hn); reflexivity.
Qed.

Lemma propagate_ok s l : (forall n, In n l -> n < nlen s) ->
  propagate l s = Ok (with_adj s (adj_final (st_nodes s) (st_val s) l (st_adj s))).
Proof.
  intros Hv. destruct l as [|r rest]; [destruct s; reflexivity|]. unfold propagate. rewrite zero_adj. cbn [obind].
  rewrite run_adj; [reflexivity|exact Hv].
Qed.

Lemma zero_fold l : forall (adj : nat -> S) n,
  fold_left (fun adj n => upd adj n zero) l adj n = if in_dec Nat.eq_dec n l then zero else adj n.
Proof.
  induction l as [|x l IH]; intros adj n; cbn [fold_left]; [reflexivity|]. rewrite IH.
  destruct (in_dec Nat.eq_dec n l) as [I0|N0]; destruct (in_dec Nat.eq_dec n (x :: l)) as [I1|N1]; auto.
  - exfalso. apply N1. right. exact I0.
  - destruct I1 as [->|I1]; [apply upd_eq|contradiction].
  - apply upd_ne. intros ->. apply N1. left. reflexivity.
Qed.

Lemma seed_root r rest adj : ~ In r rest -> seed (r :: rest) adj r = one.
Proof. intros H. unfold seed. rewrite zero_fold. destruct (in_dec _ _ _); [contradiction|apply upd_eq]. Qed.
Lemma seed_rest r rest adj n : In n rest -> seed (r :: rest) adj n = zero.
Proof. intros H. unfold seed. rewrite zero_fold. destruct (in_dec _ _ _); [reflexivity|contradiction]. Qed.

Lemma seed_agree l (adj adj' : nat -> S) n : In n l -> seed l adj n = seed l adj' n.
Proof.
  destruct l as [|r rest]; [intros []|]. intros H. unfold seed. rewrite !zero_fold.
  destruct (in_dec _ _ _) as [I0|N0]; [reflexivity|]. destruct H as [->|H]; [|contradiction]. rewrite !upd_eq. reflexivity.
Qed.

(** The adjoints of listed nodes depend only on the graph and on the values of listed nodes. *)
Lemma adj_agree ns (val val' : nat -> S) (L : list nat) : (forall n, In n L -> incl (args ns n) L) ->
  (forall n, In n L -> val n = val' n) ->
  forall l adj adj', incl l L -> (forall n, In n L -> adj n = adj' n) ->
  forall n, In n L -> adj_run ns val l adj n = adj_run ns val' l adj' n.
Proof.
  intros Hc Hv. induction l as [|x l IH]; intros adj adj' Hl Ha n Hn; cbn; [apply Ha, Hn|].
  assert (Hx : In x L) by (apply Hl; left; reflexivity).
  apply IH; [intros y Hy; apply Hl; right; exact Hy| |exact Hn]. clear n Hn. intros n Hn.
  pose proof (Hc x Hx) as Hi. unfold args in Hi. unfold step_adj.
  destruct (nth_error ns x) as [[k t]|]; [|apply Ha, Hn]. cbn [n_kind n_args] in *.
  destruct k as [| |u a|b a c]; [apply Ha, Hn|apply Ha, Hn| |].
  - assert (In a L) by (apply Hi; left; reflexivity). unfold upd. destruct (Nat.eqb n a); [|apply Ha, Hn].
    rewrite !Ha, Hv by assumption. reflexivity.
  - assert (In a L) by (apply Hi; left; reflexivity). assert (In c L) by (apply Hi; right; left; reflexivity).
    unfold upd. destruct (Nat.eqb n c), (Nat.eqb c a), (Nat.eqb n a), (Nat.eqb x a);
      rewrite ?(Ha n), ?(Ha a), ?(Ha c), ?(Ha x), ?(Hv a), ?(Hv c) by assumption; reflexivity.
Qed.

(** Nodes below a node of linear type are linear or constant. *)
Lemma linear_args ns n : wfn ns -> typ ns n = LINEAR ->
  match nth_error ns n with
  | Some nd =>
      match n_kind nd with
      | KConst => False
      | KVar => True
      | KUn u a => u = UNeg /\ typ ns a = LINEAR
      | KBin b l r =>
          (typ ns l = LINEAR \/ typ ns l = CONSTANT) /\ (typ ns r = LINEAR \/ typ ns r = CONSTANT) /\
          ((b = BAdd \/ b = BSub) \/ (b = BMul /\ (typ ns l = CONSTANT \/ typ ns r = CONSTANT)) \/
           (b = BDiv /\ typ ns r = CONSTANT))
      end
  | None => False
  end.
Proof.
  intros W T. unfold typ in T. destruct (nth_error ns n) as [[k t]|] eqn:E; [|discriminate]. cbn in T. subst t.
  apply W in E as [_ E]. cbn [n_kind n_type] in *.
  destruct k as [| |u a|b a c]; [discriminate|exact I| |]; cbn [ty_of] in E;
    [destruct u; destruct (typ ns a) eqn:Ta; try discriminate; auto|].
  destruct b; destruct (typ ns a) eqn:Ta; try discriminate; destruct (typ ns c) eqn:Tc; try discriminate; auto 10.
Qed.

Lemma linear_reach ns r : wfn ns -> typ ns r = LINEAR -> forall n, reach ns r n -> typ ns n = LINEAR \/ typ ns n = CONSTANT.
Proof.
  intros W T n H. induction H as [|n a Hn IH Ha]; [auto|]. destruct IH as [IH|IH].
  - pose proof (linear_args ns n W IH) as L. unfold args in Ha. destruct (nth_error ns n) as [[k t]|]; [|destruct Ha].
    cbn [n_kind n_args] in *. destruct k as [| |u b|b l c]; cbn in Ha; [destruct Ha|destruct Ha| |].
    + destruct Ha as [<-|[]]. left. apply L.
    + destruct L as (L1 & L2 & _). destruct Ha as [<-|[<-|[]]]; assumption.
  - destruct (typ_const ns n W IH) as (nd & E & K). unfold args in Ha. rewrite E in Ha. unfold n_args in Ha. rewrite K in Ha. destruct Ha.
Qed.

(** In a linear graph the adjoints of the nodes that are not constant depend only on the constants. *)
Lemma adj_linear ns (val val' : nat -> S) (L : list nat) : wfn ns -> (forall n, In n L -> incl (args ns n) L) ->
  (forall n, In n L -> typ ns n = LINEAR \/ typ ns n = CONSTANT) ->
  (forall n, In n L -> typ ns n = CONSTANT -> val n = val' n) ->
  forall l adj adj', incl l L -> (forall n, In n L -> typ ns n = LINEAR -> adj n = adj' n) ->
  forall n, In n L -> typ ns n = LINEAR -> adj_run ns val l adj n = adj_run ns val' l adj' n.
Proof.
  intros W Hc HT Hv. induction l as [|x l IH]; intros adj adj' Hl Ha n Hn Tn; cbn; [apply Ha; assumption|].
  assert (Hx : In x L) by (apply Hl; left; reflexivity).
  apply IH; [intros y Hy; apply Hl; right; exact Hy| |exact Hn|exact Tn]. clear n Hn Tn. intros n Hn Tn.
  destruct (HT x Hx) as [Tx|Tx].
  2:{ destruct (typ_const ns x W Tx) as (nd & E & K). unfold step_adj. rewrite E, K. apply Ha; assumption. }
  pose proof (linear_args ns x W Tx) as Lx. pose proof (Hc x Hx) as Hi. unfold args in Hi. unfold step_adj.
  pose proof (Ha x Hx Tx) as Ax.
  assert (Xlt : forall a, In a (args ns x) -> a < x) by (intros a; apply (wfn_acyclic ns W)). unfold args in Xlt.
  destruct (nth_error ns x) as [[k t]|]; [|destruct Lx]. cbn [n_kind n_args] in *.
  destruct k as [| |u a|b a c]; [destruct Lx|apply Ha; assumption| |].
  - destruct Lx as [-> Ta]. assert (In a L) by (apply Hi; left; reflexivity). cbn [un_grad].
    unfold upd. destruct (Nat.eqb n a); [|apply Ha; assumption]. rewrite Ax, Ha by assumption. reflexivity.
  - assert (Ia : In a L) by (apply Hi; left; reflexivity). assert (Ic : In c L) by (apply Hi; right; left; reflexivity).
    assert (a < x) by (apply Xlt; left; reflexivity).
    assert (Dx : Nat.eqb x a = false) by (apply Nat.eqb_neq; lia).
    destruct Lx as (L1 & L2 & Lb).
    (* equal operands contributing, or operand constant *)
    assert (Hgl : typ ns a = LINEAR -> bin_grad_l b (adj x) (val a) (val c) = bin_grad_l b (adj' x) (val' a) (val' c)).
    { intros Ta. destruct Lb as [[->| ->]|[(-> & Hq)|(-> & Hq)]]; cbn; try (rewrite Ax; reflexivity).
      - destruct Hq as [Hq|Hq]; [congruence|]. rewrite Ax, (Hv c) by assumption. reflexivity.
      - rewrite Ax, (Hv c) by assumption. reflexivity. }
    assert (Hgr : typ ns c = LINEAR -> bin_grad_r b (adj x) (val a) (val c) = bin_grad_r b (adj' x) (val' a) (val' c)).
    { intros Tc. destruct Lb as [[->| ->]|[(-> & Hq)|(-> & Hq)]]; cbn; try (rewrite Ax; reflexivity).
      - destruct Hq as [Hq|Hq]; [|congruence]. rewrite Ax, (Hv a) by assumption. reflexivity.
      - congruence. }
    unfold upd. rewrite Dx. destruct (Nat.eqb n c) eqn:Enc.
    + apply Nat.eqb_eq in Enc. subst n. destruct (Nat.eqb c a) eqn:Eca.
      * apply Nat.eqb_eq in Eca. subst a. rewrite Hgr, Hgl by assumption. rewrite (Ha c) by assumption. reflexivity.
      * rewrite (Ha c), Hgr by assumption. reflexivity.
    + destruct (Nat.eqb n a) eqn:Ena; [|apply Ha; assumption].
      apply Nat.eqb_eq in Ena. subst n. rewrite (Ha a), Hgl by assumption. reflexivity.
Qed.

End Gen.
