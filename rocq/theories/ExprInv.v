(** Invariants of the expression graph and one lemma per constructor (used by C16-C30).  Everything here
    holds for every scalar type; the value relations [simp_un] / [simp_bin] list what simplification may
    return. *)
From Coq Require Import ZArith List Bool Arith Lia.
From Verif Require Import Base ExprModel GraphSpec GraphProofs.
Import ListNotations.

Definition typ (ns : list node) (n : nat) : etype :=
  match nth_error ns n with Some nd => n_type nd | None => NONE end.

(** The type a constructor gives to a node, if it builds such a node at all. *)
Definition ty_of (ns : list node) (k : kind) : option etype :=
  match k with
  | KConst => Some CONSTANT
  | KVar => Some LINEAR
  | KUn UNeg a => match typ ns a with LINEAR => Some LINEAR | QUADRATIC => Some QUADRATIC | NONLINEAR => Some NONLINEAR
                  | _ => None end
  | KUn _ a => match typ ns a with CONSTANT | NONE => None | _ => Some NONLINEAR end
  | KBin (BAdd | BSub) l r =>
      match typ ns l, typ ns r with
      | NONE, _ | _, NONE | CONSTANT, CONSTANT => None
      | NONLINEAR, _ | _, NONLINEAR => Some NONLINEAR
      | QUADRATIC, _ | _, QUADRATIC => Some QUADRATIC
      | _, _ => Some LINEAR
      end
  | KBin BMul l r =>
      match typ ns l, typ ns r with
      | NONE, _ | _, NONE | CONSTANT, CONSTANT => None
      | CONSTANT, t | t, CONSTANT => Some t
      | LINEAR, LINEAR => Some QUADRATIC
      | _, _ => Some NONLINEAR
      end
  | KBin BDiv l r =>
      match typ ns l, typ ns r with
      | NONE, _ | _, NONE | CONSTANT, CONSTANT => None
      | t, CONSTANT => Some t
      | _, _ => Some NONLINEAR
      end
  | KBin _ l r =>
      match typ ns l, typ ns r with
      | NONE, _ | _, NONE | CONSTANT, CONSTANT => None
      | _, _ => Some NONLINEAR
      end
  end.

Definition wfn (ns : list node) : Prop :=
  forall n nd, nth_error ns n = Some nd -> (forall a, In a (n_args nd) -> a < n) /\ ty_of ns (n_kind nd) = Some (n_type nd).

Lemma wfn_acyclic ns : wfn ns -> acyclic_nodes ns.
Proof.
  intros H n a Ha. unfold args in Ha. destruct (nth_error ns n) as [nd|] eqn:E; [|destruct Ha].
  apply (proj1 (H n nd E)), Ha.
Qed.

Lemma typ_app ns more n : n < length ns -> typ (ns ++ more) n = typ ns n.
Proof. intros H. unfold typ. rewrite nth_error_app1 by exact H. reflexivity. Qed.

Lemma typ_some ns n nd : nth_error ns n = Some nd -> typ ns n = n_type nd.
Proof. unfold typ. intros ->. reflexivity. Qed.

Lemma typ_const ns n : wfn ns -> typ ns n = CONSTANT -> exists nd, nth_error ns n = Some nd /\ n_kind nd = KConst.
Proof.
  intros H E. unfold typ in E. destruct (nth_error ns n) as [[k t]|] eqn:En; [|discriminate].
  cbn in E. subst t. exists (mkN k CONSTANT). split; [reflexivity|].
  apply (H n) in En as [_ En]. cbn in En.
  destruct k as [| |u a|b l r]; cbn in *; [reflexivity|discriminate| |];
    [destruct u|destruct b]; repeat (destruct (typ ns _); try discriminate).
Qed.

Lemma typ_none ns n : wfn ns -> n < length ns -> typ ns n <> NONE.
Proof.
  intros H Hn. unfold typ. destruct (nth_error ns n) as [[k t]|] eqn:En.
  - cbn. intros ->. apply (H n) in En as [_ En]. cbn in En.
    destruct k as [| |u a|b l r]; cbn in *; [discriminate|discriminate| |];
      [destruct u|destruct b]; repeat (destruct (typ ns _); try discriminate).
  - apply nth_error_None in En. lia.
Qed.

Definition kargs (k : kind) : list nat := match k with KConst | KVar => [] | KUn _ a => [a] | KBin _ l r => [l; r] end.

Lemma ty_of_ext ns more k : (forall a, In a (kargs k) -> a < length ns) -> ty_of (ns ++ more) k = ty_of ns k.
Proof.
  destruct k as [| |u a|b l r]; cbn [kargs]; intros H; cbn [ty_of]; [reflexivity|reflexivity| |];
    rewrite ?(typ_app ns more) by (apply H; cbn; auto); reflexivity.
Qed.

Lemma wfn_snoc ns k t : wfn ns -> (forall a, In a (kargs k) -> a < length ns) -> ty_of ns k = Some t ->
  wfn (ns ++ [mkN k t]).
Proof.
  intros H Ha Ht n nd E.
  destruct (Nat.lt_ge_cases n (length ns)) as [L|G].
  - rewrite nth_error_app1 in E by exact L. destruct (H n nd E) as [A B]. split; [exact A|].
    rewrite ty_of_ext; [exact B|]. intros a Hin. specialize (A a Hin). lia.
  - assert (n = length ns).
    { assert (n < length (ns ++ [mkN k t])) by (apply nth_error_Some; congruence).
      rewrite app_length in H0. cbn in H0. lia. }
    subst n. rewrite nth_error_app2 in E by lia. rewrite Nat.sub_diag in E. cbn in E. injection E as <-.
    cbn [n_kind n_type]. split.
    + intros a Hin. apply Ha. exact Hin.
    + rewrite ty_of_ext by exact Ha. exact Ht.
Qed.

Section Eval.
Context {S : sops}.

(** Value of node [n] for leaf values [lv] ([Datatypes.S n] levels suffice in a well-formed graph). *)
Fixpoint evalf (fuel : nat) (ns : list node) (lv : nat -> S) (n : nat) : S :=
  match fuel with
  | O => lv n
  | Datatypes.S fuel =>
      match nth_error ns n with
      | Some nd =>
          match n_kind nd with
          | KConst | KVar => lv n
          | KUn u a => un_value u (evalf fuel ns lv a)
          | KBin b l r => bin_value b (evalf fuel ns lv l) (evalf fuel ns lv r)
          end
      | None => lv n
      end
  end.
Definition eval ns lv n := evalf (Datatypes.S n) ns lv n.

Lemma evalf_fuel ns lv : wfn ns -> forall f f' n, n < f -> n < f' -> evalf f ns lv n = evalf f' ns lv n.
Proof.
  intros H. induction f as [|f IH]; intros f' n Hf Hf'; [lia|].
  destruct f' as [|f']; [lia|]. cbn [evalf].
  destruct (nth_error ns n) as [[k t]|] eqn:E; [|reflexivity].
  destruct (H n _ E) as [A _]. cbn [n_kind n_args] in *.
  destruct k as [| |u a|b l r]; cbn in A; [reflexivity|reflexivity| |].
  - rewrite (IH f' a) by (specialize (A a (or_introl eq_refl)); lia). reflexivity.
  - rewrite (IH f' l) by (specialize (A l (or_introl eq_refl)); lia).
    rewrite (IH f' r) by (specialize (A r (or_intror (or_introl eq_refl))); lia). reflexivity.
Qed.

Lemma eval_eq ns lv n : wfn ns -> eval ns lv n =
  match nth_error ns n with
  | Some nd =>
      match n_kind nd with
      | KConst | KVar => lv n
      | KUn u a => un_value u (eval ns lv a)
      | KBin b l r => bin_value b (eval ns lv l) (eval ns lv r)
      end
  | None => lv n
  end.
Proof.
  intros H. unfold eval at 1. cbn [evalf]. destruct (nth_error ns n) as [[k t]|] eqn:E; [|reflexivity].
  destruct (H n _ E) as [A _]. cbn [n_kind n_args] in *. unfold eval.
  destruct k as [| |u a|b l r]; cbn in A; [reflexivity|reflexivity| |].
  - rewrite (evalf_fuel ns lv H n (Datatypes.S a) a); [reflexivity| |lia]. exact (A a (or_introl eq_refl)).
  - rewrite (evalf_fuel ns lv H n (Datatypes.S l) l); [|exact (A l (or_introl eq_refl))|lia].
    rewrite (evalf_fuel ns lv H n (Datatypes.S r) r); [reflexivity|exact (A r (or_intror (or_introl eq_refl)))|lia].
Qed.

Lemma eval_leaf ns lv n nd : wfn ns -> nth_error ns n = Some nd -> n_kind nd = KConst \/ n_kind nd = KVar ->
  eval ns lv n = lv n.
Proof. intros H E [K|K]; rewrite (eval_eq ns lv n H), E, K; reflexivity. Qed.

Lemma Ev_eval ns lv n v : wfn ns -> Ev ns lv n v -> v = eval ns lv n.
Proof.
  intros H. induction 1 as [n t E|n t E|n u a t x E _ IH|n b l r t x y E _ IHl _ IHr];
    rewrite (eval_eq ns lv n H), E; cbn [n_kind]; [reflexivity|reflexivity| |]; subst; reflexivity.
Qed.

Lemma eval_Ev ns lv : wfn ns -> forall n, n < length ns -> Ev ns lv n (eval ns lv n).
Proof.
  intros H n. induction n as [n IH] using (well_founded_induction lt_wf). intros Hn.
  rewrite (eval_eq ns lv n H). destruct (nth_error ns n) as [[k t]|] eqn:E.
  2:{ apply nth_error_None in E. lia. }
  destruct (H n _ E) as [A _]. cbn [n_kind n_args] in *.
  destruct k as [| |u a|b l r]; cbn in A.
  - econstructor. exact E.
  - econstructor 2. exact E.
  - specialize (A a (or_introl eq_refl)). econstructor 3; [exact E|]. apply IH; lia.
  - pose proof (A l (or_introl eq_refl)). pose proof (A r (or_intror (or_introl eq_refl))).
    econstructor 4; [exact E| |]; apply IH; lia.
Qed.

Lemma eval_app ns more lv : wfn ns -> wfn (ns ++ more) -> forall n, n < length ns ->
  eval (ns ++ more) lv n = eval ns lv n.
Proof.
  intros H H' n. induction n as [n IH] using (well_founded_induction lt_wf). intros Hn.
  rewrite (eval_eq ns lv n H), (eval_eq (ns ++ more) lv n H'), nth_error_app1 by exact Hn.
  destruct (nth_error ns n) as [[k t]|] eqn:E; [|reflexivity].
  destruct (H n _ E) as [A _]. cbn [n_kind n_args] in *.
  destruct k as [| |u a|b l r]; cbn in A; [reflexivity|reflexivity| |].
  - specialize (A a (or_introl eq_refl)). rewrite IH by lia. reflexivity.
  - pose proof (A l (or_introl eq_refl)). pose proof (A r (or_intror (or_introl eq_refl))).
    rewrite !IH by lia. reflexivity.
Qed.

Definition nlen (s : st S) : nat := length (st_nodes s).
Definition wf (s : st S) : Prop := wfn (st_nodes s).
Definition ev (s : st S) lv n := eval (st_nodes s) lv n.

(** [s'] extends [s]: nodes were appended, nothing else changed, and the new nodes carry no residue. *)
Definition ext (s s' : st S) : Prop :=
  (exists more, st_nodes s' = st_nodes s ++ more) /\
  (forall n, n < nlen s -> st_val s' n = st_val s n /\ st_adj s' n = st_adj s n /\
                           st_adje s' n = st_adje s n /\ st_scr s' n = st_scr s n) /\
  (forall n, nlen s <= n -> (st_adje s n = None -> st_adje s' n = None) /\ (st_scr s n = (-1)%Z -> st_scr s' n = (-1)%Z)).

Lemma ext_refl s : ext s s.
Proof. split; [exists []; rewrite app_nil_r; reflexivity|]. split; auto. Qed.

Lemma ext_nlen s s' : ext s s' -> nlen s <= nlen s'.
Proof. intros ((m & E) & _). unfold nlen. rewrite E, app_length. lia. Qed.

Lemma ext_trans a b c : ext a b -> ext b c -> ext a c.
Proof.
  intros Hab Hbc. pose proof (ext_nlen _ _ Hab) as L.
  destruct Hab as ((m & E) & F & G), Hbc as ((m' & E') & F' & G'). split; [|split].
  - exists (m ++ m'). rewrite E', E, app_assoc. reflexivity.
  - intros n Hn. destruct (F n Hn) as (A1 & A2 & A3 & A4). destruct (F' n) as (B1 & B2 & B3 & B4); [lia|].
    rewrite B1, B2, B3, B4. auto.
  - intros n Hn. destruct (G n Hn) as [A B]. destruct (Nat.lt_ge_cases n (nlen b)) as [L'|G''].
    + destruct (F' n L') as (_ & _ & B3 & B4). rewrite B3, B4. auto.
    + destruct (G' n G'') as [A' B']. auto.
Qed.

Lemma ext_nth s s' n nd : ext s s' -> nth_error (st_nodes s) n = Some nd -> nth_error (st_nodes s') n = Some nd.
Proof.
  intros ((m & E) & _) H. rewrite E. rewrite nth_error_app1; [exact H|]. apply nth_error_Some. congruence.
Qed.

Lemma ext_typ s s' n : ext s s' -> n < nlen s -> typ (st_nodes s') n = typ (st_nodes s) n.
Proof. intros ((m & E) & _) H. rewrite E. apply typ_app. exact H. Qed.

Lemma ext_agrees s s' lv : ext s s' -> agrees s' lv -> agrees s lv.
Proof.
  intros H A n (nd & E & K). rewrite (A n).
  - destruct H as (_ & F & _). apply F. apply nth_error_Some. congruence.
  - exists nd. split; [eapply ext_nth; eauto|exact K].
Qed.

Lemma ext_ev s s' lv n : wf s -> wf s' -> ext s s' -> n < nlen s -> ev s' lv n = ev s lv n.
Proof.
  intros W W' ((m & E) & _) Hn. unfold ev, wf in *. rewrite E in *. apply eval_app; assumption.
Qed.

Lemma leaf_agrees (s : st S) lv : leafvals s lv -> agrees s lv.
Proof. intros H n Hn. apply H. auto. Qed.

(** [o], run from [s], returns a node whose value satisfies [Q] for all leaf values. *)
Definition built (s : st S) (o : outcome (@ptr * st S)) (Q : (nat -> S) -> S -> Prop) : Prop :=
  exists p s', o = Ok (Some p, s') /\ ext s s' /\ wf s' /\ p < nlen s' /\
    forall lv, agrees s' lv -> Q lv (ev s' lv p).

Lemma built_ret s p (Q : (nat -> S) -> S -> Prop) : wf s -> p < nlen s -> (forall lv, agrees s lv -> Q lv (ev s lv p)) -> built s (eret (Some p) s) Q.
Proof. intros W Hp H. exists p, s. auto using ext_refl. Qed.

Lemma alloc_built s k t v (Q : (nat -> S) -> S -> Prop) : wf s -> (forall a, In a (kargs k) -> a < nlen s) -> ty_of (st_nodes s) k = Some t ->
  (forall lv, agrees s lv ->
     Q lv (match k with
           | KConst => v | KVar => lv (nlen s)
           | KUn u a => un_value u (ev s lv a)
           | KBin b l r => bin_value b (ev s lv l) (ev s lv r) end)) ->
  built s (alloc k t v s) Q.
Proof.
  intros W Ha Ht HQ. unfold alloc. set (i := length (st_nodes s)).
  set (s' := mkSt _ _ _ _ _).
  assert (W' : wf s') by (apply wfn_snoc; assumption).
  assert (X : ext s s').
  { split; [eexists; reflexivity|]. split.
    - intros n Hn. unfold nlen in Hn. subst s'; cbn. rewrite !upd_ne by (unfold i; lia). auto.
    - intros n Hn. subst s'; cbn. destruct (Nat.eq_dec n i) as [->|D].
      + rewrite !upd_eq. auto.
      + rewrite !upd_ne by exact D. auto. }
  exists i, s'. split; [reflexivity|]. split; [exact X|]. split; [exact W'|].
  assert (Hi : nth_error (st_nodes s') i = Some (mkN k t)).
  { subst s'; cbn. rewrite nth_error_app2 by (unfold i; lia). unfold i. rewrite Nat.sub_diag. reflexivity. }
  split; [unfold nlen; apply nth_error_Some; congruence|].
  intros lv A. pose proof (ext_agrees _ _ _ X A) as A0. specialize (HQ lv A0).
  unfold ev. rewrite (eval_eq _ _ _ W'), Hi. cbn [n_kind].
  destruct k as [| |u a|b l r].
  - rewrite (A i); [|exists (mkN KConst t); auto]. subst s'; cbn. rewrite upd_eq. exact HQ.
  - exact HQ.
  - cbn in Ha. fold (ev s' lv a). rewrite (ext_ev s s' lv a W W' X); auto.
  - cbn in Ha. fold (ev s' lv l). fold (ev s' lv r).
    rewrite (ext_ev s s' lv l W W' X), (ext_ev s s' lv r W W' X); auto.
Qed.

Lemma built_const s c (Q : (nat -> S) -> S -> Prop) :
  wf s -> (forall lv, agrees s lv -> Q lv c) -> built s (constant_ptr c s) Q.
Proof. intros W H. apply alloc_built; [exact W|intros a []|reflexivity|exact H]. Qed.

Lemma built_un s u t a (Q : (nat -> S) -> S -> Prop) : wf s -> a < nlen s -> ty_of (st_nodes s) (KUn u a) = Some t ->
  (forall lv, agrees s lv -> Q lv (un_value u (ev s lv a))) -> built s (mk_un u t (Some a) s) Q.
Proof.
  intros W Ha Ht H. apply alloc_built; [exact W| |exact Ht|exact H]. intros x [<-|[]]; exact Ha.
Qed.

Lemma built_bin s b t l r (Q : (nat -> S) -> S -> Prop) : wf s -> l < nlen s -> r < nlen s ->
  ty_of (st_nodes s) (KBin b l r) = Some t ->
  (forall lv, agrees s lv -> Q lv (bin_value b (ev s lv l) (ev s lv r))) -> built s (mk_bin b t (Some l) (Some r) s) Q.
Proof.
  intros W Hl Hr Ht H. apply alloc_built; [exact W| |exact Ht|exact H]. intros x [<-|[<-|[]]]; assumption.
Qed.

Lemma built_mono s o (Q Q' : (nat -> S) -> S -> Prop) : (forall lv v, agrees s lv -> Q lv v -> Q' lv v) ->
  built s o Q -> built s o Q'.
Proof.
  intros H (p & s' & E & X & W & Hp & HQ). exists p, s'. split; [exact E|]. do 3 (split; [assumption|]).
  intros lv A. apply H; [eapply ext_agrees; eauto|]. auto.
Qed.

Lemma built_bind s (m : E S (@ptr)) k (Q Q' : (nat -> S) -> S -> Prop) : wf s -> built s (m s) Q ->
  (forall p s', ext s s' -> wf s' -> p < nlen s' -> (forall lv, agrees s' lv -> Q lv (ev s' lv p)) ->
    built s' (k (Some p) s') Q') -> built s (ebind m k s) Q'.
Proof.
  intros W (p & s' & E & X & W' & Hp & HQ) Hk. unfold ebind. rewrite E. cbn [obind].
  destruct (Hk p s' X W' Hp HQ) as (p2 & s2 & E2 & X2 & W2 & Hp2 & HQ2).
  exists p2, s2. split; [exact E2|]. split; [eapply ext_trans; eauto|]. auto.
Qed.

(** Constant-ness tests. *)
Definition isc (s : st S) (n : nat) (c : S) : bool :=
  etype_eqb (typ (st_nodes s) n) CONSTANT && s_eqb S (st_val s n) c.

Lemma etype_eqb_eq a b : etype_eqb a b = true <-> a = b.
Proof. destruct a, b; cbn; split; intros H; try reflexivity; try discriminate. Qed.

Lemma nth_valid (s : st S) p : p < nlen s -> exists nd, nth_error (st_nodes s) p = Some nd.
Proof. intros H. destruct (nth_error (st_nodes s) p) eqn:E; [eauto|]. apply nth_error_None in E. unfold nlen in H. lia. Qed.

Lemma ptype_eq s p : p < nlen s -> ptype (Some p) s = Ok (typ (st_nodes s) p, s).
Proof. intros H. destruct (nth_valid s p H) as (nd & E). unfold ptype, typ. rewrite E. reflexivity. Qed.

Lemma pval_eq s p : p < nlen s -> pval (Some p) s = Ok (st_val s p, s).
Proof. intros H. destruct (nth_valid s p H) as (nd & E). unfold pval. rewrite E. reflexivity. Qed.

Lemma is_constant_eq s p c : p < nlen s -> is_constant (Some p) c s = Ok (isc s p c, s).
Proof.
  intros H. unfold is_constant, ebind, isc. rewrite (ptype_eq s p H). cbn [obind].
  destruct (etype_eqb _ _); [|reflexivity]. rewrite (pval_eq s p H). reflexivity.
Qed.

Lemma is_const_eq s p : p < nlen s -> is_const (Some p) s = Ok (etype_eqb (typ (st_nodes s) p) CONSTANT, s).
Proof. intros H. unfold is_const, ebind. rewrite (ptype_eq s p H). reflexivity. Qed.

Lemma const_ev s p lv : wf s -> typ (st_nodes s) p = CONSTANT -> agrees s lv -> ev s lv p = st_val s p.
Proof.
  intros W T A. destruct (typ_const _ _ W T) as (nd & E & K). unfold ev.
  rewrite (eval_leaf _ _ _ nd W E (or_introl K)). apply A. exists nd. auto.
Qed.

Lemma isc_ev s p c lv : wf s -> isc s p c = true -> agrees s lv -> s_eqb S (ev s lv p) c = true.
Proof.
  intros W H A. unfold isc in H. apply andb_true_iff in H as [H1 H2]. apply etype_eqb_eq in H1.
  rewrite (const_ev s p lv W H1 A). exact H2.
Qed.

(** What a constructor may return, as a relation between operand values and result value. *)
Local Notation zero := (s_ofZ S 0%Z).
Local Notation one := (s_ofZ S 1%Z).

Definition simp_un (u : uop) (x v : S) : Prop :=
  v = un_value u x \/
  match u with
  | UNeg | UAbs | UAsin | UAtan | UErf | ULog | ULog10 | USin | USinh | UTan | UTanh =>
      s_eqb S x zero = true /\ v = x
  | UAcos => s_eqb S x zero = true /\ v = s_div S (s_pi S) (s_ofZ S 2)
  | UCos | UCosh | UExp => s_eqb S x zero = true /\ v = one
  | UCbrt => (s_eqb S x zero = true \/ s_eqb S x (s_ofZ S (-1)) = true \/ s_eqb S x one = true) /\ v = x
  | USign => s_ltb S x zero = false /\ s_eqb S x zero = true /\ v = x
  | USqrt => (s_eqb S x zero = true \/ s_eqb S x one = true) /\ v = x
  | UIsNonneg | UIsPos => False
  end.

Definition simp_bin (b : bop) (x y v : S) : Prop :=
  v = bin_value b x y \/
  match b with
  | BAdd => (s_eqb S x zero = true /\ v = y) \/ (s_eqb S y zero = true /\ v = x)
  | BSub => (s_eqb S x zero = true /\ s_eqb S y zero = true /\ v = y) \/
            (s_eqb S x zero = true /\ simp_un UNeg y v) \/ (s_eqb S y zero = true /\ v = x)
  | BMul => (s_eqb S x zero = true /\ v = x) \/ (s_eqb S y zero = true /\ v = y) \/
            (s_eqb S x one = true /\ v = y) \/ (s_eqb S y one = true /\ v = x)
  | BDiv => (s_eqb S x zero = true /\ v = x) \/ (s_eqb S y one = true /\ v = x)
  | BHypot => (s_eqb S x zero = true /\ simp_un UAbs y v) \/ (s_eqb S y zero = true /\ simp_un UAbs x v)
  | BPow => (s_eqb S x zero = true /\ v = x) \/ (s_eqb S x one = true /\ v = x) \/
            (s_eqb S y zero = true /\ v = one) \/ (s_eqb S y one = true /\ v = x) \/
            (s_eqb S y (s_ofZ S 2) = true /\ v = s_mul S x x)
  | BAtan2 | BMax | BMin => False
  end.

Ltac start := unfold ebind; rewrite ?is_constant_eq, ?is_const_eq, ?ptype_eq, ?pval_eq by assumption; cbn [obind].
Ltac step := repeat (rewrite ?is_constant_eq, ?is_const_eq, ?ptype_eq, ?pval_eq by assumption; cbn [obind eret andb]; cbv beta).

Ltac case_isc :=
  match goal with
  | |- context [isc ?s ?p ?c] => let H := fresh "Hc" in destruct (isc s p c) eqn:H; step
  end.
Ltac case_ty :=
  match goal with
  | |- context [etype_eqb ?a ?b] =>
      let H := fresh "Ht" in destruct (etype_eqb a b) eqn:H; [apply etype_eqb_eq in H|]; cbn [andb]; step
  end.

(** The value of a node of constant type is its stored value. *)
Ltac use_const :=
  repeat match goal with
  | W : wf ?s, T : typ (st_nodes ?s) ?p = CONSTANT, A : agrees ?s ?lv |- _ =>
      rewrite <- (const_ev s p lv W T A); clear T
  end.
Ltac use_isc :=
  repeat match goal with
  | W : wf ?s, T : isc ?s ?p ?c = true, A : agrees ?s ?lv |- _ =>
      apply (isc_ev s p c lv W) in T; [|exact A]
  end.

Lemma typ_cases s p : wf s -> p < nlen s ->
  typ (st_nodes s) p = CONSTANT \/ typ (st_nodes s) p = LINEAR \/ typ (st_nodes s) p = QUADRATIC \/
  typ (st_nodes s) p = NONLINEAR.
Proof.
  intros W H. pose proof (typ_none _ p W H). destruct (typ (st_nodes s) p); auto. contradiction.
Qed.

Lemma etype_eqb_refl t : etype_eqb t t = true.
Proof. destruct t; reflexivity. Qed.

Ltac solve_ty W :=
  cbn [ty_of];
  repeat match goal with
  | H : ?p < nlen ?s |- context [typ (st_nodes ?s) ?p] =>
      let T := fresh "T" in destruct (typ_cases s p W H) as [T|[T|[T|T]]]; rewrite T in *
  end; cbn in *; try congruence; try reflexivity.

Ltac fin W :=
  first
  [ apply built_ret; [exact W|assumption|]
  | apply built_const; [exact W|]
  | apply built_un; [exact W|assumption|solve_ty W|]
  | apply built_bin; [exact W|assumption|assumption|solve_ty W|] ].

Lemma e_neg_built s a : wf s -> a < nlen s -> built s (e_neg (Some a) s) (fun lv v => simp_un UNeg (ev s lv a) v).
Proof.
  intros W Ha. unfold e_neg. start. case_isc.
  - fin W. intros lv A. use_isc. right. auto.
  - case_ty.
    + fin W. intros lv A. left. use_const. reflexivity.
    + case_ty; [|case_ty]; fin W; intros lv A; left; reflexivity.
Qed.

Lemma un_fixed_built u s a : wf s -> a < nlen s -> u <> UNeg -> 
  built s (un_zero_fixed u (Some a) s) (fun lv v => v = un_value u (ev s lv a) \/
      (s_eqb S (ev s lv a) zero = true /\ v = ev s lv a)).
Proof.
  intros W Ha Hu. unfold un_zero_fixed. start. case_isc.
  - fin W. intros lv A. use_isc. auto.
  - case_ty.
    + fin W. intros lv A. left. use_const. reflexivity.
    + apply built_un; [exact W|assumption|destruct u; try congruence; solve_ty W|]. intros lv A. auto.
Qed.

Lemma un_to_built u c s a : wf s -> a < nlen s -> u <> UNeg -> 
  built s (un_zero_to u c (Some a) s) (fun lv v => v = un_value u (ev s lv a) \/
      (s_eqb S (ev s lv a) zero = true /\ v = c)).
Proof.
  intros W Ha Hu. unfold un_zero_to. start. case_isc.
  - fin W. intros lv A. use_isc. auto.
  - case_ty.
    + fin W. intros lv A. left. use_const. reflexivity.
    + apply built_un; [exact W|assumption|destruct u; try congruence; solve_ty W|]. intros lv A. auto.
Qed.

Lemma e_un_built u s a : wf s -> a < nlen s -> built s (e_un u (Some a) s) (fun lv v => simp_un u (ev s lv a) v).
Proof.
  intros W Ha. destruct u; cbn [e_un];
  try (eapply built_mono; [|apply (un_fixed_built _ s a W Ha); discriminate]; intros lv v A H; exact H);
  try (eapply built_mono; [|apply (un_to_built _ _ s a W Ha); discriminate]; intros lv v A H; exact H).
  - apply e_neg_built; assumption.
  - unfold e_cbrt. start. case_ty.
    + destruct (s_eqb S (st_val s a) zero) eqn:E0.
      { fin W. intros lv A. right. rewrite (const_ev s a lv W Ht A). auto. }
      destruct (s_eqb S (st_val s a) (s_ofZ S (-1))) eqn:E1; cbn [orb].
      { fin W. intros lv A. right. rewrite (const_ev s a lv W Ht A). auto. }
      destruct (s_eqb S (st_val s a) one) eqn:E2; cbn [orb].
      { fin W. intros lv A. right. rewrite (const_ev s a lv W Ht A). auto. }
      fin W. intros lv A. left. use_const. reflexivity.
    + fin W. intros lv A. left. reflexivity.
  - unfold e_is_nonneg. start. case_ty; fin W; intros lv A; left; use_const; reflexivity.
  - unfold e_is_pos. start. case_ty; fin W; intros lv A; left; use_const; reflexivity.
  - unfold e_sign. start. case_ty.
    + destruct (s_ltb S (st_val s a) zero) eqn:E0.
      { fin W. intros lv A. left. cbn [un_value]. rewrite (const_ev s a lv W Ht A), E0. reflexivity. }
      destruct (s_eqb S (st_val s a) zero) eqn:E1.
      { fin W. intros lv A. right. rewrite (const_ev s a lv W Ht A). auto. }
      fin W. intros lv A. left. cbn [un_value]. rewrite (const_ev s a lv W Ht A), E0, E1. reflexivity.
    + fin W. intros lv A. left. reflexivity.
  - unfold e_sqrt. start. case_ty.
    + destruct (s_eqb S (st_val s a) zero) eqn:E0.
      { fin W. intros lv A. right. rewrite (const_ev s a lv W Ht A). auto. }
      destruct (s_eqb S (st_val s a) one) eqn:E2.
      { fin W. intros lv A. right. rewrite (const_ev s a lv W Ht A). auto. }
      fin W. intros lv A. left. use_const. reflexivity.
    + fin W. intros lv A. left. reflexivity.
Qed.

Lemma e_mul_built s l r : wf s -> l < nlen s -> r < nlen s ->
  built s (e_mul (Some l) (Some r) s) (fun lv v => simp_bin BMul (ev s lv l) (ev s lv r) v).
Proof.
  intros W Hl Hr. unfold e_mul. start.
  case_isc. { fin W. intros lv A. use_isc. right. auto. }
  case_isc. { fin W. intros lv A. use_isc. right. auto. }
  case_isc. { fin W. intros lv A. use_isc. right. auto. }
  case_isc. { fin W. intros lv A. use_isc. right. auto 6. }
  case_ty.
  - case_ty.
    + fin W. intros lv A. left. use_const. reflexivity.
    + case_ty; [|case_ty]; fin W; intros lv A; left; reflexivity.
  - case_ty.
    + case_ty; [|case_ty]; fin W; intros lv A; left; reflexivity.
    + case_ty; [case_ty|]; fin W; intros lv A; left; reflexivity.
Qed.

Lemma e_div_built s l r : wf s -> l < nlen s -> r < nlen s ->
  built s (e_div (Some l) (Some r) s) (fun lv v => simp_bin BDiv (ev s lv l) (ev s lv r) v).
Proof.
  intros W Hl Hr. unfold e_div. start.
  case_isc. { fin W. intros lv A. use_isc. right. auto. }
  case_isc. { fin W. intros lv A. use_isc. right. auto. }
  case_ty.
  - case_ty.
    + fin W. intros lv A. left. use_const. reflexivity.
    + fin W. intros lv A. left; reflexivity.
  - case_ty.
    + case_ty; [|case_ty]; fin W; intros lv A; left; reflexivity.
    + fin W; intros lv A; left; reflexivity.
Qed.

Lemma e_add_built s l r : wf s -> l < nlen s -> r < nlen s ->
  built s (e_add (Some l) (Some r) s) (fun lv v => simp_bin BAdd (ev s lv l) (ev s lv r) v).
Proof.
  intros W Hl Hr. unfold e_add. start.
  case_isc. { fin W. intros lv A. use_isc. right. auto. }
  case_isc. { fin W. intros lv A. use_isc. right. auto. }
  destruct (etype_eqb _ _ && _) eqn:Hb.
  - apply andb_true_iff in Hb as [T1 T2]. apply etype_eqb_eq in T1, T2. step.
    fin W. intros lv A. left. use_const. reflexivity.
  - cbv zeta. case_ty; [|case_ty]; fin W; intros lv A; left; reflexivity.
Qed.

Lemma e_sub_built s l r : wf s -> l < nlen s -> r < nlen s ->
  built s (e_sub (Some l) (Some r) s) (fun lv v => simp_bin BSub (ev s lv l) (ev s lv r) v).
Proof.
  intros W Hl Hr. unfold e_sub. start.
  case_isc.
  { case_isc.
    - fin W. intros lv A. use_isc. right. auto.
    - eapply built_mono; [|apply (e_neg_built s r W Hr)]. intros lv v A H. use_isc. right. auto. }
  case_isc. { fin W. intros lv A. use_isc. right. auto. }
  destruct (etype_eqb _ _ && _) eqn:Hb.
  - apply andb_true_iff in Hb as [T1 T2]. apply etype_eqb_eq in T1, T2. step.
    fin W. intros lv A. left. use_const. reflexivity.
  - cbv zeta. case_ty; [|case_ty]; fin W; intros lv A; left; reflexivity.
Qed.

Lemma bin_fold_built b s l r : wf s -> l < nlen s -> r < nlen s ->
  (b = BAtan2 \/ b = BMax \/ b = BMin \/ b = BHypot) ->
  built s (bin_fold b (Some l) (Some r) s) (fun lv v => v = bin_value b (ev s lv l) (ev s lv r)).
Proof.
  intros W Hl Hr Hb. unfold bin_fold. start. case_ty.
  - case_ty.
    + fin W. intros lv A. use_const. reflexivity.
    + destruct Hb as [-> | [-> | [-> | ->]]]; fin W; intros; reflexivity.
  - destruct Hb as [-> | [-> | [-> | ->]]]; fin W; intros; reflexivity.
Qed.

Lemma e_pow_built s b p : wf s -> b < nlen s -> p < nlen s ->
  built s (e_pow (Some b) (Some p) s) (fun lv v => simp_bin BPow (ev s lv b) (ev s lv p) v).
Proof.
  intros W Hl Hr. unfold e_pow. start.
  case_isc. { fin W. intros lv A. use_isc. right. auto. }
  case_isc. { fin W. intros lv A. use_isc. right. auto. }
  case_isc. { fin W. intros lv A. use_isc. right. auto. }
  case_isc. { fin W. intros lv A. use_isc. right. auto 6. }
  case_ty.
  - case_ty.
    + fin W. intros lv A. left. use_const. reflexivity.
    + case_isc.
      * exfalso. unfold isc in Hc3. apply andb_true_iff in Hc3 as [T _]. congruence.
      * fin W. intros lv A. left. reflexivity.
  - case_isc.
    + case_ty; fin W; intros lv A; use_isc; right; auto 7.
    + fin W. intros lv A. left. reflexivity.
Qed.

Lemma e_bin_built b s l r : wf s -> l < nlen s -> r < nlen s ->
  built s (e_bin b (Some l) (Some r) s) (fun lv v => simp_bin b (ev s lv l) (ev s lv r) v).
Proof.
  intros W Hl Hr. destruct b; cbn [e_bin].
  - apply e_add_built; assumption.
  - apply e_sub_built; assumption.
  - apply e_mul_built; assumption.
  - apply e_div_built; assumption.
  - eapply built_mono; [|apply bin_fold_built; auto]. intros lv v _ H. left. exact H.
  - unfold e_hypot. start.
    case_isc. { eapply built_mono; [|apply (e_un_built UAbs s r W Hr)]. intros lv v A H. use_isc. right. auto. }
    case_isc. { eapply built_mono; [|apply (e_un_built UAbs s l W Hl)]. intros lv v A H. use_isc. right. auto. }
    eapply built_mono; [|apply bin_fold_built; auto]. intros lv v _ H. left. exact H.
  - eapply built_mono; [|apply bin_fold_built; auto]. intros lv v _ H. left. exact H.
  - eapply built_mono; [|apply bin_fold_built; auto]. intros lv v _ H. left. exact H.
  - apply e_pow_built; assumption.
Qed.

End Eval.
