(** gradient_tree: the symbolic reverse pass computes the numeric adjoints and leaves no residue. *)
From Coq Require Import ZArith List Bool Arith Lia.
From Verif Require Import Base ExprModel GraphSpec GraphProofs ExprInv VarModel VarReach VarProofs AdjProofs JacModel JacProofs.
Import ListNotations.

Section Gen.
Context {S : sops}.
Implicit Types s : st S.
Local Notation zero := (s_ofZ S 0%Z).
Local Notation one := (s_ofZ S 1%Z).

Definition with_adje s f := mkSt (st_nodes s) (st_val s) (st_adj s) f (st_scr s).

Lemma grows_ev s s' lv n : wf s -> wf s' -> grows s s' -> n < nlen s -> ev s' lv n = ev s lv n.
Proof. intros W W' (m & E) Hn. unfold ev, wf in *. rewrite E in *. apply eval_app; assumption. Qed.

Lemma take_adje_ok wrt : forall s, exists g f, take_adje wrt s = Ok (g, with_adje s f) /\
  (forall n, f n = if in_dec Nat.eq_dec n wrt then None else st_adje s n) /\
  Forall2 (fun w p => p = None \/ p = st_adje s w) wrt g /\ (NoDup wrt -> g = map (st_adje s) wrt).
Proof.
  induction wrt as [|w wrt IH]; intros s.
  - exists [], (st_adje s). split; [destruct s; reflexivity|]. split; [reflexivity|]. split; [constructor|reflexivity].
  - cbn [take_adje]. destruct (IH (set_adje s w None)) as (g & f & E & Hf & H1 & H2). unfold ebind. rewrite E. cbn [obind eret].
    exists (st_adje s w :: g), f. split; [reflexivity|]. split.
    { intros n. rewrite Hf. cbn [st_adje set_adje]. destruct (in_dec Nat.eq_dec n wrt) as [I0|N0]; destruct (in_dec Nat.eq_dec n (w :: wrt)) as [I1|N1].
      - reflexivity.
      - exfalso. apply N1. right. exact I0.
      - destruct I1 as [-> | I1]; [apply upd_eq|contradiction].
      - apply upd_ne. intros ->. apply N1. left. reflexivity. }
    split.
    { constructor; [right; reflexivity|]. eapply Forall2_impl; [|exact H1]. intros a p [-> | ->]; [left; reflexivity|].
      cbn. unfold upd. destruct (Nat.eqb a w); auto. }
    intros ND. inversion ND as [|? ? Nw ND']; subst. cbn [map]. f_equal. rewrite (H2 ND').
    apply map_ext_in. intros a Ha. cbn. apply upd_ne. intros ->. contradiction.
Qed.

Lemma clear_adje_ok l : forall s, exists f, eeach (fun n s => Ok (tt, set_adje s n None)) l s = Ok (tt, with_adje s f) /\
  forall n, f n = if in_dec Nat.eq_dec n l then None else st_adje s n.
Proof.
  induction l as [|w l IH]; intros s.
  - exists (st_adje s). split; [destruct s; reflexivity|reflexivity].
  - cbn [eeach]. unfold ebind. cbn [obind]. destruct (IH (set_adje s w None)) as (f & E & Hf). exists f. split; [exact E|].
    intros n. rewrite Hf. cbn [st_adje set_adje]. destruct (in_dec Nat.eq_dec n l) as [I0|N0]; destruct (in_dec Nat.eq_dec n (w :: l)) as [I1|N1].
    + reflexivity.
    + exfalso. apply N1. right. exact I0.
    + destruct I1 as [-> | I1]; [apply upd_eq|contradiction].
    + apply upd_ne. intros ->. apply N1. left. reflexivity.
Qed.

Lemma gradient_tree_eq l r rest wrt : l = r :: rest -> gradient_tree (S := S) l wrt =
  (do u1 <- constant_ptr one;
   do _ <- (fun s => Ok (tt, set_adje s r u1));
   do _ <- eeach grad_node l;
   do g <- take_adje wrt;
   do _ <- eeach (fun n s => Ok (tt, set_adje s n None)) l;
   eret g).
Proof. intros ->. reflexivity. Qed.

Section Tree.
Context (s0 : st S) (r : nat) (l : list nat) (V : (nat -> S) -> Prop).
Let ns := st_nodes s0.
Hypothesis W0 : wf s0.
Hypothesis Hr : r < nlen s0.
Hypothesis T : topological ns r l.
Hypothesis A0 : forall n, st_adje s0 n = None.
Hypothesis Hun : forall n u a t s pa, In n l -> nth_error ns n = Some (mkN (KUn u a) t) -> wf s -> grows s0 s -> pa < nlen s ->
  built s (un_grad_expr u (Some pa) (Some a) s) (fun lv v => V lv -> v = un_grad u (ev s lv pa) (ev s lv a)).
Hypothesis Hbl : forall n b x y t s pa, In n l -> nth_error ns n = Some (mkN (KBin b x y) t) -> wf s -> grows s0 s -> pa < nlen s ->
  built s (bin_grad_expr_l b (Some pa) (Some x) (Some y) s)
    (fun lv v => V lv -> typ ns x <> CONSTANT -> v = bin_grad_l b (ev s lv pa) (ev s lv x) (ev s lv y)).
Hypothesis Hbr : forall n b x y t s pa, In n l -> nth_error ns n = Some (mkN (KBin b x y) t) -> wf s -> grows s0 s -> pa < nlen s ->
  built s (bin_grad_expr_r b (Some pa) (Some x) (Some y) s)
    (fun lv v => V lv -> typ ns y <> CONSTANT -> v = bin_grad_r b (ev s lv pa) (ev s lv x) (ev s lv y)).
Hypothesis Hadd : forall s p q, wf s -> p < nlen s -> q < nlen s ->
  built s (e_add (Some p) (Some q) s) (fun lv v => V lv -> v = s_add S (ev s lv p) (ev s lv q)).
Hypothesis Hz : forall lv x, V lv -> s_add S zero x = x.

(** Only adjoint expressions of listed nodes differ. *)
Definition extA s : Prop :=
  grows s0 s /\
  (forall n, n < nlen s0 -> st_val s n = st_val s0 n /\ st_adj s n = st_adj s0 n /\ st_scr s n = st_scr s0 n) /\
  (forall n, ~ In n l -> st_adje s n = None) /\
  (forall n, nlen s0 <= n -> st_scr s0 n = (-1)%Z -> st_scr s n = (-1)%Z).

Lemma list_valid n : In n l -> n < nlen s0.
Proof. apply (topological_valid s0 r l W0 Hr T). Qed.

Lemma extA_ext s s' : extA s -> ext s s' -> extA s'.
Proof.
  intros (G & F & N & C) X. pose proof (grows_len _ _ G) as L. split; [eapply grows_trans; [exact G|apply grows_ext, X]|].
  destruct X as (_ & F' & G'). split; [|split].
  - intros n Hn. destruct (F n Hn) as (a & b & c). destruct (F' n) as (a' & b' & _ & c'); [lia|]. rewrite a', b', c'. auto.
  - intros n Hn. destruct (Nat.lt_ge_cases n (nlen s)) as [Q|Q].
    + destruct (F' n Q) as (_ & _ & E & _). rewrite E. apply N, Hn.
    + apply (G' n Q). apply N, Hn.
  - intros n Hn E. specialize (C n Hn E). destruct (Nat.lt_ge_cases n (nlen s)) as [Q|Q].
    + destruct (F' n Q) as (_ & _ & _ & E'). congruence.
    + apply (G' n Q). exact C.
Qed.
Lemma extA_set s n p : extA s -> In n l -> extA (set_adje s n p).
Proof.
  intros (G & F & N & C) Hn. split; [exact G|]. split; [exact F|]. split; [|exact C].
  intros m Hm. cbn. rewrite upd_ne by (intros ->; contradiction). apply N, Hm.
Qed.

Definition adjI s (A : (nat -> S) -> nat -> S) (touched : nat -> Prop) : Prop :=
  wf s /\ extA s /\ forall n, In n l ->
    match st_adje s n with
    | None => ~ touched n /\ forall lv, V lv -> typ ns n <> CONSTANT -> A lv n = zero
    | Some p => p < nlen s /\ forall lv, agrees s lv -> V lv -> typ ns n <> CONSTANT -> ev s lv p = A lv n
    end.

Lemma adjI_mono s A A' (t t' : nat -> Prop) : (forall lv n, In n l -> A lv n = A' lv n) -> (forall n, In n l -> t' n -> t n) ->
  adjI s A t -> adjI s A' t'.
Proof.
  intros HA Ht (W & X & H). split; [exact W|]. split; [exact X|]. intros n Hn. specialize (H n Hn).
  destruct (st_adje s n) as [p|].
  - destruct H as [Hp H]. split; [exact Hp|]. intros lv. rewrite <- HA by exact Hn. apply H.
  - destruct H as [Hp H]. split; [intros C; apply Hp, Ht, C; exact Hn|]. intros lv. rewrite <- HA by exact Hn. apply H.
Qed.

Lemma contrib s A t a (m : E S (@ptr)) (C : (nat -> S) -> S) : adjI s A t -> In a l ->
  built s (m s) (fun lv v => V lv -> typ ns a <> CONSTANT -> v = C lv) ->
  exists s', (do g <- m; add_adje a g) s = Ok (tt, s') /\
    adjI s' (fun lv => upd (A lv) a (s_add S (A lv a) (C lv))) (fun n => t n \/ n = a).
Proof.
  intros (W & X & H) Ha (g & s1 & E & X1 & W1 & Hg & Q). unfold ebind. rewrite E. cbn [obind]. unfold add_adje.
  pose proof (ext_nlen _ _ X1) as L1. pose proof (grows_len _ _ (proj1 X)) as L0.
  assert (La : a < nlen s) by (pose proof (list_valid a Ha); lia).
  assert (Ea : st_adje s1 a = st_adje s a) by (destruct X1 as (_ & F & _); apply F, La). rewrite Ea.
  pose proof (H a Ha) as Ia.
  assert (K : exists p2 s2, e_add (st_adje s a) (Some g) s1 = Ok (Some p2, s2) /\ ext s1 s2 /\ wf s2 /\ p2 < nlen s2 /\
    forall lv, agrees s2 lv -> V lv -> typ ns a <> CONSTANT -> ev s2 lv p2 = s_add S (A lv a) (C lv)).
  { destruct (st_adje s a) as [p|].
    - destruct Ia as [Hp Ip]. destruct (Hadd s1 p g W1 ltac:(lia) Hg) as (p2 & s2 & E2 & X2 & W2 & Hp2 & Q2).
      exists p2, s2. repeat (split; [assumption|]). intros lv Ag HV HT. rewrite (Q2 lv Ag HV).
      pose proof (ext_agrees _ _ _ X2 Ag) as Ag1. pose proof (ext_agrees _ _ _ X1 Ag1) as Ag0.
      rewrite (ext_ev s s1 lv p W W1 X1 Hp), (Ip lv Ag0 HV HT), (Q lv Ag1 HV HT). reflexivity.
    - exists g, s1. split; [reflexivity|]. split; [apply ext_refl|]. split; [exact W1|]. split; [exact Hg|].
      intros lv Ag HV HT. destruct Ia as [_ Ia]. rewrite (Ia lv HV HT), (Hz lv _ HV). apply (Q lv Ag HV HT). }
  destruct K as (p2 & s2 & E2 & X2 & W2 & Hp2 & Q2). rewrite E2. cbn [obind].
  exists (set_adje s2 a (Some p2)). split; [reflexivity|].
  pose proof (ext_trans _ _ _ X1 X2) as X02.
  split; [exact W2|]. split; [apply extA_set; [eapply extA_ext; [|exact X02]; assumption|exact Ha]|].
  intros n Hn. cbn [st_adje set_adje]. destruct (Nat.eq_dec n a) as [->|D].
  - rewrite upd_eq. split; [exact Hp2|]. intros lv Ag HV HT. rewrite upd_eq. apply Q2; assumption.
  - rewrite upd_ne by exact D.
    assert (En : st_adje s2 n = st_adje s n).
    { destruct X02 as (_ & F & _). apply F. pose proof (list_valid n Hn). lia. }
    rewrite En. pose proof (H n Hn) as I. destruct (st_adje s n) as [p|].
    + destruct I as [Hp I]. pose proof (ext_nlen _ _ X02). split; [change (p < nlen s2); lia|].
      intros lv Ag HV HT. change (ev s2 lv p = upd (A lv) a (s_add S (A lv a) (C lv)) n). rewrite upd_ne by exact D.
      rewrite (ext_ev s s2 lv p W W2 X02 Hp). apply I; [|exact HV|exact HT]. eapply ext_agrees; [exact X02|exact Ag].
    + destruct I as [Hp I]. split; [intros [C1|C1]; [exact (Hp C1)|exact (D C1)]|].
      intros lv HV HT. rewrite upd_ne by exact D. apply I; assumption.
Qed.

Definition touched (P : list nat) (n : nat) : Prop := n = r \/ exists m, In m P /\ In n (args ns m).

Lemma args_in n a : In n l -> In a (args ns n) -> In a l.
Proof. intros H. apply (closed_incl ns l (topological_closed _ _ _ T) n H). Qed.

Lemma touched_at P n Q : l = P ++ n :: Q -> touched P n.
Proof.
  intros E. destruct T as (ND & Hin & Ord & _).
  assert (Hn : In n l) by (rewrite E; apply in_or_app; right; left; reflexivity).
  apply Hin in Hn. destruct Hn as [|m n Hm Ha]; [left; reflexivity|]. right. exists m. split; [|exact Ha].
  apply Hin in Hm. rewrite E in Hm. apply in_app_or in Hm as [Hm|[<-|Hm]]; [exact Hm| |].
  - pose proof (wfn_acyclic _ W0 n n Ha). lia.
  - exfalso. apply in_split in Hm as (Q1 & Q2 & EQ). subst Q.
    assert (In n Q2). { apply (Ord (P ++ n :: Q1) m Q2); [rewrite E, <- app_assoc; reflexivity|exact Ha]. }
    rewrite E in ND. apply NoDup_remove_2 in ND. apply ND. apply in_or_app. right. apply in_or_app. right. right. exact H.
Qed.

Lemma touched_all n : In n l -> touched l n.
Proof.
  intros Hn. apply in_split in Hn as (P & Q & E). destruct (touched_at P n Q E) as [-> | (m & Hm & Ha)]; [left; reflexivity|].
  right. exists m. split; [|exact Ha]. rewrite E. apply in_or_app. left. exact Hm.
Qed.

Definition runA (P : list nat) : (nat -> S) -> nat -> S :=
  fun lv => adj_run ns (eval ns lv) P (seed l (fun _ => zero)).

Lemma runA_snoc P n lv m : runA (P ++ [n]) lv m = step_adj ns (eval ns lv) (runA P lv) n m.
Proof. unfold runA, adj_run. rewrite fold_left_app. reflexivity. Qed.

Lemma ev0 s lv n : wf s -> grows s0 s -> n < nlen s0 -> ev s lv n = eval ns lv n.
Proof. intros W G Hn. apply (grows_ev s0 s lv n W0 W G Hn). Qed.

Lemma grad_node_ok P n Q s : l = P ++ n :: Q -> adjI s (runA P) (touched P) ->
  exists s', grad_node n s = Ok (tt, s') /\ adjI s' (runA (P ++ [n])) (touched (P ++ [n])).
Proof.
  intros El I. assert (Hn : In n l) by (rewrite El; apply in_or_app; right; left; reflexivity).
  pose proof (list_valid n Hn) as Ln. destruct (nth_valid s0 n Ln) as ([k t] & En). fold ns in En.
  assert (Hargs : forall a, In a (args ns n) -> In a l /\ a < n).
  { intros a Ha. split; [apply (args_in n a Hn Ha)|apply (wfn_acyclic _ W0 n a Ha)]. }
  unfold args in Hargs. rewrite En in Hargs. cbn [n_args n_kind] in Hargs.
  pose proof I as (W & X & H). pose proof (grows_nth _ _ _ _ (proj1 X) En) as En'.
  pose proof (H n Hn) as Hadj. pose proof (touched_at P n Q El) as Tn.
  assert (Tnc : k <> KConst -> typ ns n <> CONSTANT).
  { intros Hk C. destruct (typ_const _ _ W0 C) as (nd & E & K). fold ns in E. rewrite En in E. injection E as <-. contradiction. }
  unfold grad_node. rewrite En'. cbn [n_kind].
  assert (Hstep : forall lv m, In m l -> runA (P ++ [n]) lv m = step_adj ns (eval ns lv) (runA P lv) n m) by (intros; apply runA_snoc).
  destruct k as [| |u a|b x y].
  1,2: exists s; split; [reflexivity|]; eapply adjI_mono; [| |exact I];
    [intros lv m Hm; rewrite (Hstep lv m Hm); unfold step_adj; rewrite En; reflexivity|
     intros m Hm [-> | (c & Hc & Ha)]; [left; reflexivity|]; apply in_app_or in Hc as [Hc|[<-|[]]];
     [right; eauto|unfold args in Ha; rewrite En in Ha; destruct Ha]].
  - destruct (Hargs a (or_introl eq_refl)) as [Ha La].
    destruct (st_adje s n) as [pn|]; [|destruct Hadj; contradiction]. destruct Hadj as [Hpn Hadj].
    destruct (contrib s (runA P) (touched P) a (un_grad_expr u (Some pn) (Some a))
      (fun lv => un_grad u (runA P lv n) (eval ns lv a)) I Ha) as (s' & E & I').
    { eapply built_mono; [|apply (Hun n u a t s pn Hn En W (proj1 X) Hpn)]. intros lv v Ag Hv HV HT. cbv beta in Hv.
      rewrite (Hv HV). rewrite (Hadj lv Ag HV (Tnc ltac:(discriminate))).
      rewrite (ev0 s lv a W (proj1 X)) by lia. reflexivity. }
    rewrite E. exists s'. split; [reflexivity|]. eapply adjI_mono; [| |exact I'].
    + intros lv m Hm. rewrite (Hstep lv m Hm). unfold step_adj. rewrite En. reflexivity.
    + intros m Hm [-> | (c & Hc & Hma)]; [left; left; reflexivity|]. apply in_app_or in Hc as [Hc|[<-|[]]];
        [left; right; eauto|]. unfold args in Hma. rewrite En in Hma. destruct Hma as [<-|[]]. right. reflexivity.
  - destruct (Hargs x (or_introl eq_refl)) as [Hx Lx]. destruct (Hargs y (or_intror (or_introl eq_refl))) as [Hy Ly].
    destruct (st_adje s n) as [pn|] eqn:Epn; [|destruct Hadj; contradiction]. destruct Hadj as [Hpn Hadj].
    destruct (contrib s (runA P) (touched P) x (bin_grad_expr_l b (Some pn) (Some x) (Some y))
      (fun lv => bin_grad_l b (runA P lv n) (eval ns lv x) (eval ns lv y)) I Hx) as (s1 & E1 & I1).
    { eapply built_mono; [|apply (Hbl n b x y t s pn Hn En W (proj1 X) Hpn)]. intros lv v Ag Hv HV HT. cbv beta in Hv.
      rewrite (Hv HV HT). rewrite (Hadj lv Ag HV (Tnc ltac:(discriminate))).
      rewrite (ev0 s lv x W (proj1 X)), (ev0 s lv y W (proj1 X)) by lia. reflexivity. }
    rewrite E1. cbn [obind]. pose proof I1 as (W1 & X1 & H1). pose proof (H1 n Hn) as Hadj1.
    destruct (st_adje s1 n) as [qn|]; [|destruct Hadj1 as [Hadj1 _]; exfalso; apply Hadj1; left; exact Tn].
    destruct Hadj1 as [Hqn Hadj1].
    destruct (contrib s1 _ _ y (bin_grad_expr_r b (Some qn) (Some x) (Some y))
      (fun lv => bin_grad_r b (upd (runA P lv) x (s_add S (runA P lv x) (bin_grad_l b (runA P lv n) (eval ns lv x) (eval ns lv y))) n)
                   (eval ns lv x) (eval ns lv y)) I1 Hy) as (s2 & E2 & I2).
    { eapply built_mono; [|apply (Hbr n b x y t s1 qn Hn En W1 (proj1 X1) Hqn)]. intros lv v Ag Hv HV HT. cbv beta in Hv.
      rewrite (Hv HV HT). rewrite (Hadj1 lv Ag HV (Tnc ltac:(discriminate))).
      rewrite (ev0 s1 lv x W1 (proj1 X1)), (ev0 s1 lv y W1 (proj1 X1)) by lia. reflexivity. }
    rewrite E2. exists s2. split; [reflexivity|]. eapply adjI_mono; [| |exact I2].
    + intros lv m Hm. rewrite (Hstep lv m Hm). unfold step_adj. rewrite En. reflexivity.
    + intros m Hm [-> | (c & Hc & Hma)]; [left; left; left; reflexivity|]. apply in_app_or in Hc as [Hc|[<-|[]]];
        [left; left; right; eauto|]. unfold args in Hma. rewrite En in Hma. destruct Hma as [<-|[<-|[]]];
        [left; right; reflexivity|right; reflexivity].
Qed.

Lemma grad_nodes_ok Q : forall P s, l = P ++ Q -> adjI s (runA P) (touched P) ->
  exists s', eeach grad_node Q s = Ok (tt, s') /\ adjI s' (runA l) (touched l).
Proof.
  induction Q as [|n Q IH]; intros P s El I.
  - rewrite app_nil_r in El. subst P. exists s. auto.
  - destruct (grad_node_ok P n Q s El I) as (s1 & E & I1). cbn [eeach]. unfold ebind. rewrite E. cbn [obind].
    apply (IH (P ++ [n])); [rewrite <- app_assoc; exact El|exact I1].
Qed.

Lemma gradient_tree_ok wrt : Forall (fun w => w < nlen s0) wrt ->
  exists g s', gradient_tree l wrt s0 = Ok (g, s') /\ ext s0 s' /\ wf s' /\ (forall n, st_adje s' n = None) /\
    Forall (valid_ptr s') g /\ length g = length wrt /\
    (NoDup wrt -> Forall2 (fun w p =>
       match p with
       | None => ~ In w l
       | Some q => In w l /\ forall lv, agrees s' lv -> V lv -> typ ns w <> CONSTANT ->
           ev s' lv q = adj_final ns (eval ns lv) l (fun _ => zero) w
       end) wrt g).
Proof.
  intros Hw. destruct T as (ND & Hin & Ord & rest & El). rewrite (gradient_tree_eq l r rest wrt El). unfold ebind at 1.
  destruct (built_const s0 one (fun _ v => v = one) W0 (fun _ _ => eq_refl)) as (u & s1 & E1 & X1 & W1 & Hu & Q1).
  rewrite E1. cbn [obind]. unfold ebind at 1. cbn [obind].
  assert (Hrl : In r l) by (rewrite El; left; reflexivity).
  assert (XA0 : extA s0).
  { split; [apply grows_refl|]. split; [auto|]. split; [intros n _; apply A0|auto]. }
  assert (I0 : adjI (set_adje s1 r (Some u)) (runA []) (touched [])).
  { split; [exact W1|]. split; [apply extA_set; [eapply extA_ext; eassumption|exact Hrl]|].
    intros n Hn. cbn [st_adje set_adje]. unfold runA. cbn [adj_run fold_left]. destruct (Nat.eq_dec n r) as [->|D].
    - rewrite upd_eq. split; [exact Hu|]. intros lv Ag HV HT. rewrite El, seed_root.
      + apply Q1. exact Ag.
      + rewrite El in ND. inversion ND; assumption.
    - rewrite upd_ne by exact D. destruct X1 as (_ & F & _). destruct (F n (list_valid n Hn)) as (_ & _ & E & _).
      rewrite E, A0. split.
      + intros [C|(m & [] & _)]. contradiction.
      + intros lv HV HT. rewrite El. apply seed_rest. rewrite El in Hn. destruct Hn as [-> | Hn]; [contradiction|exact Hn]. }
  destruct (grad_nodes_ok l [] _ eq_refl I0) as (s2 & E2 & I2). unfold ebind at 1. rewrite E2. cbn [obind].
  destruct (take_adje_ok wrt s2) as (g & f & E3 & Hf & Hg & Hgn). unfold ebind at 1. rewrite E3. cbn [obind].
  destruct (clear_adje_ok l (with_adje s2 f)) as (f2 & E4 & Hf2). unfold ebind. rewrite E4. cbn [obind].
  destruct I2 as (W2 & X2 & H2).
  assert (N2 : forall n, f2 n = None).
  { intros n. rewrite Hf2. destruct (in_dec Nat.eq_dec n l) as [I|N]; [reflexivity|]. cbn [st_adje with_adje]. rewrite Hf.
    destruct (in_dec Nat.eq_dec n wrt); [reflexivity|]. apply X2. exact N. }
  assert (X : ext s0 (with_adje (with_adje s2 f) f2)).
  { destruct X2 as (G & F & N & C). split; [exact G|]. split.
    - intros n Hn. destruct (F n Hn) as (a & b & c). cbn. rewrite N2, A0. auto.
    - intros n Hn. split; [intros _; apply N2|apply C; exact Hn]. }
  assert (EVV : forall lv q, ev (with_adje (with_adje s2 f) f2) lv q = ev s2 lv q) by reflexivity.
  exists g, (with_adje (with_adje s2 f) f2). split; [reflexivity|]. split; [exact X|]. split; [exact W2|].
  split; [exact N2|]. split.
  { clear - Hg H2 X2. induction Hg as [|w p wrt g Hp _ IH]; constructor; [|exact IH].
    destruct p as [q|]; [|exact I]. destruct Hp as [C|C]; [discriminate|].
    destruct (in_dec Nat.eq_dec w l) as [Il|Nl]; [|destruct X2 as (_ & _ & N & _); rewrite (N w Nl) in C; discriminate].
    specialize (H2 w Il). rewrite <- C in H2. exact (proj1 H2). }
  split. { symmetry. eapply Forall2_len; exact Hg. }
  intros NDw. rewrite (Hgn NDw). clear Hg Hgn E3 Hf NDw. induction wrt as [|w wrt IH]; cbn [map]; constructor.
  - destruct (in_dec Nat.eq_dec w l) as [Il|Nl].
    + specialize (H2 w Il). destruct (st_adje s2 w) as [p|].
      * split; [exact Il|]. destruct H2 as [_ H2]. intros lv Ag HV HT. rewrite EVV. apply H2; assumption.
      * exfalso. apply H2. apply touched_all, Il.
    + destruct X2 as (_ & _ & N & _). rewrite (N w Nl). exact Nl.
  - apply IH. inversion Hw; assumption.
Qed.
End Tree.

(** Success for every scalar type: the same with nothing claimed about values. *)
Lemma built_true s o (Q : (nat -> S) -> S -> Prop) : built s o Q -> built s o (fun _ _ => True).
Proof. apply built_mono. auto. Qed.

Lemma bt_un u s a : wf s -> a < nlen s -> built s (e_un u (Some a) s) (fun _ _ => True).
Proof. intros W H. eapply built_true, e_un_built; assumption. Qed.
Lemma bt_bin b s x y : wf s -> x < nlen s -> y < nlen s -> built s (e_bin b (Some x) (Some y) s) (fun _ _ => True).
Proof. intros W Hx Hy. eapply built_true, e_bin_built; assumption. Qed.
Lemma bt_const s c : wf s -> built s (constant_ptr c s) (fun _ _ => True).
Proof. intros W. apply built_const; auto. Qed.
Lemma bt_ret s p : wf s -> p < nlen s -> built s (eret (Some p) s) (fun _ _ => True).
Proof. intros W H. apply built_ret; auto. Qed.

Ltac bt1 W :=
  first [ eapply (bt_un UNeg) | eapply (bt_un UAbs) | eapply (bt_un UAcos) | eapply (bt_un UAsin) | eapply (bt_un UAtan)
        | eapply (bt_un UCbrt) | eapply (bt_un UCos) | eapply (bt_un UCosh) | eapply (bt_un UErf) | eapply (bt_un UExp)
        | eapply (bt_un UIsNonneg) | eapply (bt_un UIsPos) | eapply (bt_un ULog) | eapply (bt_un ULog10) | eapply (bt_un USign)
        | eapply (bt_un USin) | eapply (bt_un USinh) | eapply (bt_un USqrt) | eapply (bt_un UTan) | eapply (bt_un UTanh)
        | eapply (bt_bin BAdd) | eapply (bt_bin BSub) | eapply (bt_bin BMul) | eapply (bt_bin BDiv) | eapply (bt_bin BAtan2)
        | eapply (bt_bin BHypot) | eapply (bt_bin BMax) | eapply (bt_bin BMin) | eapply (bt_bin BPow)
        | eapply bt_const | eapply bt_ret ]; first [assumption | lia].
Ltac bt :=
  match goal with
  | W : wf ?s |- built ?s (ebind _ _ ?s) _ =>
      let p := fresh "p" in let s' := fresh "s" in let X := fresh "X" in let W' := fresh "W" in let Hp := fresh "Hp" in
      eapply (built_bind s); [exact W|bt1 W|intros p s' X W' Hp _; pose proof (ext_nlen _ _ X); bt]
  | W : wf ?s |- built ?s _ _ => bt1 W
  end.

Lemma un_grad_expr_bt u s a x : wf s -> a < nlen s -> x < nlen s ->
  built s (un_grad_expr u (Some a) (Some x) s) (fun _ _ => True).
Proof. intros W Ha Hx. destruct u; cbn [un_grad_expr]; bt. Qed.
Lemma bin_grad_l_bt b s a x y : wf s -> a < nlen s -> x < nlen s -> y < nlen s ->
  built s (bin_grad_expr_l b (Some a) (Some x) (Some y) s) (fun _ _ => True).
Proof. intros W Ha Hx Hy. destruct b; cbn [bin_grad_expr_l]; bt. Qed.
Lemma bin_grad_r_bt b s a x y : wf s -> a < nlen s -> x < nlen s -> y < nlen s ->
  built s (bin_grad_expr_r b (Some a) (Some x) (Some y) s) (fun _ _ => True).
Proof. intros W Ha Hx Hy. destruct b; cbn [bin_grad_expr_r]; bt. Qed.

Lemma gradient_tree_any s r l wrt : wf s -> r < nlen s -> sorted (st_nodes s) r l -> (forall n, st_adje s n = None) ->
  Forall (fun w => w < nlen s) wrt ->
  exists g s', gradient_tree l wrt s = Ok (g, s') /\ ext s s' /\ wf s' /\ (forall n, st_adje s' n = None) /\
    Forall (valid_ptr s') g /\ length g = length wrt.
Proof.
  intros W Hr [[_ ->]|[_ T]] A0 Hw.
  - exists (map (fun _ => None) wrt), s. split; [reflexivity|]. split; [apply ext_refl|]. split; [exact W|]. split; [exact A0|].
    split; [|apply map_length]. apply Forall_forall. intros p Hp. apply in_map_iff in Hp as (w & <- & _). exact I.
  - destruct (gradient_tree_ok s r l (fun _ => False) W Hr T A0) with (wrt := wrt) as (g & s' & E & X & W' & A' & Hv & Hl & _); try assumption.
    + intros n u a t s1 pa Hn En W1 G Hpa. pose proof (topological_valid s r l W Hr T n Hn). pose proof (grows_len _ _ G).
      pose proof (wfn_acyclic _ W n a). unfold args in H1. rewrite En in H1. specialize (H1 (or_introl eq_refl)).
      eapply built_mono; [|apply (un_grad_expr_bt u s1 pa a W1 Hpa)]; [intros lv v _ _ []|lia].
    + intros n b x y t s1 pa Hn En W1 G Hpa. pose proof (topological_valid s r l W Hr T n Hn). pose proof (grows_len _ _ G).
      pose proof (wfn_acyclic _ W n) as Ac. unfold args in Ac. rewrite En in Ac.
      pose proof (Ac x (or_introl eq_refl)). pose proof (Ac y (or_intror (or_introl eq_refl))).
      eapply built_mono; [|apply (bin_grad_l_bt b s1 pa x y W1 Hpa)]; [intros lv v _ _ []|lia|lia].
    + intros n b x y t s1 pa Hn En W1 G Hpa. pose proof (topological_valid s r l W Hr T n Hn). pose proof (grows_len _ _ G).
      pose proof (wfn_acyclic _ W n) as Ac. unfold args in Ac. rewrite En in Ac.
      pose proof (Ac x (or_introl eq_refl)). pose proof (Ac y (or_intror (or_introl eq_refl))).
      eapply built_mono; [|apply (bin_grad_r_bt b s1 pa x y W1 Hpa)]; [intros lv v _ _ []|lia|lia].
    + intros s1 p q W1 Hp Hq. eapply built_mono; [|apply (bt_bin BAdd s1 p q W1 Hp Hq)]. intros lv v _ _ [].
    + intros lv x [].
    + exists g, s'. auto 10.
Qed.

Lemma gradient_tree_sort s v l wrt : wf s -> clean_scr s -> sort_is s v l -> (forall n, st_adje s n = None) ->
  Forall (fun w => w < nlen s) wrt ->
  exists g s', gradient_tree l wrt s = Ok (g, s') /\ ext s s' /\ wf s' /\ (forall n, st_adje s' n = None) /\
    Forall (valid_ptr s') g /\ length g = length wrt.
Proof.
  intros W C Hs A0 Hw. destruct v as [r|].
  - apply (gradient_tree_any s r l wrt W (proj1 Hs) (sort_is_sorted s r l W C Hs) A0 Hw).
  - cbn in Hs. subst l. exists (map (fun _ => None) wrt), s. split; [reflexivity|]. split; [apply ext_refl|].
    split; [exact W|]. split; [exact A0|]. split; [|apply map_length].
    apply Forall_forall. intros p Hp. apply in_map_iff in Hp as (w & <- & _). exact I.
Qed.

(** get(): every entry becomes a node. *)
Lemma valid_grows s s' p : grows s s' -> valid_ptr s p -> valid_ptr s' p.
Proof. intros G H. destruct p as [n|]; [|exact I]. pose proof (grows_len _ _ G). cbn in *. lia. Qed.

Definition some_ptr s (p : @ptr) : Prop := match p with Some n => n < nlen s | None => False end.
Lemma some_grows s s' p : grows s s' -> some_ptr s p -> some_ptr s' p.
Proof. intros G H. destruct p as [n|]; [|exact H]. pose proof (grows_len _ _ G). cbn in *. lia. Qed.

Lemma or_zero_ok g : forall s, wf s -> (forall n, st_adje s n = None) -> Forall (valid_ptr s) g ->
  exists g' s', emap or_zero g s = Ok (g', s') /\ ext s s' /\ wf s' /\ (forall n, st_adje s' n = None) /\ Forall (some_ptr s') g' /\
    Forall2 (fun p p' => match p with
                         | Some n => p' = Some n
                         | None => exists q, p' = Some q /\ forall lv, agrees s' lv -> ev s' lv q = zero end) g g'.
Proof.
  induction g as [|p g IH]; intros s W A0 H.
  - exists [], s. split; [reflexivity|]. split; [apply ext_refl|]. auto.
  - inversion H as [|? ? Hp Hg]; subst. cbn [emap]. unfold ebind at 1.
    assert (K : exists p' s1, or_zero p s = Ok (Some p', s1) /\ ext s s1 /\ wf s1 /\ (forall n, st_adje s1 n = None) /\ p' < nlen s1 /\
      match p with Some n => p' = n | None => forall lv, agrees s1 lv -> ev s1 lv p' = zero end).
    { destruct p as [n|]; cbn [or_zero].
      - exists n, s. split; [reflexivity|]. split; [apply ext_refl|]. auto.
      - destruct (built_const s zero (fun _ v => v = zero) W (fun _ _ => eq_refl)) as (q & s1 & E & X & W1 & Hq & Q).
        exists q, s1. split; [exact E|]. split; [exact X|]. split; [exact W1|]. split; [|auto].
        intros n. destruct X as (_ & F & G). destruct (Nat.lt_ge_cases n (nlen s)) as [Ln|Gn].
        + destruct (F n Ln) as (_ & _ & -> & _). apply A0.
        + apply G; [exact Gn|apply A0]. }
    destruct K as (p' & s1 & E & X & W1 & A1 & Hp' & Q). rewrite E. cbn [obind]. unfold ebind.
    destruct (IH s1 W1 A1) as (g' & s2 & E2 & X2 & W2 & A2 & Hg2 & F2).
    { eapply Forall_impl; [|exact Hg]. intros x. apply valid_grows, grows_ext, X. }
    rewrite E2. cbn [obind]. exists (Some p' :: g'), s2. split; [reflexivity|]. split; [eapply ext_trans; eauto|].
    split; [exact W2|]. split; [exact A2|]. split.
    { constructor; [|exact Hg2]. apply (some_grows s1 s2 (Some p')); [apply grows_ext, X2|exact Hp']. }
    constructor; [|exact F2]. destruct p as [n|]; [congruence|]. exists p'. split; [reflexivity|]. intros lv Ag.
    rewrite (ext_ev s1 s2 lv p' W1 W2 X2 Hp'). apply Q. eapply ext_agrees; eauto.
Qed.

Lemma get_rows_ok wrt : forall vars lists s, wf s -> clean_scr s -> (forall n, st_adje s n = None) ->
  Forall (fun w => w < nlen s) wrt -> Forall2 (sort_is s) vars lists ->
  exists m s', emap (fun l => do g <- gradient_tree l wrt; emap or_zero g) lists s = Ok (m, s') /\ ext s s' /\ wf s' /\
    (forall n, st_adje s' n = None) /\ Forall (Forall (some_ptr s')) m /\ length m = length lists /\
    Forall (fun row => length row = length wrt) m.
Proof.
  induction vars as [|v vars IH]; intros lists s W C A0 Hw H; inversion H as [|v' l vars' lists' Hv Hr]; subst; cbn [emap].
  - exists [], s. split; [reflexivity|]. split; [apply ext_refl|]. auto 10.
  - unfold ebind at 1.
    destruct (gradient_tree_sort s v l wrt W C Hv A0 Hw) as (g & s1 & E1 & X1 & W1 & A1 & Hg & Lg).
    unfold ebind at 1. rewrite E1. cbn [obind].
    destruct (or_zero_ok g s1 W1 A1 Hg) as (g' & s2 & E2 & X2 & W2 & A2 & Hg2 & F2). rewrite E2. cbn [obind].
    pose proof (ext_trans _ _ _ X1 X2) as X12. unfold ebind at 1.
    destruct (IH lists' s2 W2 (ext_clean _ _ X12 C) A2) as (m & s3 & E3 & X3 & W3 & A3 & Hm & Lm & Lr).
    { eapply Forall_impl; [|exact Hw]. intros w Hlt. cbv beta in Hlt. pose proof (ext_nlen _ _ X12). lia. }
    { eapply Forall2_impl; [|exact Hr]. intros p q. apply sort_is_grows; auto.
      - eapply ext_clean; eauto. - apply grows_ext, X12. }
    rewrite E3. cbn [obind]. exists (g' :: m), s3. split; [reflexivity|]. split; [eapply ext_trans; eauto|].
    split; [exact W3|]. split; [exact A3|]. split.
    { constructor; [|exact Hm]. eapply Forall_impl; [|exact Hg2]. intros x. apply some_grows, grows_ext, X3. }
    split; [cbn; congruence|]. constructor; [|exact Lr]. etransitivity; [symmetry; eapply Forall2_len; exact F2|exact Lg].
Qed.

Lemma jac_get_ok s j : wf s -> clean_scr s -> (forall n, st_adje s n = None) -> jacok s j ->
  exists m s', jac_get j s = Ok (m, s') /\ ext s s' /\ wf s' /\ (forall n, st_adje s' n = None) /\
    Forall (Forall (some_ptr s')) m /\ length m = length (j_lists j) /\ Forall (fun row => length row = length (j_wrt j)) m.
Proof.
  intros W C A0 (Hw & Hl & _). apply (get_rows_ok (j_wrt j) (j_vars j)); auto.
  eapply Forall_impl; [|exact Hw]. intros w [H _]. exact H.
Qed.

Lemma hess_make_ok s f wrt : wf s -> clean_scr s -> (forall n, st_adje s n = None) -> valid_ptr s f ->
  Forall (fun w => w < nlen s /\ typ (st_nodes s) w <> CONSTANT) wrt ->
  exists l s1 g s2 j s', topological_sort f s = Ok (l, s1) /\ sort_is s f l /\ st_nodes s1 = st_nodes s /\ st_val s1 = st_val s /\
    st_adje s1 = st_adje s /\ clean_scr s1 /\
    gradient_tree l wrt s1 = Ok (g, s2) /\ ext s1 s2 /\ wf s2 /\ Forall (valid_ptr s2) g /\ length g = length wrt /\
    hess_make f (map Some wrt) s = Ok (j, s') /\ st_nodes s' = st_nodes s2 /\ st_val s' = st_val s2 /\
    (forall n, st_adje s' n = None) /\ clean_scr s' /\ j_vars j = g /\ j_wrt j = wrt /\ jacok s' j.
Proof.
  intros W C A0 Hf Hw.
  assert (K : exists l scr, topological_sort f s = Ok (l, with_scr s scr) /\ sort_is s f l /\ forall n, scr n = (-1)%Z).
  { destruct f as [n|]; [|exists [], (st_scr s); split; [destruct s; reflexivity|split; [reflexivity|exact C]]].
    destruct (topological_sort_ok s n W C Hf) as (l & scr & E & _ & Hc). exists l, scr. split; [exact E|].
    split; [|exact Hc]. split; [exact Hf|]. exists scr. exact E. }
  destruct K as (l & scr & E & Hs & Hc).
  assert (Hs1 : sort_is (with_scr s scr) f l) by (apply (sort_is_same s (with_scr s scr) f l W C Hc eq_refl Hs)).
  destruct (gradient_tree_sort (with_scr s scr) f l wrt W Hc Hs1 A0) as (g & s2 & E2 & X2 & W2 & A2 & Hg & Lg).
  { eapply Forall_impl; [|exact Hw]. intros w [H _]. exact H. }
  destruct (jac_make_ok s2 g wrt W2 (ext_clean _ _ X2 Hc) Hg) as (j & s' & E3 & N3 & V3 & A3 & C3 & Jv & Jw & Jo).
  { eapply Forall_impl; [|exact Hw]. intros w [H1 H2]. pose proof (ext_nlen _ _ X2) as Ln.
    change (nlen (with_scr s scr)) with (nlen s) in Ln. split; [lia|].
    rewrite (ext_typ (with_scr s scr) s2 w X2) by exact H1. exact H2. }
  exists l, (with_scr s scr), g, s2, j, s'. split; [exact E|]. split; [exact Hs|]. do 3 (split; [reflexivity|]).
  split; [exact Hc|]. split; [exact E2|]. split; [exact X2|]. split; [exact W2|]. split; [exact Hg|]. split; [exact Lg|].
  split. { unfold hess_make. unfold ebind at 1. rewrite emap_deref. cbn [obind]. unfold ebind at 1. rewrite E. cbn [obind].
    unfold ebind at 1. rewrite E2. cbn [obind]. exact E3. }
  split; [exact N3|]. split; [exact V3|]. split; [intros n; rewrite A3; apply A2|]. auto.
Qed.
End Gen.
