(** Reverse accumulation over R gives the partial derivatives (C22), and Jacobian matrices hold them. *)
From Coq Require Import ZArith Reals List Bool Arith Lia Lra.
From Coquelicot Require Import Coquelicot.
From Verif Require Import Base ExprModel GraphSpec GraphProofs ExprInv ExprReal MathSpec MathProofs VarModel VarReach VarProofs
  DiffSpec OpDeriv AdjProofs JacModel JacProofs.
Import ListNotations.
Local Open Scope nat_scope.

(** ** Sums over lists. *)
Fixpoint lsum (f : nat -> R) (l : list nat) : R := match l with [] => 0%R | n :: l => (f n + lsum f l)%R end.

Lemma lsum_ext f g l : (forall n, In n l -> f n = g n) -> lsum f l = lsum g l.
Proof. induction l as [|x l IH]; intros H; [reflexivity|]. cbn. rewrite (H x (or_introl eq_refl)), IH; auto with datatypes. Qed.
Lemma lsum_zero f l : (forall n, In n l -> f n = 0%R) -> lsum f l = 0%R.
Proof. induction l as [|x l IH]; intros H; [reflexivity|]. cbn. rewrite (H x (or_introl eq_refl)), IH by auto with datatypes. ring. Qed.
Lemma lsum_point f l a : NoDup l -> In a l -> (forall n, In n l -> n <> a -> f n = 0%R) -> lsum f l = f a.
Proof.
  induction l as [|x l IH]; intros ND Ha H; [destruct Ha|]. inversion ND as [|? ? Nx ND']; subst. cbn.
  destruct Ha as [->|Ha].
  - rewrite lsum_zero; [ring|]. intros n Hn. apply H; [right; exact Hn|]. intros ->. contradiction.
  - rewrite IH by auto with datatypes. rewrite (H x); [ring|left; reflexivity|]. intros ->. contradiction.
Qed.
Lemma lsum_minus f g l : (lsum f l - lsum g l)%R = lsum (fun n => (f n - g n)%R) l.
Proof. induction l as [|x l IH]; cbn; [ring|]. rewrite <- IH. ring. Qed.

(** ** Duality. *)
Section Dual.
Context (ns : list node) (val D : nat -> R) (r : nat) (L : list nat).
Hypothesis A : acyclic_nodes ns.
Hypothesis T : topological ns r L.
Definition leafb (n : nat) : bool :=
  match nth_error ns n with Some nd => match n_kind nd with KConst | KVar => true | _ => false end | None => true end.
Hypothesis HD : forall n nd, In n L -> nth_error ns n = Some nd ->
  match n_kind nd with
  | KConst | KVar => True
  | KUn u a => D n = (un_grad (S := R_ops) u 1 (val a) * D a)%R
  | KBin b x y => D n = (bin_grad_l (S := R_ops) b 1 (val x) (val y) * D x + bin_grad_r (S := R_ops) b 1 (val x) (val y) * D y)%R
  end.

Definition wt (P : list nat) (n : nat) : R := if in_dec Nat.eq_dec n P then (if leafb n then D n else 0%R) else D n.
Definition tot (P : list nat) (adj : nat -> R) : R := lsum (fun n => (adj n * wt P n)%R) L.

Lemma tot_upd P adj a c : NoDup L -> In a L -> ~ In a P \/ leafb a = true ->
  tot P (upd adj a (adj a + c)%R) = (tot P adj + c * D a)%R.
Proof.
  intros ND Ha Hp. unfold tot.
  assert (W : wt P a = D a). { unfold wt. destruct (in_dec _ _ _) as [I|N]; [|reflexivity]. destruct Hp as [C|C]; [contradiction|]. rewrite C. reflexivity. }
  enough (H : (lsum (fun n => (upd adj a (adj a + c) n * wt P n)%R) L - lsum (fun n => (adj n * wt P n)%R) L)%R = (c * D a)%R) by lra.
  rewrite lsum_minus. rewrite (lsum_point _ L a ND Ha).
  - rewrite upd_eq, W. ring.
  - intros n Hn Hd. rewrite upd_ne by exact Hd. ring.
Qed.

Lemma tot_snoc P adj n : NoDup L -> In n L -> ~ In n P ->
  tot (P ++ [n]) adj = (tot P adj - (if leafb n then 0 else adj n * D n))%R.
Proof.
  intros ND Hn Hp. unfold tot.
  enough (H : (lsum (fun m => (adj m * wt P m)%R) L - lsum (fun m => (adj m * wt (P ++ [n]) m)%R) L)%R = (if leafb n then 0 else adj n * D n)%R) by lra.
  rewrite lsum_minus, (lsum_point _ L n ND Hn).
  - unfold wt. destruct (in_dec Nat.eq_dec n P); [contradiction|].
    destruct (in_dec Nat.eq_dec n (P ++ [n])) as [I|N]; [|exfalso; apply N, in_or_app; right; left; reflexivity].
    destruct (leafb n); ring.
  - intros m Hm Hd. unfold wt.
    destruct (in_dec Nat.eq_dec m P) as [I|N]; destruct (in_dec Nat.eq_dec m (P ++ [n])) as [I'|N']; try ring.
    + exfalso. apply N', in_or_app. left. exact I.
    + apply in_app_or in I' as [I'|[->|[]]]; contradiction.
Qed.

Lemma order_after P n Q a : L = P ++ n :: Q -> In a (args ns n) -> In a L /\ ~ In a P /\ a <> n.
Proof.
  intros E Ha. destruct T as (ND & _ & Ord & _). pose proof (Ord P n Q E a Ha) as HQ.
  split; [rewrite E; apply in_or_app; right; right; exact HQ|]. rewrite E in ND.
  split.
  - intros HP. clear - ND HP HQ. induction P as [|p P IH]; [destruct HP|]. inversion ND as [|? ? Np ND']; subst.
    destruct HP as [->|HP]; [apply Np, in_or_app; right; right; exact HQ|auto].
  - intros ->. apply NoDup_remove_2 in ND. apply ND, in_or_app. right. exact HQ.
Qed.

Lemma tot_step P n Q adj : L = P ++ n :: Q -> tot (P ++ [n]) (step_adj (S := R_ops) ns val adj n) = tot P adj.
Proof.
  intros E. pose proof T as (ND & _ & _ & _).
  assert (Hn : In n L) by (rewrite E; apply in_or_app; right; left; reflexivity).
  assert (HnP : ~ In n P).
  { rewrite E in ND. apply NoDup_remove_2 in ND. intros C. apply ND, in_or_app. left. exact C. }
  rewrite (tot_snoc P _ n ND Hn HnP). unfold step_adj, leafb. destruct (nth_error ns n) as [[k t]|] eqn:En; [|ring].
  cbn [n_kind]. pose proof (HD n _ Hn En) as Hd. cbn [n_kind] in Hd.
  pose proof (order_after P n Q) as Ho. unfold args in Ho. rewrite En in Ho. cbn [n_args n_kind] in Ho.
  destruct k as [| |u a|b x y]; [ring|ring| |].
  - destruct (Ho a E (or_introl eq_refl)) as (Ia & Na & Da).
    change (s_add R_ops) with Rplus. rewrite (tot_upd P adj a _ ND Ia (or_introl Na)).
    rewrite upd_ne by congruence. rewrite Hd, un_grad_lin. ring.
  - destruct (Ho x E (or_introl eq_refl)) as (Ix & Nx & Dx). destruct (Ho y E (or_intror (or_introl eq_refl))) as (Iy & Ny & Dy).
    cbv zeta. change (s_add R_ops) with Rplus. rewrite (tot_upd P _ y _ ND Iy (or_introl Ny)), (tot_upd P adj x _ ND Ix (or_introl Nx)).
    rewrite (upd_ne _ y _ n) by congruence. rewrite (upd_ne _ x _ n) by congruence.
    rewrite Hd, bin_grad_l_lin, bin_grad_r_lin. ring.
Qed.

Lemma tot_run Q : forall P adj, L = P ++ Q -> tot L (adj_run (S := R_ops) ns val Q adj) = tot P adj.
Proof.
  induction Q as [|n Q IH]; intros P adj E.
  - rewrite app_nil_r in E. rewrite E. reflexivity.
  - cbn [adj_run fold_left]. unfold adj_run in IH. rewrite (IH (P ++ [n])); [apply (tot_step P n Q adj E)|].
    rewrite <- app_assoc. exact E.
Qed.

Lemma duality adj0 : lsum (fun n => (adj_final (S := R_ops) ns val L adj0 n * (if leafb n then D n else 0))%R) L = D r.
Proof.
  pose proof T as (ND & _ & _ & rest & E).
  transitivity (tot L (adj_final (S := R_ops) ns val L adj0)).
  - unfold tot. apply lsum_ext. intros n Hn. unfold wt. destruct (in_dec _ _ _); [reflexivity|contradiction].
  - unfold adj_final. rewrite (tot_run L []) by reflexivity. unfold tot.
    assert (Hr : In r L) by (rewrite E; left; reflexivity).
    rewrite (lsum_point _ L r ND Hr).
    + rewrite E, seed_root; [cbn; ring|]. rewrite E in ND. inversion ND; assumption.
    + intros n Hn Hd. rewrite E, seed_rest; [cbn; ring|]. rewrite E in Hn. destruct Hn as [->|Hn]; [contradiction|exact Hn].
Qed.
End Dual.

(** ** Derivatives of all nodes along a coordinate. *)
Lemma eval_ext_lv {S : sops} ns (lv lv' : nat -> S) : wfn ns -> (forall n, lv n = lv' n) -> forall n, eval ns lv n = eval ns lv' n.
Proof.
  intros W H n. induction n as [n IH] using (well_founded_induction lt_wf). rewrite !(eval_eq _ _ n W).
  destruct (nth_error ns n) as [[k t]|] eqn:E; [|apply H]. destruct (W n _ E) as [A _]. cbn [n_kind n_args] in *.
  destruct k as [| |u a|b x y]; [apply H|apply H| |]; cbn in A; rewrite ?IH by auto; reflexivity.
Qed.

Section Curve.
Context (ns : list node) (lv : nat -> R) (w : nat).
Hypothesis W : wfn ns.
Hypothesis Kw : is_kvar ns w.

Definition along (n : nat) (t : R) : R := eval (S := R_ops) ns (upd lv w t) n.
Definition slope (n : nat) : R := Derive (along n) (lv w).

Lemma along_at n : along n (lv w) = eval (S := R_ops) ns lv n.
Proof.
  unfold along. apply (eval_ext_lv (S := R_ops)); [exact W|]. intros m. unfold upd. destruct (Nat.eqb m w) eqn:E; [|reflexivity].
  apply Nat.eqb_eq in E. subst. reflexivity.
Qed.

Lemma along_const n t : typ ns n = CONSTANT -> along n t = lv n.
Proof.
  intros T. destruct (typ_const ns n W T) as (nd & E & K). unfold along. rewrite (eval_leaf _ _ _ nd W E (or_introl K)).
  apply upd_ne. intros ->. destruct Kw as (nd' & E' & K'). rewrite E in E'. injection E' as <-. congruence.
Qed.

Lemma nodes_derive r : r < length ns -> smooth ns lv r -> forall n, reach ns r n ->
  is_derive (along n) (lv w) (slope n) /\
  forall nd, nth_error ns n = Some nd ->
  match n_kind nd with
  | KConst => slope n = 0%R
  | KVar => slope n = if Nat.eq_dec n w then 1%R else 0%R
  | KUn u a => slope n = (un_grad (S := R_ops) u 1 (eval (S := R_ops) ns lv a) * slope a)%R
  | KBin b x y => slope n = (bin_grad_l (S := R_ops) b 1 (eval (S := R_ops) ns lv x) (eval (S := R_ops) ns lv y) * slope x
      + bin_grad_r (S := R_ops) b 1 (eval (S := R_ops) ns lv x) (eval (S := R_ops) ns lv y) * slope y)%R
  end.
Proof.
  intros Hr Sm n. induction n as [n IH] using (well_founded_induction lt_wf). intros Rn.
  pose proof (reach_valid ns r n (wfn_acyclic _ W) Hr Rn) as Ln.
  destruct (nth_error ns n) as [[k t]|] eqn:En; [|apply nth_error_None in En; lia].
  destruct (Sm n Rn) as [Reg Smo]. specialize (Reg _ En). specialize (Smo _ En). cbn [n_kind] in Reg, Smo.
  destruct (W n _ En) as [Ac _]. cbn [n_args n_kind] in Ac.
  assert (UQ : forall d, is_derive (along n) (lv w) d -> is_derive (along n) (lv w) (slope n) /\ slope n = d).
  { intros d Hd. pose proof (is_derive_unique _ _ _ Hd) as U. unfold slope. split; [|exact U]. rewrite U. exact Hd. }
  assert (RA : forall a, In a (n_args (mkN k t)) -> reach ns r a).
  { intros a Ha. eapply reach_arg; [exact Rn|]. unfold args. rewrite En. exact Ha. }
  assert (EV : forall a, a < n -> Ev (S := R_ops) ns lv a (eval (S := R_ops) ns lv a)) by (intros a Ha; apply eval_Ev; [exact W|lia]).
  destruct k as [| |u a|b x y].
  - destruct (UQ 0%R) as [D E].
    { apply (is_derive_ext (fun _ => lv n)); [|apply (is_derive_const (V := R_NormedModule))]. intros s0.
      symmetry. apply along_const. unfold typ. rewrite En. destruct (W n _ En) as [_ Ty]. cbn in Ty. cbn. congruence. }
    split; [exact D|]. intros nd H. injection H as <-. exact E.
  - assert (AL : forall s0, along n s0 = upd lv w s0 n) by (intros s0; unfold along; rewrite (eval_leaf _ _ _ _ W En (or_intror eq_refl)); reflexivity).
    destruct (UQ (if Nat.eq_dec n w then 1%R else 0%R)) as [D E].
    { destruct (Nat.eq_dec n w) as [->|Dn].
      - apply (is_derive_ext (fun s0 => s0)); [|apply (is_derive_id (K := R_AbsRing))]. intros s0. rewrite AL, upd_eq. reflexivity.
      - apply (is_derive_ext (fun _ => lv n)); [|apply (is_derive_const (V := R_NormedModule))]. intros s0.
        rewrite AL, upd_ne by exact Dn. reflexivity. }
    split; [exact D|]. intros nd H. injection H as <-. exact E.
  - cbn in Ac. assert (La : a < n) by (apply Ac; left; reflexivity).
    destruct (IH a La (RA a (or_introl eq_refl))) as [Da _].
    destruct (UQ (un_grad (S := R_ops) u 1 (eval (S := R_ops) ns lv a) * slope a)%R) as [D E].
    { apply (is_derive_ext (fun s0 => un_value (S := R_ops) u (along a s0))).
      - intros s0. unfold along. rewrite (eval_eq _ _ n W), En. reflexivity.
      - rewrite <- (along_at a). apply un_chain; [| |exact Da]; rewrite along_at; [apply Reg|apply Smo]; apply EV, La. }
    split; [exact D|]. intros nd H. injection H as <-. exact E.
  - cbn in Ac. assert (Lx : x < n) by (apply Ac; left; reflexivity). assert (Ly : y < n) by (apply Ac; right; left; reflexivity).
    destruct (IH x Lx (RA x (or_introl eq_refl))) as [Dx _]. destruct (IH y Ly (RA y (or_intror (or_introl eq_refl)))) as [Dy Ey].
    destruct (UQ (bin_grad_l (S := R_ops) b 1 (eval (S := R_ops) ns lv x) (eval (S := R_ops) ns lv y) * slope x
      + bin_grad_r (S := R_ops) b 1 (eval (S := R_ops) ns lv x) (eval (S := R_ops) ns lv y) * slope y)%R) as [D E].
    { apply (is_derive_ext (fun s0 => bin_value (S := R_ops) b (along x s0) (along y s0))).
      - intros s0. unfold along. rewrite (eval_eq _ _ n W), En. reflexivity.
      - rewrite <- (along_at x), <- (along_at y).
        destruct (Reg _ _ (EV x Lx) (EV y Ly)) as [Rg|(-> & Ky & Ip)].
        + apply bin_chain; [| |exact Dx|exact Dy]; rewrite !along_at; [exact Rg|]. apply Smo; apply EV; assumption.
        + destruct Ky as (ndy & Eny & Kyy). specialize (Ey _ Eny). rewrite Kyy in Ey. rewrite Ey, Rmult_0_r, Rplus_0_r.
          assert (Ty : typ ns y = CONSTANT).
          { unfold typ. rewrite Eny. destruct (W y _ Eny) as [_ Ty]. rewrite Kyy in Ty. cbn in Ty. congruence. }
          apply (is_derive_ext (fun s0 => bin_value (S := R_ops) BPow (along x s0) (along y (lv w)))).
          * intros s0. rewrite !(along_const y _ Ty). reflexivity.
          * apply pow_chain; [|exact Dx]. rewrite !along_at. exact Ip. }
    split; [exact D|]. intros nd H. injection H as <-. exact E.
Qed.

Lemma grad_derive r l : r < length ns -> topological ns r l -> smooth ns lv r ->
  is_derive (along r) (lv w)
    (if in_dec Nat.eq_dec w l then adj_final (S := R_ops) ns (eval (S := R_ops) ns lv) l (fun _ => 0%R) w else 0%R).
Proof.
  intros Hr T Sm. pose proof (nodes_derive r Hr Sm) as ND. pose proof T as (NDl & Hin & _ & _).
  destruct (ND r (reach_refl ns r)) as [Dr _].
  enough (E : slope r = (if in_dec Nat.eq_dec w l then adj_final (S := R_ops) ns (eval (S := R_ops) ns lv) l (fun _ => 0%R) w else 0%R))
    by (apply (eq_derive _ _ _ _ Dr E)).
  rewrite <- (duality ns (eval (S := R_ops) ns lv) slope r l T) with (adj0 := fun _ => 0%R).
  2:{ intros n nd Hn En. destruct (ND n (proj1 (Hin n) Hn)) as [_ E]. specialize (E nd En). destruct (n_kind nd); auto. }
  assert (Z : forall n, In n l -> n <> w ->
    (adj_final (S := R_ops) ns (eval (S := R_ops) ns lv) l (fun _ => 0%R) n * (if leafb ns n then slope n else 0))%R = 0%R).
  { intros n Hn Hd. unfold leafb. pose proof (reach_valid ns r n (wfn_acyclic _ W) Hr (proj1 (Hin n) Hn)) as Ln.
    destruct (nth_error ns n) as [nd|] eqn:En; [|apply nth_error_None in En; lia].
    destruct (ND n (proj1 (Hin n) Hn)) as [_ E]. specialize (E nd En). destruct (n_kind nd); try ring; rewrite E; [ring|].
    destruct (Nat.eq_dec n w); [contradiction|ring]. }
  destruct (in_dec Nat.eq_dec w l) as [I|N].
  - rewrite (lsum_point _ l w NDl I Z). destruct (ND w (proj1 (Hin w) I)) as [_ E].
    destruct Kw as (nd & En & K). unfold leafb. rewrite En, K. specialize (E nd En). rewrite K in E. rewrite E.
    destruct (Nat.eq_dec w w); [ring|congruence].
  - apply lsum_zero. intros n Hn. apply Z; [exact Hn|]. intros ->. contradiction.
Qed.

Lemma derive_partial r d : r < length ns -> is_derive (along r) (lv w) d -> partial ns lv r w d.
Proof.
  intros Hr H F HF. apply (is_derive_ext (along r)); [|exact H]. intros t. symmetry. apply (Ev_eval _ _ _ _ W (HF t)).
Qed.
End Curve.

(** The adjoint of [w] in the row whose sorted list is [l]. *)
Definition row_entry (ns : list node) (lv : nat -> R) (l : list nat) (w : nat) : R :=
  if in_dec Nat.eq_dec w l then adj_final (S := R_ops) ns (eval (S := R_ops) ns lv) l (fun _ => 0%R) w else 0%R.

Lemma grad_partial ns lv r w l : wfn ns -> is_kvar ns w -> r < length ns -> sorted ns r l -> smooth ns lv r ->
  partial ns lv r w (row_entry ns lv l w).
Proof.
  intros W Kw Hr [[Tr ->]|[_ T]] Sm; apply (derive_partial ns lv w W r _ Hr).
  - unfold row_entry. cbn. apply (is_derive_ext (fun _ => lv r)); [|apply (is_derive_const (V := R_NormedModule))].
    intros t. symmetry. apply along_const; assumption.
  - apply grad_derive; assumption.
Qed.

(** ** Entries of the Jacobian. *)
Ltac rring := cbv iota; match goal with |- @eq _ ?p ?q => change (@eq R p q) end; ring.
Fixpoint ents (ts : list (@triplet R_ops)) (i j : nat) : R :=
  match ts with [] => 0%R | (a, b, x) :: ts => ((if Nat.eqb a i && Nat.eqb b j then (x : R) else 0%R) + ents ts i j)%R end.
Lemma ents_app ts ts' i j : ents (ts ++ ts') i j = (ents ts i j + ents ts' i j)%R.
Proof. induction ts as [|[[a b] x] ts IH]; cbn; [ring|]. rewrite IH. ring. Qed.
Lemma entry_from_ents ts i j : forall acc, entry_from (S := R_ops) acc ts i j =
  (match acc with Some x => x | None => 0 end + ents ts i j)%R.
Proof.
  induction ts as [|[[a b] x] ts IH]; intros acc; cbn [entry_from ents].
  - destruct acc; cbn; symmetry; apply Rplus_0_r.
  - destruct (Nat.eqb a i && Nat.eqb b j); rewrite IH; destruct acc; cbn; rring.
Qed.
Lemma entry_ents ts i j : entry (S := R_ops) ts i j = ents ts i j.
Proof. unfold entry. rewrite entry_from_ents. cbv iota. rring. Qed.

Lemma ents_other ts i j : (forall a b x, In (a, b, x) ts -> a <> i \/ b <> j) -> ents ts i j = 0%R.
Proof.
  induction ts as [|[[a b] x] ts IH]; intros H; [reflexivity|]. cbn. rewrite IH by (intros; apply (H a0 b0 x0); right; assumption).
  destruct (H a b x (or_introl eq_refl)) as [C|C]; apply Nat.eqb_neq in C; rewrite C; rewrite ?andb_false_r; cbn; ring.
Qed.

Lemma ents_row i ns val wrt l j w : NoDup l -> NoDup wrt -> nth_error wrt j = Some w ->
  ents (row_triplets i ns val l (outs_of wrt l)) i j = if in_dec Nat.eq_dec w l then adj_final (S := R_ops) ns val l (fun _ => 0%R) w else 0%R.
Proof.
  intros NDl NDw Hw. unfold row_triplets. set (a := adj_final (S := R_ops) ns val l (fun _ => s_ofZ R_ops 0)).
  change (fun _ : nat => 0%R) with (fun _ : nat => s_ofZ R_ops 0). change (adj_final (S := R_ops) ns val l (fun _ => s_ofZ R_ops 0) w) with (a w).
  clearbody a. induction l as [|n l IH]; [reflexivity|]. inversion NDl as [|? ? Nn NDl']; subst.
  unfold outs_of. cbn [flat_map]. fold (outs_of wrt l). rewrite map_app, ents_app, (IH NDl').
  destruct (Nat.eq_dec n w) as [->|D].
  - rewrite (col_nodup wrt NDw 0 j w Hw). cbn. rewrite !Nat.eqb_refl. cbn.
    destruct (in_dec Nat.eq_dec w l); [contradiction|].
    destruct (Nat.eq_dec w w); [ring|congruence].
  - assert (Z : ents (map (fun '(col, n0) => (i, col, a n0)) match col_from wrt 0 n with Some c => [(c, n)] | None => [] end) i j = 0%R).
    { apply ents_other. intros p q x Hx. right. intros ->. destruct (col_from wrt 0 n) as [c|] eqn:Ec; [|destruct Hx].
      destruct Hx as [Hx|[]]. injection Hx as <- -> <-. apply col_some in Ec as [_ Ec]. rewrite Nat.sub_0_r in Ec. congruence. }
    rewrite Z, Rplus_0_l. destruct (in_dec Nat.eq_dec w l) as [I|N]; destruct (in_dec Nat.eq_dec w (n :: l)) as [I'|N']; try reflexivity.
    + exfalso. apply N'. right. exact I.
    + destruct I' as [->|I']; contradiction.
Qed.

Lemma ents_row_other i i' ns val wrt l j : i <> i' -> ents (row_triplets (S := R_ops) i ns val l (outs_of wrt l)) i' j = 0%R.
Proof.
  intros D. apply ents_other. intros a b x H. left. apply in_map_iff in H as ([c n] & E & _). injection E as <- _ _. exact D.
Qed.

Section Matrix.
Context (s : st R_ops) (wrt : list nat).
Hypothesis W : wf s.
Hypothesis C : clean_scr s.
Hypothesis NDw : NoDup wrt.
Hypothesis Kw : List.Forall (is_kvar (st_nodes s)) wrt.
Let ns := st_nodes s.
Let lv := st_val s.

Lemma const_typ n : is_kconst ns n <-> typ ns n = CONSTANT.
Proof.
  split; [|intros T; destruct (typ_const _ _ W T) as (nd & E & K); exists nd; auto].
  intros (nd & E & K). unfold typ. rewrite E. destruct (W n _ E) as [_ Ty]. rewrite K in Ty. cbn in Ty. congruence.
Qed.

Lemma lin_row n l w : n < nlen s -> sorted ns n l -> typ ns n = LINEAR -> is_kvar ns w -> In w l ->
  adj_final (S := R_ops) ns lv l (fun _ => 0%R) w = adj_final (S := R_ops) ns (eval (S := R_ops) ns lv) l (fun _ => 0%R) w.
Proof.
  intros Hn Hs T (nd & E & K) Hw. unfold adj_final.
  assert (TL : forall x, In x l -> typ ns x = LINEAR \/ typ ns x = CONSTANT).
  { intros x Hx. destruct Hs as [[_ ->]|[_ (_ & Hr & _)]]; [destruct Hx|]. apply (linear_reach _ n W T). apply Hr, Hx. }
  apply (adj_linear ns _ _ l W (closed_incl _ _ (sorted_closed _ _ _ Hs)) TL); auto using incl_refl.
  - intros x Hx Tx. apply const_typ in Tx. destruct Tx as (nd' & E' & K'). symmetry. apply (eval_leaf ns lv x nd' W E' (or_introl K')).
  - destruct (W w _ E) as [_ Ty]. rewrite K in Ty. cbn in Ty. unfold typ. fold ns in E. rewrite E. congruence.
Qed.

Lemma sorted_nodup n l : sorted ns n l -> NoDup l.
Proof. intros [[_ ->]|[_ (H & _)]]; [constructor|exact H]. Qed.

Lemma ents_lin vars : forall row lists i j w, Forall2 (sort_is s) vars lists -> nth_error wrt j = Some w ->
  ents (lin_triplets (S := R_ops) ns lv row vars lists wrt) i j =
    if Nat.leb row i then
      match nth_error vars (i - row), nth_error lists (i - row) with
      | Some (Some n), Some l => if etype_eqb (typ ns n) LINEAR then row_entry ns lv l w else 0%R
      | _, _ => 0%R
      end
    else 0%R.
Proof.
  induction vars as [|v vars IH]; intros row lists i j w H Hw; inversion H as [|v' l vars' lists' Hv Hr]; subst.
  - cbn. destruct (Nat.leb row i); [|reflexivity]. destruct (i - row); reflexivity.
  - cbn [lin_triplets]. rewrite ents_app, (IH (S row) lists' i j w Hr Hw).
    destruct (Nat.eq_dec i row) as [->|D].
    + rewrite Nat.leb_refl, Nat.sub_diag. assert (X : Nat.leb (S row) row = false) by (apply Nat.leb_gt; lia). rewrite X. cbn [nth_error].
      rewrite Rplus_0_r. destruct v as [n|]; [|reflexivity]. destruct (etype_eqb (typ ns n) LINEAR) eqn:T; [|reflexivity].
      pose proof (sort_is_sorted s n l W C Hv) as Hs. rewrite (ents_row row ns lv wrt l j w (sorted_nodup n l Hs) NDw Hw).
      unfold row_entry. destruct (in_dec Nat.eq_dec w l) as [I|N]; [|reflexivity].
      apply (lin_row n l w (proj1 Hv) Hs); [apply etype_eqb_eq, T| |exact I].
      rewrite Forall_forall in Kw. apply Kw. eapply nth_error_In; eauto.
    + assert (Z : ents match v with Some n => if etype_eqb (typ ns n) LINEAR then row_triplets (S := R_ops) row ns lv l (outs_of wrt l) else []
                       | None => [] end i j = 0%R).
      { destruct v as [n|]; [|reflexivity]. destruct (etype_eqb (typ ns n) LINEAR); [|reflexivity]. apply ents_row_other. congruence. }
      rewrite Z, Rplus_0_l. destruct (Nat.leb row i) eqn:L1.
      * apply Nat.leb_le in L1. assert (X : Nat.leb (S row) i = true) by (apply Nat.leb_le; lia). rewrite X.
        replace (i - row) with (S (i - S row)) by lia. reflexivity.
      * apply Nat.leb_gt in L1. assert (X : Nat.leb (S row) i = false) by (apply Nat.leb_gt; lia). rewrite X. reflexivity.
Qed.

Lemma ents_nl rows lists i j w : NoDup rows -> nth_error wrt j = Some w ->
  (forall r l, In r rows -> nth_error lists r = Some l -> NoDup l) ->
  ents (nl_triplets (S := R_ops) ns lv rows lists wrt) i j =
    if in_dec Nat.eq_dec i rows then match nth_error lists i with Some l => row_entry ns lv l w | None => 0%R end else 0%R.
Proof.
  intros ND Hw Hl. unfold nl_triplets. induction rows as [|r rows IH]; [reflexivity|]. inversion ND as [|? ? Nr ND']; subst.
  cbn [flat_map]. rewrite ents_app, (IH ND') by (intros r0 l0 Hr0 El0; apply (Hl r0 l0); [right; exact Hr0|exact El0]).
  destruct (Nat.eq_dec r i) as [->|D].
  - destruct (in_dec Nat.eq_dec i rows); [contradiction|].
    destruct (in_dec Nat.eq_dec i (i :: rows)) as [I|N]; [|exfalso; apply N; left; reflexivity].
    rewrite Rplus_0_r. destruct (nth_error lists i) as [l|] eqn:El; [|reflexivity].
    apply ents_row; auto. eapply Hl; [left; reflexivity|exact El].
  - assert (Z : ents match nth_error lists r with Some l => row_triplets (S := R_ops) r ns (eval ns lv) l (outs_of wrt l) | None => [] end i j = 0%R).
    { destruct (nth_error lists r); [|reflexivity]. apply ents_row_other. exact D. }
    rewrite Z, Rplus_0_l. destruct (in_dec Nat.eq_dec i rows) as [I|N]; destruct (in_dec Nat.eq_dec i (r :: rows)) as [I'|N']; try reflexivity.
    + exfalso. apply N'. right. exact I.
    + destruct I' as [->|I']; contradiction.
Qed.

Lemma nonlin_in vars : forall row i, In i (nonlin_of ns row vars) <-> row <= i /\
  exists n, nth_error vars (i - row) = Some (Some n) /\ etype_rank LINEAR < etype_rank (typ ns n).
Proof.
  induction vars as [|v vars IH]; intros row i; cbn [nonlin_of].
  - split; [intros H; destruct H|]. intros (_ & n & H & _). destruct (i - row); cbn in H; discriminate.
  - rewrite in_app_iff, IH. split.
    + intros [H|(H & n & E & T)].
      * destruct v as [n|]; [|destruct H]. destruct (Nat.ltb _ _) eqn:L; [|destruct H]. destruct H as [<-|[]]. split; [lia|].
        exists n. rewrite Nat.sub_diag. split; [reflexivity|]. apply Nat.ltb_lt in L. exact L.
      * split; [lia|]. exists n. replace (i - row) with (S (i - S row)) by lia. auto.
    + intros (H & n & E & T). destruct (Nat.eq_dec i row) as [->|D].
      * left. rewrite Nat.sub_diag in E. cbn in E. injection E as ->. apply Nat.ltb_lt in T. rewrite T. left. reflexivity.
      * right. split; [lia|]. exists n. replace (i - row) with (S (i - S row)) in E by lia. auto.
Qed.
Lemma nonlin_nodup vars : forall row, NoDup (nonlin_of ns row vars).
Proof.
  induction vars as [|v vars IH]; intros row; cbn [nonlin_of]; [constructor|].
  destruct v as [n|]; [|apply IH]. destruct (Nat.ltb _ _); [|apply IH]. cbn [app]. constructor; [|apply IH].
  intros H. apply nonlin_lt in H. lia.
Qed.

Lemma Forall2_nth {A B} (R : A -> B -> Prop) l l' i a b : Forall2 R l l' -> nth_error l i = Some a -> nth_error l' i = Some b -> R a b.
Proof.
  intros H. revert i. induction H as [|x y l l' Hxy _ IH]; intros i Ha Hb; [destruct i; discriminate|].
  destruct i; cbn in *; [congruence|eauto].
Qed.

(** Every entry of the matrix is the adjoint of its column in its row. *)
Lemma matrix_entry (j : jac R_ops) i c w : jacok s j -> j_wrt j = wrt -> nth_error wrt c = Some w ->
  entry (S := R_ops) (jac_matrix s j) i c =
    (match nth_error (j_lists j) i with Some l => row_entry ns lv l w | None => 0%R end : R).
Proof.
  intros (_ & Hl & _ & Hn & Hc & _) Ew Hw. rewrite entry_ents. unfold jac_matrix. rewrite ents_app, Hc, Ew. fold ns. fold lv.
  rewrite (ents_lin (j_vars j) 0 (j_lists j) i c w Hl Hw).
  fold ns in Hn. rewrite (ents_nl (j_nonlin j) (j_lists j) i c w); [| |exact Hw|].
  2:{ rewrite Hn. apply nonlin_nodup. }
  2:{ intros r l Hr El. rewrite Hn in Hr. apply nonlin_in in Hr as (_ & n & En & _). rewrite Nat.sub_0_r in En.
      pose proof (Forall2_nth _ _ _ _ _ _ Hl En El) as Hs. eapply sorted_nodup. apply (sort_is_sorted s n l W C Hs). }
  cbn [Nat.leb]. rewrite Nat.sub_0_r.
  destruct (nth_error (j_lists j) i) as [l|] eqn:El.
  2:{ assert (Ev : nth_error (j_vars j) i = None).
      { apply nth_error_None. apply nth_error_None in El. rewrite (Forall2_len _ _ _ Hl). exact El. }
      rewrite Ev. destruct (in_dec _ _ _); rring. }
  destruct (nth_error (j_vars j) i) as [v|] eqn:Ev.
  2:{ apply nth_error_None in Ev. assert (i < length (j_lists j)) by (apply nth_error_Some; congruence).
      rewrite <- (Forall2_len _ _ _ Hl) in H. lia. }
  pose proof (Forall2_nth _ _ _ _ _ _ Hl Ev El) as Hs.
  assert (HN : In i (j_nonlin j) <-> exists n, v = Some n /\ etype_rank LINEAR < etype_rank (typ ns n)).
  { rewrite Hn, nonlin_in, Nat.sub_0_r, Ev. split.
    - intros (_ & n & E & T). exists n. split; [congruence|exact T].
    - intros (n & -> & T). split; [lia|]. exists n. auto. }
  destruct v as [n|].
  - destruct (typ_cases s n W (proj1 Hs)) as [T|[T|[T|T]]]; fold ns in T; rewrite T; unfold etype_eqb; cbn [etype_rank Nat.eqb].
    + destruct (in_dec Nat.eq_dec i (j_nonlin j)) as [I|N].
      * apply HN in I as (m & Em & Tm). injection Em as <-. rewrite T in Tm. cbn in Tm. lia.
      * pose proof (sort_is_sorted s n l W C Hs) as [[_ ->]|[T' _]]; [cbn; rring|fold ns in T'; contradiction].
    + destruct (in_dec Nat.eq_dec i (j_nonlin j)) as [I|N]; [|rring].
      apply HN in I as (m & Em & Tm). injection Em as <-. rewrite T in Tm. cbn in Tm. lia.
    + destruct (in_dec Nat.eq_dec i (j_nonlin j)) as [I|N]; [rring|]. exfalso. apply N, HN. exists n. rewrite T. cbn. auto.
    + destruct (in_dec Nat.eq_dec i (j_nonlin j)) as [I|N]; [rring|]. exfalso. apply N, HN. exists n. rewrite T. cbn. auto.
  - cbn in Hs. subst l. destruct (in_dec Nat.eq_dec i (j_nonlin j)) as [I|N]; [apply HN in I as (m & Em & _); discriminate|].
    cbn. rring.
Qed.
End Matrix.
