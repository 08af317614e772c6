(** Programs with Jacobians and Hessians at the level of what the user wrote. *)
From Coq Require Import ZArith Reals List Bool Arith Lia Lra FunctionalExtensionality.
From Coquelicot Require Import Coquelicot.
From Verif Require Import Base ExprModel GraphSpec GraphProofs ExprInv VarModel VarReach VarProofs AdjProofs JacModel JacProofs SymProofs JacReach JacHist JacSame ExprReal MathSpec MathProofs
  DiffSpec OpDeriv OpMath VarSpec Faith SmoothSpec SmoothGraph SmoothGrad SmoothTree SmoothOpen SmoothJac SmoothHess HistProofs SmoothUser SmoothSym JacUserSpec.
Import ListNotations.
Local Open Scope nat_scope.

Section User.
Context {K : sops} {FK : faith K} {FK2 : faith2 K}.
Notation J := (inj (K := K)).
Implicit Types (s : st K) (dv : list nat).

Lemma stands_grow s s' dv more x n : wf s -> wf s' -> grows s s' -> (forall m, is_kconst (st_nodes s) m -> st_val s' m = st_val s m) ->
  stands s dv x n -> stands s' (dv ++ more) x n.
Proof.
  intros W W' (mn & N) Hc (Hn & Hv & Hk & Hg & Hcc).
  assert (AA : forall lv, agrees s' lv -> agrees s lv).
  { intros lv A m Hm. rewrite (A m); [apply Hc, Hm|]. rewrite N. apply kconst_grow, Hm. }
  assert (LL : forall (lv : nat -> K) rho, (forall k, k < length (dv ++ more) -> lv (nth k (dv ++ more) 0) = J (rho k)) -> forall k, k < length dv -> lv (nth k dv 0) = J (rho k)).
  { intros lv rho Hl k Hk'. rewrite <- (Hl k) by (rewrite app_length; lia). rewrite app_nth1 by exact Hk'. reflexivity. }
  split; [unfold nlen in *; rewrite N, app_length; lia|]. split; [|split; [|split]].
  - intros lv rho A Hl Hp v Hx. unfold ev. unfold wf in W'. rewrite N in W' |- *. rewrite (eval_app _ _ lv W W' n Hn). apply (Hv lv rho); [apply AA, A|apply (LL lv rho), Hl|exact Hp|exact Hx].
  - intros k E. destruct (Hk k E) as [A B]. split; [rewrite app_length; lia|]. rewrite app_nth1 by exact A. exact B.
  - intros lv rho A Hl v Hx. rewrite N. apply GSm_app. apply (Hg lv rho); [apply AA, A|apply (LL lv rho), Hl|exact Hx].
  - intros c E. rewrite N. apply kconst_grow, (Hcc c E).
Qed.

Definition wrtok dv (ks : list nat) (w : list nat) : Prop := NoDup ks /\ List.Forall (fun k => k < length dv) ks /\ w = map (fun k => nth k dv 0) ks.

Definition objrel s dv (o : uobj) (jo : jobj K) : Prop :=
  match o with
  | UJac xs ks => snd jo = false /\ wrtok dv ks (j_wrt (fst jo)) /\ Forall2 (fun x p => exists n, p = Some n /\ stands s dv x n) xs (j_vars (fst jo))
  | UHess x ks lower => snd jo = lower /\ wrtok dv ks (j_wrt (fst jo)) /\ length (j_vars (fst jo)) = length ks /\
      exists n, stands s dv x n /\ forall i w p, nth_error (j_wrt (fst jo)) i = Some w -> nth_error (j_vars (fst jo)) i = Some p -> hess_row s n w p
  end.

Lemma wrtok_grow dv more ks w : wrtok dv ks w -> wrtok (dv ++ more) ks w.
Proof.
  intros (A & B & ->). split; [exact A|]. split; [eapply List.Forall_impl; [|exact B]; intros k Hk; cbn beta in Hk |- *; rewrite app_length; lia|].
  apply map_ext_in. intros k Hk. rewrite List.Forall_forall in B. rewrite app_nth1; [reflexivity|apply B, Hk].
Qed.

Lemma objrel_grow s s' dv more o jo jo' : wf s -> wf s' -> grows s s' -> (forall m, is_kconst (st_nodes s) m -> st_val s' m = st_val s m) ->
  j_vars (fst jo') = j_vars (fst jo) -> j_wrt (fst jo') = j_wrt (fst jo) -> snd jo' = snd jo -> objrel s dv o jo -> objrel s' (dv ++ more) o jo'.
Proof.
  intros W W' G Hc Ev Ew Eb. destruct o as [xs ks|x ks lower]; cbn [objrel]; rewrite Ev, Ew, Eb.
  - intros (A & B & C). split; [exact A|]. split; [apply wrtok_grow, B|]. eapply Forall2_impl; [|exact C].
    intros x p (n & -> & Hn). exists n. split; [reflexivity|]. apply (stands_grow s); assumption.
  - intros (A & B & C & n & D & E). split; [exact A|]. split; [apply wrtok_grow, B|]. split; [exact C|]. exists n. split; [apply (stands_grow s); assumption|].
    intros i w p Hi Hp. apply (hess_row_grows s s'); auto; [exact (proj1 D)|]. eapply E; eauto.
Qed.

Definition uinv (u : ustate) (q : jstate K) dv : Prop :=
  linked (fst u) (fst (fst q)) (snd q) dv /\ jreach q /\ Forall2 (objrel (snd q) dv) (snd u) (snd (fst q)).

Lemma uinv_empty : uinv uempty jempty [].
Proof.
  split; [|split; [apply jreach_0|constructor]]. split; [apply hinv_empty|]. split; [reflexivity|]. split; [split; [constructor|intros k Hk; inversion Hk]|].
  split; [reflexivity|]. intros [|i] v n x E; discriminate.
Qed.

Lemma sstep_scope o se se' q e s dv : linked se e s dv -> sstep o se = Some (se', q) ->
  in_scope (length e) (hinj (K := K) o) /\ forall js, keeps_constants (e, js, s) (JH (hinj (K := K) o)).
Proof.
  intros L H. pose proof L as (_ & Ld & (ND & Hd) & Le & Hs).
  assert (G : forall i x, nth_error (se_exp se) i = Some x -> i < length e) by (intros i x E; rewrite Le; apply nth_error_Some; congruence).
  destruct o as [|c|u i|b i j|i j k|i|i j|i c|i x|i]; cbn [sstep] in H; cbn [hinj in_scope keeps_constants]; auto;
    repeat match type of H with (match nth_error ?a ?b with _ => _ end) = _ => let E := fresh "E" in destruct (nth_error a b) eqn:E; [|discriminate]; apply G in E as ?; cbn beta in H end;
    auto.
  split; [assumption|]. intros js. right. intros v n Ei En (nd & N1 & N2).
  destruct u as [k|c|u y|b y z]; try discriminate.
  pose proof (Hs i v n _ Ei En E) as (_ & _ & Hk & _). destruct (Hk k eq_refl) as [A B]. destruct (Hd k A) as ((nd' & N1' & N2') & _). rewrite <- B in N1'.
  rewrite N1 in N1'. injection N1' as <-. congruence.
Qed.

Lemma linked_grow se e s s' dv : linked se e s dv -> grows s s' -> leaves_kept s s' -> hinv e s' -> linked se e s' dv.
Proof.
  intros ((W & C & F) & Ld & (ND & Hd) & Le & Hs) G L H'. split; [exact H'|]. split; [exact Ld|]. split.
  - split; [exact ND|]. intros k Hk. destruct (Hd k Hk) as [A B]. split; [eapply kvar_grows; eauto|]. rewrite <- B. apply L. right. exact A.
  - split; [exact Le|]. intros i v n x Ei En Ex. rewrite <- (app_nil_r dv). apply (stands_grow s s' dv []); [exact W|apply H'|exact G| |eapply Hs; eauto].
    intros m Hm. apply L. left. exact Hm.
Qed.

Lemma gets_lt se rows xs : gets se rows = Some xs -> forall i, In i rows -> i < length se.
Proof.
  revert xs. induction rows as [|r rows IH]; intros xs H i; [intros []|]. cbn [gets] in H.
  destruct (nth_error se r) as [x|] eqn:E; [|discriminate]. destruct (gets se rows) as [ys|]; [|discriminate].
  intros [<-|I0]; [apply nth_error_Some; congruence|exact (IH _ eq_refl _ I0)].
Qed.
Lemma gets_stand se e s dv rows xs vars : linked se e s dv -> gets (se_exp se) rows = Some xs ->
  Forall2 (fun i p => exists v, nth_error e i = Some v /\ v_expr v = p) rows vars -> Forall2 (fun x p => exists n, p = Some n /\ stands s dv x n) xs vars.
Proof.
  intros L H F. revert xs H. induction F as [|r p rows vars (v & Ev & Ep) F IH]; intros xs H; cbn [gets] in H; [injection H as <-; constructor|].
  destruct (nth_error (se_exp se) r) as [x|] eqn:E; [|discriminate]. destruct (gets (se_exp se) rows) as [ys|]; [|discriminate]. injection H as <-.
  constructor; [|apply IH; reflexivity]. destruct (linked_get se e s dv r x L E) as (v' & n & Ev' & _ & En & St & _). exists n. split; [|exact St]. congruence.
Qed.

Lemma vars_decide se e s dv wrt xs ks : linked se e s dv -> gets (se_exp se) wrt = Some xs -> vars_of xs = Some ks ->
  Forall2 (fun i k => k < length dv /\ decides e s i (nth k dv 0)) wrt ks.
Proof.
  intros L. revert xs ks. induction wrt as [|r wrt IH]; intros xs ks H V; cbn [gets] in H; [injection H as <-; cbn in V; injection V as <-; constructor|].
  destruct (nth_error (se_exp se) r) as [x|] eqn:E; [|discriminate]. destruct (gets (se_exp se) wrt) as [ys|] eqn:E'; [|discriminate]. injection H as <-.
  cbn [vars_of] in V. destruct x as [k|c|u y|b y z]; try discriminate. destruct (vars_of ys) as [ks'|] eqn:V'; [|discriminate]. injection V as <-.
  constructor; [|eapply IH; eauto]. destruct (linked_get se e s dv r _ L E) as (v & n & Ev & _ & En & (_ & _ & Hk & _) & _).
  destruct (Hk k eq_refl) as [A B]. split; [exact A|]. exists v. split; [exact Ev|]. rewrite <- B. split; [exact En|]. rewrite B.
  destruct L as (_ & _ & (_ & Hd) & _). apply (Hd k A).
Qed.
Lemma wrt_decide se e s dv wrt ks : linked se e s dv -> wrt_of se wrt = Some ks ->
  NoDup ks /\ List.Forall (fun k => k < length dv) ks /\ Forall2 (decides e s) wrt (map (fun k => nth k dv 0) ks).
Proof.
  intros L. unfold wrt_of. destruct (gets (se_exp se) wrt) as [xs|] eqn:G; [|discriminate]. destruct (vars_of xs) as [ks'|] eqn:V; [|discriminate].
  destruct (list_eq_dec Nat.eq_dec (nodup Nat.eq_dec ks') ks') as [E|]; [|discriminate]. intros H. injection H as ->.
  split; [rewrite <- E; apply NoDup_nodup|]. pose proof (vars_decide _ _ _ _ _ _ _ L G V) as F. clear - F.
  induction F as [|i k wrt ks (A & B) F (IH1 & IH2)]; [split; constructor|]. split; constructor; auto.
Qed.

Lemma nodes_nodup dv ks : NoDup dv -> NoDup ks -> List.Forall (fun k => k < length dv) ks -> NoDup (map (fun k => nth k dv 0) ks).
Proof.
  intros ND N1 F. induction N1 as [|k ks Hk N1 IH]; cbn; [constructor|]. inversion F as [|? ? Hl F']; subst. constructor; [|apply IH, F'].
  intros I0. apply in_map_iff in I0 as (k' & E & Hk'). apply Hk. rewrite List.Forall_forall in F'. 
  rewrite (proj1 (NoDup_nth dv 0) ND k k' Hl (F' _ Hk') (eq_sym E)). exact Hk'.
Qed.

Lemma decides_fun e s wrt ws ws' : Forall2 (decides e s) wrt ws -> Forall2 (decides e s) wrt ws' -> ws = ws'.
Proof.
  intros F. revert ws'. induction F as [|i w wrt ws (v & A & B & _) F IH]; intros ws' F'; inversion F' as [|? w' ? ws0 (v' & A' & B' & _) F0]; subst; [reflexivity|].
  f_equal; [congruence|apply IH, F0].
Qed.

Lemma jset_F2 (P : uobj -> jobj K -> Prop) os js k o x : Forall2 P os js -> nth_error os k = Some o -> P o x -> Forall2 P os (jset js k x).
Proof.
  intros F. revert k. induction F as [|a b os js Hab F IH]; intros k E Hp; [constructor|]. destruct k; cbn in *; [injection E as <-; constructor; auto|constructor; auto].
Qed.
Lemma F2_nth {A B} (P : A -> B -> Prop) l l' i a : Forall2 P l l' -> nth_error l i = Some a -> exists b, nth_error l' i = Some b /\ P a b.
Proof. intros F. revert i. induction F; intros [|i] E; cbn in E; try discriminate; [injection E as <-; cbn; eauto|apply IHF, E]. Qed.

Section At.
Variables (se : senv) (e : henv) (js : list (jobj K)) (s : st K) (dv : list nat).
Hypothesis L : linked se e s dv.
Let nd k := nth k dv 0.
Let D k := k < length dv.
Let fits (rho : nat -> R) (lv : nat -> K) := agrees s lv /\ forall k, D k -> lv (nd k) = J (rho k).

Lemma fits_now : fits (se_val se) (st_val s).
Proof. destruct L as (_ & _ & (_ & Hd) & _). split; [intros m _; reflexivity|]. intros k Hk. apply (Hd k Hk). Qed.
Lemma fits_at k rho lv : D k -> fits rho lv -> lv (nd k) = J (rho k).
Proof. intros Hk [_ H]. apply H, Hk. Qed.
Lemma fits_upd k rho lv t : D k -> fits rho lv -> fits (upd rho k t) (upd lv (nd k) (J t)).
Proof.
  intros Hk [A H]. destruct L as (_ & _ & (ND & Hd) & _). split.
  - intros m Hm. unfold upd. destruct (Nat.eqb m (nd k)) eqn:E; [|apply A, Hm]. apply Nat.eqb_eq in E. subst m. exfalso.
    destruct (Hd k Hk) as ((n1 & E1 & K1) & _). destruct Hm as (n2 & E2 & K2). unfold nd in E2. congruence.
  - intros j Hj. unfold upd. destruct (Nat.eqb (nd j) (nd k)) eqn:E, (Nat.eqb j k) eqn:E'; auto.
    + apply Nat.eqb_eq in E. apply Nat.eqb_neq in E'. exfalso. apply E'. exact (proj1 (NoDup_nth dv 0) ND j k Hj Hk E).
    + apply Nat.eqb_neq in E. apply Nat.eqb_eq in E'. subst. congruence.
Qed.
Lemma smooth_open x k rho : D k -> (exists v, XSm rho x v) -> locally (rho k) (fun t => exists v, XSm (upd rho k t) x v).
Proof. intros _ (v & H). exact (XSm_locally rho k x v H). Qed.
Lemma comp x n : stands s dv x n -> forall rho lv, fits rho lv -> (exists v, XSm rho x v) -> exists v, fn x rho v /\ GSm (st_nodes s) lv n v.
Proof. intros (_ & _ & _ & Hg & _) rho lv [A H] (v & Sx). exists v. split; [apply XSm_XEv, Sx|]. apply (Hg lv rho A H v Sx). Qed.

Lemma jac_shown xs ks j : jacok s j -> List.Forall (is_kvar (st_nodes s)) (j_wrt j) -> objrel s dv (UJac xs ks) (j, false) -> jac_right J xs ks (se_val se) (jac_matrix s j).
Proof.
  intros Jo Kw (_ & (N1 & Fk & Ew) & Fx). cbn [fst snd] in *. pose proof L as ((W & C & _) & _ & (ND & Hd) & _). split.
  - intros i c y I0. apply (matrix_in s j i c y Jo) in I0 as [A B]. rewrite Ew, map_length in B. rewrite (Forall2_len _ _ _ Fx). auto.
  - intros i c x k v Hi Hc Sx. destruct (F2_nth _ _ _ _ _ Fx Hi) as (p & Hp & n & -> & St).
    assert (Hw : nth_error (j_wrt j) c = Some (nd k)) by (rewrite Ew; exact (map_nth_error (fun k => nth k dv 0) c ks Hc)).
    assert (Dk : D k) by (rewrite List.Forall_forall in Fk; apply Fk; eapply nth_error_In; eauto).
    assert (NDw : NoDup (j_wrt j)) by (rewrite Ew; apply nodes_nodup; assumption).
    destruct (comp x n St _ _ fits_now (ex_intro _ v Sx)) as (v' & _ & Gv).
    destruct (entry_derive s j i c (nd k) n v' W C Jo NDw Kw Hw (se_val se k) Hp Gv (fits_at k _ _ Dk fits_now)) as (d & Ed & Dd).
    exists d. split; [exact Ed|]. exact (pd_path (st_nodes s) fits nd D (fn x) n _ W fits_upd (smooth_open x) (comp x n St) k _ _ d Dk fits_now (ex_intro _ v Sx) Dd).
Qed.

Lemma hess_shown x ks lower j : jacok s j -> List.Forall (is_kvar (st_nodes s)) (j_wrt j) -> objrel s dv (UHess x ks lower) (j, lower) ->
  hess_right J x ks lower (se_val se) (if lower then lower_part (jac_matrix s j) else jac_matrix s j).
Proof.
  intros Jo Kw (_ & (N1 & Fk & Ew) & Lv & n & St & Rows). cbn [fst snd] in *. pose proof L as ((W & C & _) & _ & (ND & Hd) & _).
  set (m := if lower then lower_part (jac_matrix s j) else jac_matrix s j).
  assert (Em : forall i c, entry m i c = if andb lower (negb (Nat.leb c i)) then s_ofZ K 0 else entry (jac_matrix s j) i c).
  { intros i c. unfold m. destruct lower; cbn [andb]; [|reflexivity]. rewrite lower_entry. destruct (Nat.leb c i); reflexivity. }
  split; [|split].
  - intros i c y I0. assert (I1 : In (i, c, y) (jac_matrix s j)) by (unfold m in I0; destruct lower; [unfold lower_part in I0; apply filter_In in I0; apply I0|exact I0]).
    apply (matrix_in s j i c y Jo) in I1 as [A B]. rewrite Ew, map_length in B. rewrite Lv in A. auto.
  - intros Hl i c Hic. rewrite Em, Hl. rewrite (proj2 (Nat.leb_gt c i) Hic). cbn [andb negb]. apply f_ofZ.
  - intros v Sx.
    assert (Main : forall i c a b, nth_error ks i = Some a -> nth_error ks c = Some b -> exists d, entry (jac_matrix s j) i c = J d /\ pd b (pd a (fn x)) (se_val se) d).
    { intros i c a b Hi Hc.
      assert (Hwi : nth_error (j_wrt j) i = Some (nd a)) by (rewrite Ew; exact (map_nth_error (fun k => nth k dv 0) i ks Hi)).
      assert (Hwc : nth_error (j_wrt j) c = Some (nd b)) by (rewrite Ew; exact (map_nth_error (fun k => nth k dv 0) c ks Hc)).
      assert (Da : D a) by (rewrite List.Forall_forall in Fk; apply Fk; eapply nth_error_In; eauto).
      assert (Db : D b) by (rewrite List.Forall_forall in Fk; apply Fk; eapply nth_error_In; eauto).
      assert (NDw : NoDup (j_wrt j)) by (rewrite Ew; apply nodes_nodup; assumption).
      destruct (nth_error (j_vars j) i) as [p|] eqn:Hp.
      2:{ apply nth_error_None in Hp. assert (i < length ks) by (apply nth_error_Some; congruence). lia. }
      destruct (comp x n St _ _ fits_now (ex_intro _ v Sx)) as (v' & _ & Gv).
      destruct (hess_entry s j i c (nd a) (nd b) p n v' (se_val se b) W C Jo NDw Kw Hp Hwi Hwc (Rows _ _ _ Hwi Hp) Gv (fits_at b _ _ Db fits_now) (ex_intro _ _ (fits_at a _ _ Da fits_now))) as (h & d & Ed & Dh & Lh).
      exists d. split; [exact Ed|].
      exact (pd_path2 (st_nodes s) fits nd D (fn x) n _ W fits_upd fits_at (smooth_open x) (comp x n St) b a _ _ h d Db Da fits_now (ex_intro _ v Sx) Dh Lh). }
    split.
    + intros i c a b Hi Hc Ho. destruct (Main i c a b Hi Hc) as (d & Ed & Pd). exists d. rewrite Em.
      replace (andb lower (negb (Nat.leb c i))) with false by (destruct Ho as [->|Ho]; [reflexivity|rewrite (proj2 (Nat.leb_le c i) Ho); symmetry; apply andb_false_r]).
      split; [exact Ed|]. split; [exact Pd|]. exact (pd_sym (se_val se) a b x v d Sx Pd).
    + intros Hl i c Hi Hc. rewrite !Em, Hl. cbn [andb].
      destruct (nth_error ks i) as [a|] eqn:Ea; [|apply nth_error_None in Ea; lia]. destruct (nth_error ks c) as [b|] eqn:Eb; [|apply nth_error_None in Eb; lia].
      destruct (Main i c a b Ea Eb) as (d & -> & Pd). destruct (Main c i b a Eb Ea) as (d' & -> & Pd'). f_equal.
      apply (pd_sym (se_val se) a b x v d Sx) in Pd. eapply (pd_fun a (pd b (fn x))); [|exact Pd|exact Pd'].
      intros r p0 q0. apply pd_fun. intros r' p' q'. apply XEv_det.
Qed.
End At.


Lemma right_outs qs out : Forall2 right qs out -> Forall2 (right_out J) (map (fun p => QExp (fst p) (snd p)) qs) (map OVal out).
Proof. induction 1; cbn [map]; constructor; auto. Qed.

Lemma objs_grow s s' dv more os js : wf s -> wf s' -> grows s s' -> (forall m, is_kconst (st_nodes s) m -> st_val s' m = st_val s m) ->
  Forall2 (objrel s dv) os js -> Forall2 (objrel s' (dv ++ more)) os js.
Proof. intros W W' G Hc F. eapply Forall2_impl; [|exact F]. intros o jo. apply objrel_grow; auto. Qed.

Lemma ustep_ok o u u' qs q dv : uinv u q dv -> ustep o u = Some (u', qs) ->
  exists q' out dv', jscope q (jinj (K := K) o) /\ jstep (jinj o) q = Ok (q', out) /\ uinv u' q' dv' /\ Forall2 (right_out J) qs out.
Proof.
  destruct u as [se os], q as [[e js] s]. intros (L & Rq & Fo) Hst. cbn [fst snd] in L, Fo.
  pose proof (jreach_inv _ Rq) as I. pose proof I as (HI & A & Jo). pose proof HI as (W & C & F).
  destruct o as [h|rows wrt|f wrt lower|k|k]; cbn [ustep] in Hst; cbn [jinj]; [| | | |discriminate].
  - destruct (sstep h se) as [[se' q0]|] eqn:E; [|discriminate]. injection Hst as <- <-.
    destruct (sstep_scope h se se' q0 e s dv L E) as [Sc Kc].
    destruct (sstep_ok_dv h se se' q0 e s dv L E) as (e' & s' & out & dv' & Eh & L' & Rt & Hdv).
    assert (Ej : jstep (JH (hinj h)) (e, js, s) = Ok ((e', js, s'), map OVal out)) by (cbn [jstep]; rewrite Eh; reflexivity).
    exists (e', js, s'), (map OVal out), dv'. split; [exact Sc|]. split; [exact Ej|]. split; [|apply right_outs, Rt].
    split; [exact L'|]. split; [exact (jreach_step (JH (hinj h)) (e, js, s) _ _ Rq Sc (Kc js) Ej)|]. cbn [fst snd].
    destruct (hstep_grows _ e s e' s' out HI Sc Eh) as [G _]. pose proof L' as ((W' & _) & _).
    assert (Hcs : js <> [] -> forall m, is_kconst (st_nodes s) m -> st_val s' m = st_val s m).
    { intros Hne m Hm. pose proof (hstep_frame _ e s e' s' out HI Sc Eh) as Fr. specialize (Kc js). destruct h; cbn [hinj] in Fr, Kc; try (apply Fr; left; exact Hm).
      destruct Kc as [->|Kc]; [congruence|]. destruct Fr as (v0 & n & Ei & En & N & Hv). rewrite Hv.
      destruct (Nat.eqb m n) eqn:X; [|reflexivity]. apply Nat.eqb_eq in X. subst m. exfalso. apply (Kc v0 n Ei En Hm). }
    destruct js as [|jo js]; [inversion Fo; constructor|].
    assert (Hm : exists more, dv' = dv ++ more) by (destruct Hdv as [->|(p & ->)]; [exists []; rewrite app_nil_r; reflexivity|eauto]). destruct Hm as (more & ->).
    apply (objs_grow s s'); auto. apply Hcs. discriminate.
  - destruct (gets (se_exp se) rows) as [xs|] eqn:Eg; [|discriminate]. destruct (wrt_of se wrt) as [ks|] eqn:Ew; [|discriminate]. injection Hst as <- <-.
    destruct (wrt_decide se e s dv wrt ks L Ew) as (N1 & Fk & Fw).
    assert (Sc : jscope (e, js, s) (JMake rows wrt)).
    { split; [intros i Hi; pose proof L as (_ & _ & _ & Le & _); rewrite Le; eapply gets_lt; eauto|].
      intros i Hi. apply In_nth_error in Hi as (a & Ha). destruct (F2_nth _ _ _ _ _ Fw Ha) as (w & _ & Hd). eauto. }
    destruct (jstep_ok (JMake rows wrt) _ I Sc Logic.I) as (q' & out & E & I').
    destruct (jmake_is rows wrt e js s q' out I Sc E) as (j & s1 & -> & -> & N & Fr & Fd).
    destruct (derive_frame _ e js s _ _ _ _ I Sc Logic.I E) as (G & Lk & _).
    assert (R' : jreach (e, js ++ [(j, false)], s1)) by (exact (jreach_step _ (e, js, s) _ _ Rq Sc Logic.I E)).
    pose proof I' as (HI' & _). pose proof HI' as (W' & _).
    pose proof (linked_grow se e s s1 dv L G Lk HI') as L'.
    exists (e, js ++ [(j, false)], s1), [], dv. split; [exact Sc|]. split; [exact E|]. split; [|constructor]. split; [exact L'|]. split; [exact R'|]. cbn [fst snd].
    apply Forall2_app.
    + rewrite <- (app_nil_r dv). apply (objs_grow s s1); auto.
    + constructor; [|constructor]. cbn [objrel fst snd]. split; [reflexivity|]. split; [split; [exact N1|split; [exact Fk|]]; exact (decides_fun _ _ _ _ _ Fd Fw)|].
      eapply gets_stand; eauto.
  - destruct (nth_error (se_exp se) f) as [x|] eqn:Ef; [|discriminate]. destruct (wrt_of se wrt) as [ks|] eqn:Ew; [|discriminate]. injection Hst as <- <-.
    destruct (wrt_decide se e s dv wrt ks L Ew) as (N1 & Fk & Fw).
    destruct (linked_get se e s dv f x L Ef) as (v & n & Ev & Hv & En & St & _).
    assert (Sc : jscope (e, js, s) (JHess f wrt lower)).
    { split; [apply nth_error_Some; congruence|].
      intros i Hi. apply In_nth_error in Hi as (a & Ha). destruct (F2_nth _ _ _ _ _ Fw Ha) as (w & _ & Hd). eauto. }
    destruct (jstep_ok (JHess f wrt lower) _ I Sc Logic.I) as (q' & out & E & I').
    assert (R' : jreach q') by (exact (jreach_step _ (e, js, s) _ _ Rq Sc Logic.I E)).
    pose proof E as E0. cbn [jstep] in E. unfold hexpr in E at 1. rewrite Hv in E. cbn [obind] in E.
    destruct (wrt_get e s wrt (proj2 Sc)) as (ws & E2 & Kw & Fd). rewrite E2 in E. cbn [obind] in E. rewrite En in E.
    pose proof (decides_fun _ _ _ _ _ Fd Fw) as ->. set (nodes := map (fun k => nth k dv 0) ks) in *.
    pose proof L as (_ & _ & (NDv & _) & _). assert (NDn : NoDup nodes) by (apply nodes_nodup; assumption).
    destruct (hess_make (Some n) (map Some nodes) s) as [[j s1]| | |] eqn:Eh; cbn [obind] in E; try discriminate. injection E as <- <-.
    pose proof (hess_rows s n nodes j s1 W C A (proj1 St) Kw NDn Eh) as Rows.
    destruct (hess_make_ok s (Some n) nodes W C A (proj1 St)) as (l & sa & g & sb & j' & s' & _ & _ & _ & _ & _ & _ & _ & _ & _ & _ & Lg & E3 & _ & _ & _ & _ & Jv & Jw & _).
    { eapply List.Forall_impl; [|exact Kw]. intros m. apply kvar_wrt, W. }
    rewrite Eh in E3. injection E3 as <- <-.
    destruct (derive_frame _ e js s _ _ _ _ I Sc Logic.I E0) as (G & Lk & _).
    pose proof I' as (HI' & _). pose proof HI' as (W' & _).
    pose proof (linked_grow se e s s1 dv L G Lk HI') as L'.
    assert (Kc : forall m, is_kconst (st_nodes s) m -> st_val s1 m = st_val s m) by (intros m Hm; apply Lk; left; exact Hm).
    exists (e, js ++ [(j, lower)], s1), [], dv. split; [exact Sc|]. split; [exact E0|]. split; [|constructor]. split; [exact L'|]. split; [exact R'|]. cbn [fst snd].
    apply Forall2_app; [rewrite <- (app_nil_r dv); apply (objs_grow s s1); auto|].
    constructor; [|constructor]. cbn [objrel fst snd]. split; [reflexivity|]. split; [split; [exact N1|split; [exact Fk|exact Jw]]|].
    split; [rewrite Jv, Lg; unfold nodes; apply map_length|]. exists n. split; [rewrite <- (app_nil_r dv); apply (stands_grow s s1); auto|].
    intros i w p Hi Hp. rewrite Jw in Hi. eapply Rows; eauto.
  - destruct (nth_error os k) as [ob|] eqn:Ek; [|discriminate]. injection Hst as <- <-.
    destruct (F2_nth _ _ _ _ _ Fo Ek) as ([j b] & Ej & Rel).
    assert (Sc : jscope (e, js, s) (JValue k)) by (cbn [jscope]; apply nth_error_Some; congruence).
    pose proof (nth_Forall _ _ _ _ Jo Ej) as [Hj Hw]. cbn [fst] in Hj, Hw.
    destruct (jac_value_ok s j W C Hj) as (j' & s' & E & (N & Lk) & _ & _ & Evv & Eww & _ & _).
    set (mm := jac_matrix s j) in *.
    assert (Es : jstep (JValue k) (e, js, s) = Ok ((e, jset js k (j', b), s'), [OMat (if b then lower_part mm else mm)])) by (cbn [jstep]; rewrite Ej, E; reflexivity).
    pose proof (jreach_step (JValue k) (e, js, s) _ _ Rq Sc Logic.I Es) as R'. pose proof (jreach_inv _ R') as (HI' & _). pose proof HI' as (W' & _).
    pose proof (grows_same s s' N) as G.
    pose proof (linked_grow se e s s' dv L G Lk HI') as L'.
    assert (Kc : forall m, is_kconst (st_nodes s) m -> st_val s' m = st_val s m) by (intros m Hm; apply Lk; left; exact Hm).
    exists (e, jset js k (j', b), s'), [OMat (if b then lower_part mm else mm)], dv. split; [exact Sc|]. split; [exact Es|]. split; [split; [exact L'|split; [exact R'|]]|].
    + cbn [fst snd]. eapply jset_F2; [rewrite <- (app_nil_r dv); apply (objs_grow s s'); eassumption|exact Ek|].
      rewrite <- (app_nil_r dv). apply (objrel_grow s s' dv [] ob (j, b)); auto.
    + constructor; [|constructor]. cbn [right_out]. destruct ob as [xs ks|x ks lower].
      * pose proof Rel as (Eb & _). cbn [snd] in Eb. subst b. unfold mm. eapply jac_shown; eauto.
      * pose proof Rel as (Eb & _). cbn [snd] in Eb. subst b. unfold mm. eapply hess_shown; eauto.
Qed.

Lemma urun_ok l : forall u u' qs q dv, uinv u q dv -> urun l u = Some (u', qs) ->
  exists q' out, jruns q (map (jinj (K := K)) l) q' out /\ Forall2 (right_out J) qs out.
Proof.
  induction l as [|o l IH]; intros u u' qs q dv I H; cbn [urun] in H.
  - injection H as <- <-. exists q, []. split; constructor.
  - destruct (ustep o u) as [[u1 a]|] eqn:E; [|discriminate]. destruct (urun l u1) as [[u2 b]|] eqn:E2; [|discriminate]. injection H as <- <-.
    destruct (ustep_ok o u u1 a q dv I E) as (q1 & out & dv1 & Sc & Es & I1 & R1).
    destruct (IH u1 u2 b q1 dv1 I1 E2) as (q2 & out2 & Rn & R2).
    exists q2, (out ++ out2). split; [econstructor; eauto|apply Forall2_app; assumption].
Qed.

Lemma user_derivatives l u qs : urun l uempty = Some (u, qs) ->
  exists q out, jruns jempty (map (jinj (K := K)) l) q out /\ Forall2 (right_out J) qs out.
Proof. apply (urun_ok l uempty u qs jempty []), uinv_empty. Qed.
End User.
