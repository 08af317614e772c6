(** Proofs for C31-C33, continued: programs refine what the user wrote. *)
From Coq Require Import ZArith Reals List Bool Arith Lia Lra.
From Verif Require Import Base ExprModel GraphSpec GraphProofs ExprInv VarModel VarProofs ExprReal MathSpec MathProofs VarSpec Faith SmoothGraph HistProofs
  ProblemModel ProblemSpec ProblemProofs ProblemProofs2.
Import ListNotations.

Local Open Scope nat_scope.
Section Build3.
Context {SK : sops} {FK : faith SK} {FK2 : faith2 SK}.

(** A slot with a known meaning that the user cannot reach. *)
Definition hid (us : list nat) (E : list uexp) (i : nat) (x : uexp) : Prop := at_ E i x /\ ~ In i us.
Definition hid_rel (us : list nat) (E : list uexp) (b : bool) (i : nat) (r : urel) : Prop := is_eq (r_cmp r) = b /\ hid us E i (rexp r).

Definition goal_exp (g : bool * uexp) : uexp := if fst g then XUn UNeg (snd g) else snd g.

Record tables (sp : spec) (p : prog SK) (E : list uexp) : Prop := mkT {
  t_nodup : NoDup (p_user p);
  t_user : Forall2 (at_ E) (p_user p) (se_exp (sp_se sp));
  t_cons : Forall2 (fun c sc => fst c = fst sc /\ Forall2 (hid_rel (p_user p) E (fst sc)) (snd c) (snd sc)) (p_cons p) (sp_cons sp);
  t_dec : Forall2 (fun i k => hid (p_user p) E i (XVar k)) (p_dec p) (sp_dec sp);
  t_f : match p_f p, sp_goal sp with
        | None, None => True | Some i, Some g => hid (p_user p) E i (goal_exp g) | _, _ => False end;
  t_eqs : Forall2 (hid_rel (p_user p) E true) (p_eq p) (sp_eqs sp);
  t_ineqs : Forall2 (hid_rel (p_user p) E false) (p_ineq p) (sp_ineqs sp) }.

Definition plink (sp : spec) (p : prog SK) : Prop :=
  exists E dv, linked (mkSE E (se_n (sp_se sp)) (se_val (sp_se sp))) (p_env p) (p_st p) dv /\ tables sp p E.

Lemma hid_more us E new more i x : (forall k, In k new -> length E <= k) -> hid us E i x -> hid (us ++ new) (E ++ more) i x.
Proof.
  intros H [A B]. split; [apply at_more, A|]. intros C. apply in_app_or in C as [C|C]; [auto|].
  specialize (H i C). pose proof (at_lt _ _ _ A). lia.
Qed.

Lemma user_lt E us xs k : Forall2 (at_ E) us xs -> In k us -> k < length E.
Proof. intros F H. destruct (Forall2_In_l _ _ _ _ F H) as (x & _ & A). exact (at_lt _ _ _ A). Qed.

Lemma fresh_hid us xs E more i x : Forall2 (at_ E) us xs -> fresh_at E more i x -> hid us (E ++ more) i x.
Proof. intros F [A L]. split; [exact A|]. intros C. pose proof (user_lt _ _ _ _ F C). lia. Qed.

Lemma nodup_app {A} (l l' : list A) : NoDup l -> NoDup l' -> (forall k, In k l -> In k l' -> False) -> NoDup (l ++ l').
Proof.
  intros H H' D. induction H as [|x l Hx H IH]; cbn; [exact H'|]. constructor.
  - intros C. apply in_app_or in C as [C|C]; [auto|]. apply (D x); [left; reflexivity|exact C].
  - apply IH. intros k K. apply D. right. exact K.
Qed.

(** New variables, some of them the user's, leave the tables alone. *)
Lemma tables_more sp p E more new xs se' e s : tables sp p E -> NoDup new -> (forall k, In k new -> length E <= k) ->
  Forall2 (at_ (E ++ more)) new xs -> se_exp se' = se_exp (sp_se sp) ++ xs ->
  tables (set_se sp se') (add_user (set_mem p e s) new) (E ++ more).
Proof.
  intros T ND HL F Ex. destruct T. constructor; cbn [add_user set_mem p_user p_cons p_dec p_f p_eq p_ineq set_se sp_se sp_cons sp_dec sp_goal sp_eqs sp_ineqs].
  - apply nodup_app; auto. intros k K1 K2. specialize (HL k K2). pose proof (user_lt _ _ _ _ t_user0 K1). lia.
  - rewrite Ex. apply Forall2_app; [|exact F]. eapply Forall2_impl; [|exact t_user0]. intros a b. apply at_more.
  - eapply Forall2_impl; [|exact t_cons0]. intros c sc [H1 H2]. split; [exact H1|]. eapply Forall2_impl; [|exact H2].
    intros i r [K1 K2]. split; [exact K1|]. apply hid_more; assumption.
  - eapply Forall2_impl; [|exact t_dec0]. intros i k. apply hid_more, HL.
  - destruct (p_f p), (sp_goal sp); auto. apply hid_more; assumption.
  - eapply Forall2_impl; [|exact t_eqs0]. intros i r [K1 K2]. split; [exact K1|]. apply hid_more; assumption.
  - eapply Forall2_impl; [|exact t_ineqs0]. intros i r [K1 K2]. split; [exact K1|]. apply hid_more; assumption.
Qed.

Lemma tables_mem sp p E more se' e s : tables sp p E -> se_exp se' = se_exp (sp_se sp) ->
  tables (set_se sp se') (set_mem p e s) (E ++ more).
Proof.
  intros T Ex. assert (H := tables_more sp p E more [] [] se' e s T (NoDup_nil _)).
  assert (G : tables (set_se sp se') (add_user (set_mem p e s) []) (E ++ more)).
  { apply H; [intros k []|constructor|rewrite app_nil_r; exact Ex]. }
  destruct G. unfold add_user, set_mem in *. cbn in *. rewrite app_nil_r in *. constructor; assumption.
Qed.

Lemma tables_mem0 sp p E more e s : tables sp p E -> tables sp (set_mem p e s) (E ++ more).
Proof. intros T. assert (H := tables_mem sp p E more (sp_se sp) e s T eq_refl). destruct sp; exact H. Qed.

(** Replacing the meaning of a user variable. *)
Lemma tables_set sp p E k i y se' e s : tables sp p E -> nth_error (p_user p) i = Some k ->
  se_exp se' = sset (se_exp (sp_se sp)) i y -> tables (set_se sp se') (set_mem p e s) (sset E k y).
Proof.
  intros T Hk Ex. destruct T.
  assert (KL : k < length E) by (eapply user_lt; [exact t_user0|eapply nth_error_In; eauto]).
  assert (HH : forall j x, hid (p_user p) E j x -> hid (p_user p) (sset E k y) j x).
  { intros j x [A B]. split; [|exact B]. unfold at_. rewrite sset_nth_ne; [exact A|]. intros ->. apply B. eapply nth_error_In; eauto. }
  constructor; cbn [set_mem p_user p_cons p_dec p_f p_eq p_ineq set_se sp_se sp_cons sp_dec sp_goal sp_eqs sp_ineqs].
  - exact t_nodup0.
  - rewrite Ex. apply Forall2_nth; [rewrite sset_length; eapply Forall2_length; eauto|].
    intros j a x Ha Hx. destruct (Nat.eq_dec j i) as [->|D].
    + rewrite Hk in Ha. injection Ha as <-. rewrite sset_nth in Hx.
      * injection Hx as <-. apply sset_nth, KL.
      * rewrite <- (Forall2_length _ _ _ t_user0). apply nth_error_Some. congruence.
    + rewrite sset_nth_ne in Hx by exact D.
      assert (a <> k).
      { intros ->. apply D. eapply (proj1 (NoDup_nth_error (p_user p))); [exact t_nodup0|apply nth_error_Some; congruence|congruence]. }
      unfold at_. rewrite sset_nth_ne by assumption.
      clear - t_user0 Ha Hx. revert j Ha Hx. induction t_user0; intros [|j] Ha Hx; cbn in *; try discriminate; [congruence|eauto].
  - eapply Forall2_impl; [|exact t_cons0]. intros c sc [H1 H2]. split; [exact H1|]. eapply Forall2_impl; [|exact H2].
    intros j r [K1 K2]. split; auto.
  - eapply Forall2_impl; [|exact t_dec0]. intros j x. apply HH.
  - destruct (p_f p), (sp_goal sp); auto.
  - eapply Forall2_impl; [|exact t_eqs0]. intros j r [K1 K2]. split; auto.
  - eapply Forall2_impl; [|exact t_ineqs0]. intros j r [K1 K2]. split; auto.
Qed.

Lemma Forall2_nth_r {A B} (R : A -> B -> Prop) l l' k b : Forall2 R l l' -> nth_error l' k = Some b -> exists a, nth_error l k = Some a /\ R a b.
Proof. intros F. revert k. induction F; intros [|k] E; cbn in *; try discriminate; [injection E as <-; eauto|eauto]. Qed.

Lemma uslot_get sp p E i x : tables sp p E -> nth_error (se_exp (sp_se sp)) i = Some x -> exists k, uslot p i = Ok k /\ nth_error (p_user p) i = Some k /\ nth_error E k = Some x.
Proof.
  intros T H. destruct (Forall2_nth_r _ _ _ _ _ (t_user _ _ _ T) H) as (k & Hk & A). exists k. unfold uslot. rewrite Hk. auto.
Qed.

(** A statement on the user's variables. *)
Lemma hop_lift sp p E o se' q n v : tables sp p E -> n = se_n (sp_se sp) -> v = se_val (sp_se sp) -> sstep o (sp_se sp) = Some (se', q) ->
  exists o' E', hop_at (uslot p) (hinj o) = Ok (hinj o') /\ creates (hinj o') = creates o /\ sstep o' (mkSE E n v) = Some (mkSE E' (se_n se') (se_val se'), q) /\
    ((creates o = true /\ exists x, E' = E ++ [x] /\ se_exp se' = se_exp (sp_se sp) ++ [x]) \/
     (creates o = false /\ E' = E /\ se_exp se' = se_exp (sp_se sp)) \/
     (creates o = false /\ exists i k y, nth_error (p_user p) i = Some k /\ E' = sset E k y /\ se_exp se' = sset (se_exp (sp_se sp)) i y)).
Proof.
  intros T -> -> H.
  destruct o as [|c|u i|b i j|i j k|i|i j|i c|i x|i]; cbn [sstep hinj hop_at creates] in *;
    repeat match type of H with
    | match nth_error ?l ?i with _ => _ end = Some _ =>
        let x := fresh "x" in let k := fresh "k" in let A := fresh "A" in let B := fresh "B" in let C := fresh "C" in
        destruct (nth_error l i) as [x|] eqn:?; [|discriminate];
        match goal with Hx : nth_error l i = Some x |- _ => destruct (uslot_get sp p E i x T Hx) as (k & A & B & C); rewrite ?A; cbn [obind] end
    end.
  - injection H as <- <-. exists HNew, (E ++ [XVar (se_n (sp_se sp))]). repeat split. left. split; [reflexivity|]. exists (XVar (se_n (sp_se sp))). auto.
  - injection H as <- <-. exists (HConst c), (E ++ [XConst c]). repeat split. left. split; [reflexivity|]. eexists. auto.
  - injection H as <- <-. exists (HUn u k), (E ++ [XUn u x]). split; [reflexivity|]. split; [reflexivity|]. cbn [sstep se_exp]. rewrite C.
    split; [reflexivity|]. left. split; [reflexivity|]. eexists. auto.
  - injection H as <- <-. exists (HBin b k k0), (E ++ [XBin b x x0]). split; [reflexivity|]. split; [reflexivity|]. cbn [sstep se_exp]. rewrite C, C0.
    split; [reflexivity|]. left. split; [reflexivity|]. eexists. auto.
  - injection H as <- <-. exists (HHypot3 k0 k1 k2), (E ++ [XUn USqrt (XBin BAdd (XBin BAdd (xsq x) (xsq x0)) (xsq x1))]). split; [reflexivity|]. split; [reflexivity|]. cbn [sstep se_exp]. rewrite C, C0, C1.
    split; [reflexivity|]. left. split; [reflexivity|]. eexists. auto.
  - injection H as <- <-. exists (HCopy k), (E ++ [x]). split; [reflexivity|]. split; [reflexivity|]. cbn [sstep se_exp]. rewrite C.
    split; [reflexivity|]. left. split; [reflexivity|]. eexists. auto.
  - injection H as <- <-. exists (HAssign k k0), (sset E k x0). split; [reflexivity|]. split; [reflexivity|]. cbn [sstep se_exp]. rewrite C, C0.
    split; [reflexivity|]. right. right. split; [reflexivity|]. exists i, k, x0. auto.
  - injection H as <- <-. exists (HAssignScalar (S := R_ops) k c), (sset E k (XConst c)). split; [reflexivity|]. split; [reflexivity|]. cbn [sstep se_exp]. rewrite C.
    split; [reflexivity|]. right. right. split; [reflexivity|]. exists i, k, (XConst c). auto.
  - destruct x0 as [m| | |]; try discriminate. injection H as <- <-. exists (HSet (S := R_ops) k x), E. split; [reflexivity|]. split; [reflexivity|]. cbn [sstep se_exp]. rewrite C.
    split; [reflexivity|]. right. left. auto.
  - injection H as <- <-. exists (HValue k), E. split; [reflexivity|]. split; [reflexivity|]. cbn [sstep se_exp]. rewrite C.
    split; [reflexivity|]. right. left. auto.
Qed.

Lemma slots_get sp p E l : tables sp p E -> (forall i, In i l -> i < length (se_exp (sp_se sp))) ->
  exists l', slots (uslot p) l = Ok l' /\ Forall2 (fun i k => nth_error (p_user p) i = Some k) l l'.
Proof.
  intros T. induction l as [|i l IH]; intros H; cbn [slots]; [exists []; auto|].
  destruct (nth_error (se_exp (sp_se sp)) i) as [x|] eqn:Ex.
  - destruct (uslot_get sp p E i x T Ex) as (k & A & B & C). rewrite A. cbn [obind].
    destruct IH as (l' & H1 & H2). { intros; apply H; right; assumption. } rewrite H1. cbn [obind]. exists (k :: l'). auto.
  - apply nth_error_None in Ex. specialize (H i (or_introl eq_refl)). lia.
Qed.

Lemma operand_get sp p E o : tables sp p E -> owf (length (se_exp (sp_se sp))) o = true ->
  exists o', operand_at (uslot p) (oinj o) = Ok o' /\ op_link (sp_se sp) E o o'.
Proof.
  intros T H. destruct o as [i|c|r c l|r c l]; cbn [owf oinj operand_at] in *.
  - apply Nat.ltb_lt in H. destruct (nth_error (se_exp (sp_se sp)) i) as [x|] eqn:Ex; [|apply nth_error_None in Ex; lia].
    destruct (uslot_get sp p E i x T Ex) as (k & A & B & C). rewrite A. cbn [obind]. exists (OVar k). split; [reflexivity|].
    split; [reflexivity|]. intros r c y Hy. cbn [oexp opslots] in *. unfold at_. congruence.
  - exists (ONum (inj c)). split; [reflexivity|]. split; [reflexivity|]. intros a b y Hy. cbn in *. exists c. split; congruence.
  - apply andb_prop in H as [H1 H2]. rewrite forallb_forall in H2.
    destruct (slots_get sp p E l T) as (l' & H3 & H4). { intros i Hi. apply Nat.ltb_lt, H2, Hi. }
    rewrite H3. cbn [obind]. exists (OVars r c l'). split; [reflexivity|]. split; [reflexivity|].
    intros a b y Hy. cbn [oexp opslots] in *. destruct (nth_error l (a * c + b)) as [i|] eqn:Ei; [|discriminate].
    destruct (uslot_get sp p E i y T Hy) as (k & A & B & C).
    assert (G : nth_error l' (a * c + b) = Some k).
    { clear - H4 Ei B. revert Ei. generalize (a * c + b). induction H4; intros [|m] Ei; cbn in *; try discriminate; [congruence|auto]. }
    exists k. split; [exact G|exact C].
  - exists (ONums r c (map inj l)). split; [reflexivity|]. split; [reflexivity|]. intros a b y Hy. cbn [oexp opslots] in *.
    destruct (nth_error l (a * c + b)) as [z|] eqn:Ez; [|discriminate]. exists z. rewrite (map_nth_error inj _ _ Ez). split; [reflexivity|congruence].
Qed.

Lemma rels_owf se c a b l : rels se c a b = Some l -> owf (length (se_exp se)) a = true /\ owf (length (se_exp se)) b = true.
Proof. unfold rels. destruct (owf _ a), (owf _ b); cbn; try discriminate; auto. Qed.

Lemma pcons_get sp p E k c : tables sp p E -> nth_error (sp_cons sp) k = Some c ->
  exists c', pcons p k = Ok c' /\ fst c' = fst c /\ Forall2 (hid_rel (p_user p) E (fst c)) (snd c') (snd c).
Proof.
  intros T H. destruct (Forall2_nth_r _ _ _ _ _ (t_cons _ _ _ T) H) as (c' & Hc & A & B). exists c'. unfold pcons, cons in *. rewrite Hc. auto.
Qed.

Lemma pconss_get sp p E ks l : tables sp p E -> all_opt (map (nth_error (sp_cons sp)) ks) = Some l ->
  exists l', pconss p ks = Ok l' /\ Forall2 (fun c sc => fst c = fst sc /\ Forall2 (hid_rel (p_user p) E (fst sc)) (snd c) (snd sc)) l' l.
Proof.
  intros T. revert l. induction ks as [|k ks IH]; intros l H; cbn [map all_opt pconss] in *.
  - injection H as <-. exists []. auto.
  - destruct (nth_error (sp_cons sp) k) as [c|] eqn:Ec; [|discriminate].
    destruct (all_opt (map (nth_error (sp_cons sp)) ks)) as [l1|]; [|discriminate]. injection H as <-.
    destruct (pcons_get sp p E k c T Ec) as (c' & A & B & C). rewrite A. cbn [obind].
    destruct (IH l1 eq_refl) as (l' & D & F). rewrite D. cbn [obind]. exists (c' :: l'). auto.
Qed.

Lemma add_cons_tables sp p E more b l c : tables sp p (E ++ more) -> Forall2 (at_ E) (p_user p) (se_exp (sp_se sp)) -> cons_fresh E more b l c -> List.Forall (fun r => is_eq (r_cmp r) = b) l ->
  tables (new_cons sp b l) (add_cons p c) (E ++ more).
Proof.
  intros T U [H1 H2] H3. destruct T. constructor; cbn [new_cons add_cons p_user p_cons p_dec p_f p_eq p_ineq sp_se sp_cons sp_dec sp_goal sp_eqs sp_ineqs]; auto.
  apply Forall2_app; [exact t_cons0|]. constructor; [|constructor]. cbn [fst snd]. split; [exact H1|].
  revert H3. induction H2 as [|i r ks rs K1 K2 IH]; intros H3; constructor;
    [split; [exact (Forall_inv H3)|eapply fresh_hid; eauto]|apply IH, (Forall_inv_tail H3)].
Qed.

(** Every statement does what it means. *)
Lemma spec_step_ok o sp sp' q p : plink sp p -> spec_step o sp = Some (sp', q) ->
  exists p' out, pstep (pinj o) p = Ok (p', out) /\ plink sp' p' /\ Forall2 pright q out.
Proof.
  intros (E & dv & L & T) H. pose proof (t_user _ _ _ T) as U. set (n := se_n (sp_se sp)) in *. set (v := se_val (sp_se sp)) in *.
  destruct o as [o|c a b|l x u|b ks|k|rows cols|rows|i|i|k]; cbn [spec_step pinj pstep] in *.
  - (* PH *)
    destruct (sstep o (sp_se sp)) as [[se' q']|] eqn:Es; [|discriminate]. injection H as <- <-.
    destruct (hop_lift sp p E o se' q' n v T eq_refl eq_refl Es) as (o' & E' & Ho & Hc & Hs & Cases).
    rewrite Ho. cbn [obind]. destruct (sstep_ok o' _ _ _ _ _ _ L Hs) as (e' & s' & out & dv' & Eh & L' & A).
    rewrite Eh. cbn [obind]. rewrite Hc. eexists _, _. split; [reflexivity|]. split.
    + exists E', dv'. destruct Cases as [(-> & x & -> & Ex)|[(-> & -> & Ex)|(-> & i & k & y & Hk & -> & Ex)]];
        (split; [cbn [set_se sp_se add_user set_mem p_env p_st]; exact L'|]).
      * pose proof (linked_length _ _ _ _ L) as LL. cbn [se_exp] in LL.
        apply (tables_more sp p E [x] [length (p_env p)] [x]); auto.
        -- constructor; [intros []|constructor].
        -- intros k [<-|[]]. lia.
        -- constructor; [|constructor]. unfold at_. rewrite nth_error_app2 by lia. rewrite LL, Nat.sub_diag. reflexivity.
      * rewrite <- (app_nil_r E). apply tables_mem; assumption.
      * eapply tables_set; eauto.
    + clear -A. induction A; cbn; constructor; auto.
  - (* PCompare *)
    destruct (rels (sp_se sp) c a b) as [l|] eqn:Er; [|discriminate]. injection H as <- <-.
    destruct (rels_owf _ _ _ _ _ Er) as [Wa Wb].
    destruct (operand_get sp p E a T Wa) as (a' & Ea & La). destruct (operand_get sp p E b T Wb) as (b' & Eb & Lb).
    rewrite Ea. cbn [obind]. rewrite Eb. cbn [obind].
    destruct (compare_trip (sp_se sp) c a b a' b' E n v l La Lb Er _ _ _ L) as (k & e' & s' & dv' & more & Ec & L' & Hk & Hf).
    rewrite Ec. cbn [obind]. eexists _, _. split; [reflexivity|]. split; [|constructor].
    exists (E ++ more), dv'. split; [exact L'|]. apply add_cons_tables; auto. apply tables_mem0, T.
  - (* PBounds *)
    destruct (rels (sp_se sp) CLe l x) as [r1|] eqn:E1; [|discriminate].
    destruct (rels (sp_se sp) CLe x u) as [r2|] eqn:E2; [|discriminate]. injection H as <- <-.
    destruct (rels_owf _ _ _ _ _ E1) as [Wl Wx]. destruct (rels_owf _ _ _ _ _ E2) as [_ Wu].
    destruct (operand_get sp p E l T Wl) as (l' & El & Ll). destruct (operand_get sp p E x T Wx) as (x' & Ex & Lx).
    destruct (operand_get sp p E u T Wu) as (u' & Eu & Lu).
    rewrite El. cbn [obind]. rewrite Ex. cbn [obind]. rewrite Eu. cbn [obind].
    destruct (bounds_trip (sp_se sp) l x u l' x' u' E n v r1 r2 Ll Lx Lu E1 E2 _ _ _ L) as (k & e' & s' & dv' & more & Ec & L' & Hk & Hf).
    rewrite Ec. cbn [obind]. eexists _, _. split; [reflexivity|]. split; [|constructor].
    exists (E ++ more), dv'. split; [exact L'|]. apply add_cons_tables; auto. apply tables_mem0, T.
  - (* PConcat *)
    destruct (all_opt (map (nth_error (sp_cons sp)) ks)) as [l|] eqn:El; [|discriminate].
    destruct (forallb (fun c => Bool.eqb (fst c) b) l) eqn:Eb; [|discriminate]. injection H as <- <-.
    destruct (pconss_get sp p E ks l T El) as (l' & E1 & F). rewrite E1. cbn [obind].
    assert (G : Forall2 (fun c sc => cons_at E (fst sc) (snd sc) c) l' l).
    { eapply Forall2_impl; [|exact F]. intros c sc [H1 H2]. split; [exact H1|]. eapply Forall2_impl; [|exact H2].
      intros i r (_ & A & _). exact A. }
    destruct (concat_trip E n v b l' l Eb G _ _ _ L) as (k & e' & s' & dv' & more & Ec & L' & Hk).
    rewrite Ec. cbn [obind]. eexists _, _. split; [reflexivity|]. split; [|constructor].
    exists (E ++ more), dv'. split; [exact L'|]. apply add_cons_tables; auto; [apply tables_mem0, T|].
    clear - F Eb. revert Eb. induction F as [|c sc l' l [H1 H2] H3 IH]; cbn; intros Eb; [constructor|].
    apply andb_prop in Eb as [E1 E2]. apply Bool.eqb_prop in E1. apply Forall_app. split; [|auto].
    rewrite <- E1. clear - H2. induction H2; constructor; auto. apply H.
  - (* PBool *)
    destruct (nth_error (sp_cons sp) k) as [c|] eqn:Ec; [|discriminate]. injection H as <- <-.
    destruct (pcons_get sp p E k c T Ec) as (c' & A & B & C). rewrite A. cbn [obind].
    assert (CA : cons_at E (fst c) (snd c) c').
    { split; [exact B|]. eapply Forall2_impl; [|exact C]. intros i r (_ & D & _). exact D. }
    assert (CF : List.Forall (fun r => is_eq (r_cmp r) = fst c) (snd c)).
    { clear - C. induction C; constructor; auto. apply H. }
    destruct (cons_bool_trip E n v c' (fst c) (snd c) CA CF _ _ _ L) as (t & e' & s' & dv' & more & Et & L' & -> & Ht).
    rewrite Et. cbn [obind]. eexists _, _. split; [reflexivity|]. split; [|constructor; [exact Ht|constructor]].
    exists (E ++ []), dv'. split; [exact L'|]. apply tables_mem0, T.
  - (* PDecision *)
    injection H as <- <-.
    destruct (decision_trip E n v (p_dec p) rows cols _ _ _ L) as ([dec m] & e' & s' & dv' & more & Ed & L' & ds & H1 & H2 & H3 & H4 & H5).
    rewrite Ed. cbn [obind fst snd] in *. eexists _, _. split; [reflexivity|]. split; [|constructor].
    exists (E ++ more), dv'. split; [exact L'|].
    assert (TM := tables_more sp p E more m (map (fun k => XVar (n + k)) (seq 0 (rows * cols)))
      (sp_se (new_vars sp (seq 0 (rows * cols)) (rows * cols))) e' s' T H4).
    destruct TM.
    { intros k Hk. destruct (Forall2_In_l _ _ _ _ H3 Hk) as (y & _ & [_ G]). exact G. }
    { eapply Forall2_impl; [|exact H3]. intros i y. apply fresh_at_at. } { reflexivity. }
    constructor; cbn [add_user set_dec set_mem new_vars set_se p_user p_cons p_dec p_f p_eq p_ineq sp_se sp_cons sp_dec sp_goal sp_eqs sp_ineqs] in *; auto.
    rewrite H1. apply Forall2_app; [exact t_dec0|].
    apply (proj1 (Forall2_map_r XVar _ _ _)) in H2. apply Forall2_nth; [eapply Forall2_length; eauto|].
    intros j d y Hd Hy. split.
    + destruct (Forall2_nth_r _ _ _ _ _ H2 Hy) as (d' & Hd' & G). rewrite Hd in Hd'. injection Hd' as <-. apply fresh_at_at, G.
    + intros C. apply in_app_or in C as [C|C]; [|exact (H5 d (nth_error_In _ _ Hd) C)].
      destruct (Forall2_In_l _ _ _ _ H2 (nth_error_In _ _ Hd)) as (y' & _ & [_ G]). pose proof (user_lt _ _ _ _ U C). lia.
  - (* PSymmetric *)
    injection H as <- <-. fold (tri rows).
    destruct (symmetric_trip E n v (p_dec p) rows _ _ _ L) as ([dec m] & e' & s' & dv' & more & Ed & L' & ds & H1 & H2 & H3 & H4 & H5).
    rewrite Ed. cbn [obind fst snd] in *. eexists _, _. split; [reflexivity|]. split; [|constructor].
    exists (E ++ more), dv'. split; [exact L'|]. set (en := map (fun k => sym_index (k / rows) (k mod rows)) (seq 0 (rows * rows))) in *.
    assert (TM := tables_more sp p E more m (map (fun k => XVar (n + k)) en) (sp_se (new_vars sp en (tri rows))) e' s' T H4).
    destruct TM.
    { intros k Hk. destruct (Forall2_In_l _ _ _ _ H3 Hk) as (y & _ & [_ G]). exact G. }
    { eapply Forall2_impl; [|exact H3]. intros i y. apply fresh_at_at. } { reflexivity. }
    constructor; cbn [add_user set_dec set_mem new_vars set_se p_user p_cons p_dec p_f p_eq p_ineq sp_se sp_cons sp_dec sp_goal sp_eqs sp_ineqs] in *; auto.
    rewrite H1. apply Forall2_app; [exact t_dec0|].
    apply (proj1 (Forall2_map_r XVar _ _ _)) in H2. apply Forall2_nth; [eapply Forall2_length; eauto|].
    intros j d y Hd Hy. split.
    + destruct (Forall2_nth_r _ _ _ _ _ H2 Hy) as (d' & Hd' & G). rewrite Hd in Hd'. injection Hd' as <-. apply fresh_at_at, G.
    + intros C. apply in_app_or in C as [C|C]; [|exact (H5 d (nth_error_In _ _ Hd) C)].
      destruct (Forall2_In_l _ _ _ _ H2 (nth_error_In _ _ Hd)) as (y' & _ & [_ G]). pose proof (user_lt _ _ _ _ U C). lia.
  - (* PMinimize *)
    destruct (nth_error (se_exp (sp_se sp)) i) as [x|] eqn:Ex; [|discriminate]. injection H as <- <-.
    destruct (uslot_get sp p E i x T Ex) as (k & A & B & C). rewrite A. cbn [obind].
    destruct (pnew_trip (HCopy k) (mkSE E n v) x n v) with (e := p_env p) (s := p_st p) (dv := dv) as (f & e' & s' & dv' & more & Ef & L' & Hf);
      [cbn [sstep se_exp]; rewrite C; reflexivity|exact L|].
    cbn [hinj] in Ef. rewrite Ef. cbn [obind]. eexists _, _. split; [reflexivity|]. split; [|constructor].
    exists (E ++ more), dv'. split; [exact L'|]. destruct (tables_mem0 sp p E more e' s' T).
    constructor; cbn [set_f set_mem set_goal p_user p_cons p_dec p_f p_eq p_ineq sp_se sp_cons sp_dec sp_goal sp_eqs sp_ineqs] in *; auto.
    eapply fresh_hid; eauto.
  - (* PMaximize *)
    destruct (nth_error (se_exp (sp_se sp)) i) as [x|] eqn:Ex; [|discriminate]. injection H as <- <-.
    destruct (uslot_get sp p E i x T Ex) as (k & A & B & C). rewrite A. cbn [obind].
    destruct (pnew_trip (HUn UNeg k) (mkSE E n v) (XUn UNeg x) n v) with (e := p_env p) (s := p_st p) (dv := dv) as (f & e' & s' & dv' & more & Ef & L' & Hf);
      [cbn [sstep se_exp]; rewrite C; reflexivity|exact L|].
    cbn [hinj] in Ef. rewrite Ef. cbn [obind]. eexists _, _. split; [reflexivity|]. split; [|constructor].
    exists (E ++ more), dv'. split; [exact L'|]. destruct (tables_mem0 sp p E more e' s' T).
    constructor; cbn [set_f set_mem set_goal p_user p_cons p_dec p_f p_eq p_ineq sp_se sp_cons sp_dec sp_goal sp_eqs sp_ineqs] in *; auto.
    eapply fresh_hid; eauto.
  - (* PSubject *)
    destruct (nth_error (sp_cons sp) k) as [[b l]|] eqn:Ec; [|discriminate]. injection H as <- <-.
    destruct (pcons_get sp p E k (b, l) T Ec) as (c' & A & B & C). cbn [fst snd] in *. rewrite A. cbn [obind].
    assert (G : Forall2 (at_ E) (snd c') (map rexp l)).
    { apply Forall2_map_r. eapply Forall2_impl; [|exact C]. intros i r (_ & D & _). exact D. }
    destruct (copies_trip E n v (snd c') (map rexp l) G _ _ _ L) as (ks & e' & s' & dv' & more & Ek & L' & Hks).
    rewrite Ek. cbn [obind]. eexists _, _. split; [reflexivity|]. split; [|constructor].
    exists (E ++ more), dv'.
    assert (HR : Forall2 (hid_rel (p_user p) (E ++ more) b) ks l).
    { apply (proj1 (Forall2_map_r rexp _ _ _)) in Hks. clear - U C Hks. 
      assert (CF : List.Forall (fun r => is_eq (r_cmp r) = b) l). { clear - C. induction C; constructor; auto. apply H. }
      clear C. revert CF. induction Hks; intros CF; constructor; [split; [exact (Forall_inv CF)|eapply fresh_hid; eauto]|apply IHHks, (Forall_inv_tail CF)]. }
    rewrite B. destruct (tables_mem0 sp p E more e' s' T). destruct b; (split; [exact L'|]);
      constructor; cbn [add_eq add_ineq set_mem impose p_user p_cons p_dec p_f p_eq p_ineq sp_se sp_cons sp_dec sp_goal sp_eqs sp_ineqs] in *; auto;
      apply Forall2_app; assumption.
Qed.

Lemma plink_empty : plink spec_empty (prog_empty SK).
Proof.
  exists [], []. split; [exact linked_empty|]. constructor; cbn; constructor.
Qed.

Lemma spec_run_ok l : forall sp sp' qs p, plink sp p -> spec_run l sp = Some (sp', qs) ->
  exists p' out, prun (map pinj l) p = Ok (p', out) /\ plink sp' p' /\ Forall2 pright qs out.
Proof.
  induction l as [|o l IH]; intros sp sp' qs p L H; cbn [spec_run] in H.
  - injection H as <- <-. exists p, []. cbn. auto.
  - destruct (spec_step o sp) as [[sp1 q]|] eqn:E1; [|discriminate].
    destruct (spec_run l sp1) as [[sp2 q']|] eqn:E2; [|discriminate]. injection H as <- <-.
    destruct (spec_step_ok o sp sp1 q p L E1) as (p1 & out1 & H1 & L1 & A1).
    destruct (IH sp1 sp2 q' p1 L1 E2) as (p2 & out2 & H2 & L2 & A2).
    exists p2, (out1 ++ out2). cbn [map prun]. rewrite H1. cbn [obind]. rewrite H2. cbn [obind].
    split; [reflexivity|]. split; [exact L2|]. apply Forall2_app; assumption.
Qed.

End Build3.
