(** Proofs for C50 and the parts of C36, C55 and C56 about newton.hpp. *)
From Coq Require Import ZArith Reals List Bool Lia Lra.
From Verif Require Import Base ExprModel ExprReal ExprXR NumModel UtilModel KktModel FilterModel ExitModel SolverModel SolverSpec
  SolverProofs NewtonModel NewtonSpec.
Import ListNotations.
Local Open Scope nat_scope.

Section Calls.
Context {S : nops} {U : Type}.
Lemma logged_false k (cbs : list (callback S U)) i u l u' l' : run_callbacks (logged_from k cbs) i (u, l) = ((u', l'), false) ->
  run_callbacks cbs i u = (u', false) /\ l' = l ++ map (fun j => (j, i, false)) (seq k (length cbs)).
Proof.
  revert k u l. induction cbs as [|cb cbs IH]; intros k u l H; cbn [logged_from run_callbacks length seq map] in *.
  { injection H as <- <-. rewrite app_nil_r. auto. }
  unfold logged in H at 1. cbn [fst snd] in H. destruct (cb i u) as [v b]. destruct b; [discriminate|].
  apply IH in H. destruct H as [A B]. split; auto. rewrite B, <- app_assoc. auto.
Qed.
Lemma logged_true k (cbs : list (callback S U)) i u l u' l' : run_callbacks (logged_from k cbs) i (u, l) = ((u', l'), true) ->
  run_callbacks cbs i u = (u', true) /\
  exists j, j < length cbs /\ l' = l ++ map (fun j => (j, i, false)) (seq k j) ++ [(k + j, i, true)].
Proof.
  revert k u l. induction cbs as [|cb cbs IH]; intros k u l H; cbn [logged_from run_callbacks length] in *. { discriminate. }
  unfold logged in H at 1. cbn [fst snd] in H. destruct (cb i u) as [v b]. destruct b.
  - injection H as <- <-. split; auto. exists 0. split; [lia|]. cbn. rewrite Nat.add_0_r. auto.
  - apply IH in H. destruct H as [A (j & Lj & B)]. split; auto. exists (Datatypes.S j). split; [lia|].
    rewrite B, <- app_assoc. cbn [seq map app]. rewrite Nat.add_succ_r. auto.
Qed.
End Calls.

Section Newton.
Context {S : nops}.
Variables (E : env S) (P : nprob S).

Lemma half_power_S k : half_power (S := S) (Datatypes.S k) = halve (half_power k).
Proof. reflexivity. Qed.

Lemma try_add_min (flt : filter S) cur trial d a flt' ok : try_add flt cur trial d a = (flt', ok) -> f_min flt' = f_min flt /\ f_max flt' = f_max flt.
Proof.
  unfold try_add. intros H. destruct (_ || _); [injection H as <- _; auto|]. cbv zeta in H.
  destruct (_ && _ && _); [injection H as <- _; auto|]. destruct (_ && _); [injection H as <- _; auto|].
  destruct (in_filter _ _); [injection H as <- _; auto|]. destruct (_ || _); injection H as <- _; auto.
Qed.

Lemma search_spec fuel x p : forall k flt r, f_min flt = f_min (filter_new (s_ofZ S 0)) ->
  newton_search P fuel x (np_f P x) (np_g P x) p (vdot (np_g P x) p) (half_power k) flt = Ok r ->
  match r with
  | NStep x' f' _ flt => f' = np_f P x' /\ f_min flt = f_min (filter_new (s_ofZ S 0)) /\
      ((exists k flt flt', f_min flt = f_min (filter_new (s_ofZ S 0)) /\ x' = vadd x (vscale (half_power k) p) /\ s_finite S (np_f P x') = true /\
        try_add flt (mkFE (np_f P x) (s_ofZ S 0)) (mkFE (np_f P x') (s_ofZ S 0)) (vdot (np_g P x) p) (half_power k) = (flt', true)) \/
       (x' = vadd x (vscale (s_ofZ S 1) p) /\
        s_leb S (norm1 (np_g P x')) (s_mul S (lit 999 3) (norm1 (np_g P x))) = true))
  | NFail _ => exists k, s_ltb S (s_mul S (half_power k) (lit 5 1)) (lit 1 20) = true /\
          (s_finite S (np_f P (vadd x (vscale (half_power k) p))) = false \/
           s_leb S (norm1 (np_g P (vadd x (vscale (s_ofZ S 1) p)))) (s_mul S (lit 999 3) (norm1 (np_g P x))) = false)
  end.
Proof.
  induction fuel as [|fuel IH]; intros k flt r Hm H; [discriminate|]. cbn [newton_search] in H. cbv zeta in H.
  fold (half_power (S := S) k) in H. rewrite <- half_power_S in H.
  destruct (s_finite S (np_f P (vstep x (half_power k) p))) eqn:F; cbn [negb] in H.
  - destruct (try_add _ _ _ _ _) as [flt' ok] eqn:T. destruct (try_add_min _ _ _ _ _ _ _ T) as [Tm _]. rewrite Hm in Tm. destruct ok.
    + injection H as <-. split; auto. split; auto. left. exists k, flt, flt'. auto.
    + destruct (s_ltb S _ _) eqn:L; [|apply IH in H; auto].
      unfold kkt1_newton in H. destruct (s_leb S _ _) eqn:D; injection H as <-.
      * split; auto.
      * exists k. split; auto.
  - destruct (s_ltb S _ _) eqn:L; [|apply IH in H; auto]. injection H as <-. exists k. auto.
Qed.

Lemma search_total x f g p d K : forall fuel a flt, s_ltb S (halves (Datatypes.S K) a) n_amin = true -> K < fuel ->
  exists r, newton_search P fuel x f g p d a flt = Ok r.
Proof.
  induction K as [|K IH]; intros fuel a flt H L; (destruct fuel as [|fuel]; [lia|]); cbn [newton_search]; cbv zeta.
  - change (s_ltb S (halve a) n_amin = true) in H. rewrite H. destruct (negb _); [eauto|].
    destruct (try_add _ _ _ _ _) as [flt' ok]. destruct ok; [eauto|]. destruct (s_leb S _ _); eauto.
  - rewrite <- halves_S in H. destruct (negb _).
    + destruct (s_ltb S (halve a) n_amin); [eauto|]. apply IH; auto; lia.
    + destruct (try_add _ _ _ _ _) as [flt' ok]. destruct ok; [eauto|]. destruct (s_ltb S (halve a) n_amin).
      * destruct (s_leb S _ _); eauto.
      * apply IH; auto; lia.
Qed.

Context {U : Type}.
Variables (cbs : list (callback S U)) (o : options S).

(** At the top of the loop. *)
Definition n_inv (x0 : list S) (st : nstate E (U := U)) : Prop :=
  n_f _ st = np_f P (n_x _ st) /\ n_g _ st = np_g P (n_x _ st) /\ n_H _ st = np_H P (n_x _ st) /\
  n_E _ st = unscaled_newton (np_sc P) (np_g P (n_x _ st)) /\ f_min (n_flt _ st) = f_min (filter_new (s_ofZ S 0)) /\
  exists k, n_it _ st = Z.of_nat k /\ path (newton_step E P) k x0 (n_x _ st) /\ (k = 0 \/ (Z.of_nat k < o_max o)%Z).

Lemma body_next fuel start x0 st st' : n_inv x0 st -> newton_body E P cbs o fuel start st = Ok (Next st') ->
  n_inv x0 st' /\ n_it _ st' = (n_it _ st + 1)%Z /\ (n_it _ st' < o_max o)%Z.
Proof.
  intros (If & Ig & IH & IE & Im & k & Ik & Ip & Il) H. unfold newton_body in H. destruct (diverging _); [discriminate|].
  destruct (run_callbacks _ _ _) as [u stop]. destruct stop; [discriminate|]. cbv zeta in H.
  apply obind_ok in H. destruct H as (r & R & H). rewrite If, Ig in R. apply (search_spec fuel _ _ 0) in R; [|exact Im].
  destruct r as [x' f' a' flt'|flt']; [|discriminate]. destruct R as (-> & Rm & R).
  destruct (limits _ _ _ _ _) as [l clk] eqn:L. destruct l; [discriminate|]. injection H as <-. apply limits_none in L.
  destruct L as (L & _). unfold n_inv. cbn [n_x n_f n_g n_H n_E n_it n_flt]. split; [|split; [reflexivity|exact L]].
  do 4 (split; [reflexivity|]). split; [exact Rm|].
  exists (Datatypes.S k). split; [lia|]. split; [|right; lia].
  econstructor; [exact Ip|]. eexists. split; [|exact R]. exists (n_ls _ st). rewrite IH. reflexivity.
Qed.

Lemma body_exit fuel clk0 x0 st s st' : n_inv x0 st -> newton_body E P cbs o fuel (e_clock E clk0) st = Ok (Exit s st') ->
  newton_means E P o clk0 s st' /\ s <> SUCCESS /\
  exists k, n_it _ st' = Z.of_nat k /\ path (newton_step E P) k x0 (n_x _ st') /\ (k <= 1 \/ (Z.of_nat k <= o_max o)%Z).
Proof.
  intros (If & Ig & IH & IE & Im & k & Ik & Ip & Il) H. unfold newton_body in H. destruct (diverging _) eqn:D.
  { injection H as <- <-. split; [|split; [discriminate|]].
    - cbn. unfold diverging in D. apply orb_true_iff in D. destruct D as [D|D]; auto. right.
      apply negb_true_iff in D. unfold all_fin in D. destruct (existsb (fun v => negb (s_finite S v)) (n_x E st)) eqn:X.
      + apply existsb_exists in X. destruct X as (v & I & F). exists v. split; auto. apply negb_true_iff; auto.
      + exfalso. rewrite <- not_true_iff_false in D. apply D. apply forallb_forall. intros v I.
        destruct (s_finite S v) eqn:F; auto. rewrite <- not_true_iff_false in X. exfalso. apply X. apply existsb_exists.
        exists v. rewrite F. auto.
    - exists k. split; auto. split; auto. lia. }
  destruct (run_callbacks _ _ _) as [u stop]. destruct stop.
  { injection H as <- <-. split; [exact I|]. split; [discriminate|]. exists k. split; auto. split; auto. lia. }
  cbv zeta in H. apply obind_ok in H. destruct H as (r & R & H). rewrite If, Ig in R. apply (search_spec fuel _ _ 0) in R; [|exact Im].
  destruct r as [x' f' a' flt'|flt'].
  - destruct R as (-> & Rm & R). destruct (limits _ _ _ _ _) as [l clk] eqn:L. destruct l as [s1|]; [|discriminate]. injection H as <- <-.
    assert (Q : exists k, (n_it E st + 1)%Z = Z.of_nat k /\ path (newton_step E P) k x0 x' /\ (k <= 1 \/ (Z.of_nat k <= o_max o)%Z)).
    { exists (Datatypes.S k). split; [lia|]. split; [|lia].
      econstructor; [exact Ip|]. eexists. split; [|exact R]. exists (n_ls _ st). rewrite IH. reflexivity. }
    apply limits_some in L. destruct L as [(-> & L & ->)|(-> & L & T & ->)].
    + split; [|split; [discriminate|exact Q]]. cbn. lia.
    + split; [|split; [discriminate|exact Q]]. cbn. rewrite Nat.sub_0_r. split; [lia|exact T].
  - injection H as <- <-. split; [|split; [discriminate|]].
    + cbn. eexists. split; [|exact R]. exists (n_ls _ st). rewrite IH. reflexivity.
    + exists k. split; auto. split; auto. lia.
Qed.

Lemma existsb_not_all {A} (f : A -> bool) l : forallb f l = false -> exists v, In v l /\ f v = false.
Proof.
  induction l as [|a l IH]; intros H; [discriminate|]. cbn in H. destruct (f a) eqn:F.
  - destruct (IH H) as (v & I & V). exists v. cbn. auto.
  - exists a. cbn. auto.
Qed.

Lemma c50_meaning fuel x0 u clk0 s st : newton E P cbs o fuel x0 u clk0 = Ok (s, st) ->
  newton_means E P o clk0 s st /\
  exists k, n_it _ st = Z.of_nat k /\ path (newton_step E P) k x0 (n_x _ st) /\ (Z.of_nat k <= Z.max 1 (o_max o))%Z.
Proof.
  unfold newton. intros H. apply oassert_ok in H. destruct H as [_ H]. destruct (_ || _) eqn:NF.
  - injection H as <- <-. split.
    + cbn [newton_means]. split; [reflexivity|]. cbn [newton_init n_x n_f n_g n_H] in *.
      apply orb_true_iff in NF. destruct NF as [NF|NF]; [apply orb_true_iff in NF; destruct NF as [NF|NF]|];
        apply negb_true_iff in NF; auto.
      * right. left. apply existsb_not_all. exact NF.
      * right. right. apply existsb_not_all in NF. destruct NF as (r & I & F). apply existsb_not_all in F.
        destruct F as (v & J & F). exists r, v. auto.
    + exists 0. split; [reflexivity|]. split; [constructor|lia].
  - apply (drive_ok _ _ _ (n_inv x0)) in H.
    + destruct H as (st1 & I & [(-> & -> & L)|(L & B)]).
      * destruct I as (If & Ig & IH & IE & Im & k & Ik & Ip & Il). split.
        -- cbn [newton_means]. rewrite <- IE. exact L.
        -- exists k. split; auto. split; auto. lia.
      * apply (body_exit _ _ x0) in B; auto. destruct B as (M & _ & k & Ik & Ip & Il). split; auto.
        exists k. split; auto. split; auto. lia.
    + intros st1 st2 I _ B. eapply body_next; eauto.
    + unfold n_inv. cbn. repeat (split; [reflexivity|]). exists 0. split; [reflexivity|]. split; [constructor|auto].
Qed.

(** The solver returns: no loop runs away. *)
Lemma newton_total K x0 u clk0 fuel : s_ltb S (halves (Datatypes.S K) (s_ofZ S 1)) n_amin = true ->
  K < fuel -> Z.to_nat (o_max o) < fuel -> length (np_g P x0) = np_n P -> mat_dims (np_n P) (np_n P) (np_H P x0) = true ->
  exists r, newton E P cbs o fuel x0 u clk0 = Ok r.
Proof.
  intros HK LK LM Dg DH. unfold newton. unfold newton_init. cbn [n_g n_H n_f].
  unfold vec_dim. rewrite Dg, Nat.eqb_refl, DH. cbn [andb oassert]. destruct (_ || _); [eauto|].
  apply drive_total with (Inv := n_inv x0) (meas := fun st => Z.to_nat (o_max o - n_it _ st)).
  - intros st st' I _ B. destruct (body_next _ _ _ _ _ I B) as (A & Ci & Cl). split; auto. lia.
  - intros st I _. unfold newton_body. destruct (diverging _); [eauto|]. destruct (run_callbacks _ _ _) as [v stop].
    destruct stop; [eauto|]. cbv zeta.
    match goal with |- context [newton_search P fuel ?x ?f ?g ?p ?d ?a ?flt] =>
      destruct (search_total x f g p d K fuel a flt HK LK) as (r & R) end.
    rewrite R. cbn [obind]. destruct r; [|eauto]. destruct (limits _ _ _ _ _). eauto.
  - unfold n_inv. cbn. repeat (split; [reflexivity|]). exists 0. split; [reflexivity|]. split; [constructor|auto].
  - cbn. lia.
Qed.
End Newton.

Section Callbacks.
Context {S : nops} {U : Type}.
Variables (E : env S) (P : nprob S) (cbs : list (callback S U)) (o : options S).

Definition info_of (i : info S) : Prop := i_g i = np_g P (i_x i) /\ i_H i = np_H P (i_x i).
Definition log_inv (st : nstate E (U := U * list (call S))) : Prop :=
  n_g _ st = np_g P (n_x _ st) /\ n_H _ st = np_H P (n_x _ st) /\
  exists infos, snd (n_u _ st) = log_of (length cbs) infos None /\ List.Forall info_of infos /\
    n_it _ st = Z.of_nat (length infos) /\ map i_iter infos = map Z.of_nat (seq 0 (length infos)).

Lemma seq_snoc a n : seq a (Datatypes.S n) = seq a n ++ [a + n].
Proof. revert a. induction n as [|n IH]; intros a; [cbn; rewrite Nat.add_0_r; auto|]. change (seq a (Datatypes.S (Datatypes.S n))) with (a :: seq (Datatypes.S a) (Datatypes.S n)).
  rewrite IH. cbn [seq app]. rewrite Nat.add_succ_r. auto. Qed.

Lemma log_of_snoc n infos (i : info S) : log_of n infos None ++ full_round n i = log_of n (infos ++ [i]) None.
Proof. unfold log_of. rewrite !app_nil_r, map_app, concat_app. cbn. rewrite app_nil_r. auto. Qed.

Lemma c36_newton fuel x0 u clk0 s st : newton E P (log_all cbs) o fuel x0 (u, []) clk0 = Ok (s, st) ->
  exists infos stop, snd (n_u _ st) = log_of (length cbs) infos stop /\
    map i_iter infos = map Z.of_nat (seq 0 (length infos)) /\
    (s = CALLBACK_REQUESTED_STOP <-> stop <> None) /\
    (forall k i, stop = Some (k, i) -> k < length cbs /\ i_iter i = Z.of_nat (length infos)) /\
    (forall i, In i infos \/ (exists k, stop = Some (k, i)) -> i_g i = np_g P (i_x i) /\ i_H i = np_H P (i_x i)).
Proof.
  unfold newton. intros H. apply oassert_ok in H. destruct H as [_ H]. destruct (_ || _) eqn:NF.
  { injection H as <- <-. exists [], None. split; [reflexivity|]. split; [reflexivity|].
    split; [split; [discriminate|contradiction]|]. split; [discriminate|]. intros i [[]|[k K]]; discriminate. }
  apply (drive_ok _ _ _ log_inv) in H.
  - destruct H as (st1 & (Ig & IH & infos & Il & If & Inn & Ii) & [(-> & -> & L)|(L & B)]).
    { exists infos, None. split; auto. split; auto. split; [split; [discriminate|contradiction]|]. split; [discriminate|].
      intros i [I|[k K]]; [|discriminate]. rewrite List.Forall_forall in If. apply If; auto. }
    unfold newton_body in B. destruct (diverging _).
    { injection B as <- <-. exists infos, None. split; auto. split; auto. split; [split; [discriminate|contradiction]|]. split; [discriminate|].
      intros i [I|[k K]]; [|discriminate]. rewrite List.Forall_forall in If. apply If; auto. }
    destruct (n_u E st1) as [u1 l1] eqn:U1. cbn [snd] in Il.
    destruct (run_callbacks _ _ _) as [[u2 l2] stop] eqn:C. destruct stop.
    { injection B as <- <-. apply logged_true in C. destruct C as [_ (j & Lj & ->)]. exists infos, (Some (j, newton_info E st1)).
      split. { cbn [n_u n_set snd]. rewrite Il. unfold log_of, stopped_round, full_round. rewrite app_nil_r. auto. }
      split; auto. split; [split; [discriminate|auto]|]. split.
      - intros k i K. injection K as <- <-. split; auto.
      - intros i [I|[k K]]. { rewrite List.Forall_forall in If. apply If; auto. } injection K as <- <-. cbn. auto. }
    apply logged_false in C. destruct C as [_ ->].
    cbv zeta in B. apply obind_ok in B. destruct B as (r & R & B).
    assert (Q : forall s' (st' : nstate E (U := U * list (call S))), s' <> CALLBACK_REQUESTED_STOP -> snd (n_u E st') = l1 ++ map (fun j => (j, newton_info E st1, false)) (seq 0 (length cbs)) ->
      exists infos stop, snd (n_u E st') = log_of (length cbs) infos stop /\
    map i_iter infos = map Z.of_nat (seq 0 (length infos)) /\
    (s' = CALLBACK_REQUESTED_STOP <-> stop <> None) /\
    (forall k i, stop = Some (k, i) -> k < length cbs /\ i_iter i = Z.of_nat (length infos)) /\
    (forall i, In i infos \/ (exists k, stop = Some (k, i)) -> i_g i = np_g P (i_x i) /\ i_H i = np_H P (i_x i))).
    { intros s' st' Ns Hl. exists (infos ++ [newton_info E st1]), None. split. { rewrite <- log_of_snoc, <- Il. exact Hl. }
      split. { rewrite map_app, app_length, Nat.add_1_r, seq_snoc, map_app, Ii. cbn. rewrite Inn. auto. }
      split; [split; [contradiction|intros X; contradiction]|]. split; [discriminate|].
      intros i [I|[k K]]; [|discriminate]. apply in_app_iff in I. destruct I as [I|[<-|[]]].
      - rewrite List.Forall_forall in If. apply If; auto.
      - cbn. auto. }
    destruct r as [x' f' a' flt'|flt'].
    + destruct (limits _ _ _ _ _) as [l clk] eqn:Lm. destruct l as [s1|]; [|discriminate]. injection B as <- <-.
      apply Q; [|reflexivity]. apply limits_some in Lm. destruct Lm as [(-> & _)|(-> & _)]; discriminate.
    + injection B as <- <-. apply Q; [discriminate|reflexivity].
  - intros st1 st2 (Ig & IH & infos & Il & If & Inn & Ii) L B. unfold newton_body in B. destruct (diverging _); [discriminate|].
    destruct (n_u E st1) as [u1 l1] eqn:U1. cbn [snd] in Il.
    destruct (run_callbacks _ _ _) as [[u2 l2] stop] eqn:C. destruct stop; [discriminate|].
    apply logged_false in C. destruct C as [_ ->].
    cbv zeta in B. apply obind_ok in B. destruct B as (r & R & B). destruct r as [x' f' a' flt'|flt']; [|discriminate].
    destruct (limits _ _ _ _ _) as [l clk] eqn:Lm. destruct l as [s1|]; [discriminate|]. injection B as <-.
    split; [reflexivity|]. split; [reflexivity|]. exists (infos ++ [newton_info E st1]). cbn [n_u n_it snd].
    split. { rewrite <- log_of_snoc, <- Il. reflexivity. }
    split. { apply List.Forall_app. split; auto. apply List.Forall_cons; [split; auto|apply List.Forall_nil]. }
    split. { rewrite app_length. cbn. lia. }
    rewrite map_app, app_length, Nat.add_1_r, seq_snoc, map_app, Ii. cbn. rewrite Inn. auto.
  - split; [reflexivity|]. split; [reflexivity|]. exists []. split; [reflexivity|]. split; [apply List.Forall_nil|]. split; reflexivity.
Qed.
End Callbacks.
