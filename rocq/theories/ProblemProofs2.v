(** Proofs for C31-C33, continued: decision variables, and whole programs. *)
From Coq Require Import ZArith Reals List Bool Arith Lia Lra.
From Verif Require Import Base ExprModel GraphSpec GraphProofs ExprInv VarModel VarProofs ExprReal MathSpec MathProofs VarSpec Faith SmoothGraph HistProofs
  ProblemModel ProblemSpec ProblemProofs.
Import ListNotations.

Local Open Scope nat_scope.
Section Build2.
Context {SK : sops} {FK : faith SK} {FK2 : faith2 SK}.

Lemma zeros_S v n j : zeros v n (S j) = upd (zeros v n j) (n + j) 0%R.
Proof. unfold zeros. rewrite seq_S, fold_left_app. reflexivity. Qed.

Lemma pfold_trip {A B} (f : A -> B -> P (S := SK) B) E n v (Inv : nat -> B -> list uexp -> Prop) (l0 : list A) :
  (forall j a b more, nth_error l0 j = Some a -> Inv j b more ->
     ptrip (f a b) (mkSE (E ++ more) (n + j) (zeros v n j)) (n + S j) (zeros v n (S j)) (fun b' more' => Inv (S j) b' (more ++ more'))) ->
  forall b, Inv 0 b [] -> ptrip (pfold f l0 b) (mkSE E n v) (n + length l0) (zeros v n (length l0)) (fun b' more => Inv (length l0) b' more).
Proof.
  intros H b Hb.
  assert (G : forall l j b more, (forall i a, nth_error l i = Some a -> nth_error l0 (j + i) = Some a) -> Inv j b more ->
    ptrip (pfold f l b) (mkSE (E ++ more) (n + j) (zeros v n j)) (n + (j + length l)) (zeros v n (j + length l))
      (fun b' more' => Inv (j + length l) b' (more ++ more'))).
  { induction l as [|a l IH]; intros j b' more Hl HI; cbn [pfold length].
    - rewrite Nat.add_0_r. apply (ptrip_ret b' (mkSE (E ++ more) (n + j) (zeros v n j))). rewrite app_nil_r. exact HI.
    - eapply ptrip_bind; [apply (H j a b' more); [|exact HI]; specialize (Hl 0 a eq_refl); rewrite Nat.add_0_r in Hl; exact Hl|].
      intros b2 more2 HI2. cbn [se_exp]. rewrite <- app_assoc.
      eapply ptrip_weaken.
      + rewrite <- (Nat.add_succ_comm j (length l)). apply (IH (S j) b2 (more ++ more2)); [|exact HI2].
        intros i a' Hi. specialize (Hl (S i) a' Hi). rewrite <- Nat.add_succ_comm in Hl. exact Hl.
      + intros b3 more3 H3. cbn beta. rewrite app_assoc. rewrite <- Nat.add_succ_comm. exact H3. }
  specialize (G l0 0 b [] (fun i a Hi => Hi) Hb). rewrite app_nil_r, Nat.add_0_r in G. exact G.
Qed.

Lemma pnew_decision E n v : ptrip (pnew (S := SK) HNew) (mkSE E n v) (S n) (upd v n 0%R) (fun i more => fresh_at E more i (XVar n)).
Proof. apply (pnew_trip HNew (mkSE E n v)). reflexivity. Qed.

Lemma mput_length m k i : length (mput m k i) = length m.
Proof. revert k. induction m as [|x m IH]; intros [|k]; cbn; auto. Qed.
Lemma mput_nth m k i : k < length m -> nth_error (mput m k i) k = Some (Some i).
Proof. revert k. induction m as [|x m IH]; intros [|k] H; cbn in *; try lia; auto. apply IH. lia. Qed.
Lemma mput_nth_ne m k i k' : k' <> k -> nth_error (mput m k i) k' = nth_error m k'.
Proof. revert k k'. induction m as [|x m IH]; intros [|k] [|k'] H; cbn; auto; congruence. Qed.

Lemma put_copy_trip m k d E n v x : k < length m -> at_ E d x ->
  ptrip (put_copy (S := SK) m k d) (mkSE E n v) n v (fun m' more => exists i, m' = mput m k i /\ fresh_at E more i x).
Proof.
  intros Hk Hd e s dv L. unfold put_copy. replace (k <? length m) with true by (symmetry; apply Nat.ltb_lt; exact Hk).
  revert e s dv L. change (ptrip (pbind (pnew (S := SK) (HCopy d)) (fun i => pret (mput m k i))) (mkSE E n v) n v
    (fun m' more => exists i, m' = mput m k i /\ fresh_at E more i x)).
  eapply ptrip_bind.
  - apply (pnew_trip (HCopy d) (mkSE E n v) x). cbn [sstep se_exp]. unfold at_ in Hd. rewrite Hd. reflexivity.
  - intros i more Hi. cbn [se_exp]. apply (ptrip_ret (mput m k i) (mkSE (E ++ more) n v)). rewrite app_nil_r. exists i. auto.
Qed.

(** A matrix being filled: the entries for which [W] holds are new, distinct variables standing for decision
    variable [n + idx k]. *)
Definition filled (E more : list uexp) (n len : nat) (idx : nat -> nat) (W : nat -> bool) (ds : list nat) (m : list (option nat)) : Prop :=
  length m = len /\
  (forall k o, nth_error m k = Some o -> (W k = true -> exists i, o = Some i /\ fresh_at E more i (XVar (n + idx k))) /\ (W k = false -> o = None)) /\
  (forall k k' i, nth_error m k = Some (Some i) -> nth_error m k' = Some (Some i) -> k = k') /\
  (forall k d, In d ds -> nth_error m k = Some (Some d) -> False).

Lemma at_lt E i x : at_ E i x -> i < length E.
Proof. intros H. apply nth_error_Some. rewrite H. discriminate. Qed.

Lemma filled_lt E more n len idx W ds m k i : filled E more n len idx W ds m -> nth_error m k = Some (Some i) -> i < length (E ++ more).
Proof.
  intros (_ & F & _) H. destruct (F k _ H) as [F1 F2]. destruct (W k).
  - destruct (F1 eq_refl) as (i' & [= <-] & [A _]). exact (at_lt _ _ _ A).
  - specialize (F2 eq_refl). discriminate.
Qed.

Lemma filled_more E more more' n len idx W ds m : filled E more n len idx W ds m -> filled E (more ++ more') n len idx W ds m.
Proof.
  intros (F1 & F2 & F3 & F4). split; [exact F1|]. split; [|split; assumption]. intros k o H. destruct (F2 k o H) as [G1 G2].
  split; [|exact G2]. intros Hw. destruct (G1 Hw) as (i & Ei & Hi). exists i. split; [exact Ei|]. apply fresh_at_more, Hi.
Qed.

Lemma filled_dec E more n len idx W ds m d : filled E more n len idx W ds m -> length (E ++ more) <= d -> filled E more n len idx W (ds ++ [d]) m.
Proof.
  intros F Hd. assert (FL := fun k i => filled_lt E more n len idx W ds m k i F).
  destruct F as (F1 & F2 & F3 & F4). split; [exact F1|]. split; [exact F2|]. split; [exact F3|].
  intros k d' Hin Hk. apply in_app_or in Hin as [Hin|[<-|[]]]; [eapply F4; eauto|].
  assert (d < length (E ++ more)); [|lia]. exact (FL k d Hk).
Qed.

Lemma filled_put E more more' n len idx W ds m pos i : filled E more n len idx W ds m -> pos < len ->
  fresh_at (E ++ more) more' i (XVar (n + idx pos)) -> (forall d, In d ds -> d < length (E ++ more)) ->
  filled E (more ++ more') n len idx (fun k => W k || Nat.eqb k pos) ds (mput m pos i).
Proof.
  intros F Hp Hi Hds. pose proof F as (F1 & F2 & F3 & F4).
  split; [rewrite mput_length; exact F1|]. split; [|split].
  - intros k o Hk. destruct (Nat.eq_dec k pos) as [->|D].
    + rewrite mput_nth in Hk by lia. injection Hk as <-. rewrite Nat.eqb_refl, orb_true_r.
      split; [|discriminate]. intros _. exists i. split; [reflexivity|]. apply fresh_at_less, Hi.
    + rewrite mput_nth_ne in Hk by exact D. apply Nat.eqb_neq in D. rewrite D, orb_false_r.
      apply (proj1 (proj2 (filled_more _ _ more' _ _ _ _ _ _ F)) k o Hk).
  - intros k k' j Hk Hk'. destruct (Nat.eq_dec k pos) as [->|D]; destruct (Nat.eq_dec k' pos) as [->|D']; auto.
    + rewrite mput_nth in Hk by lia. injection Hk as <-. rewrite mput_nth_ne in Hk' by exact D'.
      apply (filled_lt _ _ _ _ _ _ _ _ _ _ F) in Hk'. destruct Hi as [_ Hi]. lia.
    + rewrite mput_nth in Hk' by lia. injection Hk' as <-. rewrite mput_nth_ne in Hk by exact D.
      apply (filled_lt _ _ _ _ _ _ _ _ _ _ F) in Hk. destruct Hi as [_ Hi]. lia.
    + rewrite mput_nth_ne in Hk by exact D. rewrite mput_nth_ne in Hk' by exact D'. eapply F3; eauto.
  - intros k d Hd Hk. destruct (Nat.eq_dec k pos) as [->|D].
    + rewrite mput_nth in Hk by lia. injection Hk as <-. specialize (Hds _ Hd). destruct Hi as [_ Hi]. lia.
    + rewrite mput_nth_ne in Hk by exact D. eapply F4; eauto.
Qed.

Lemma filled_ext E more n len idx W W' ds m : (forall k, k < len -> W k = W' k) -> filled E more n len idx W ds m -> filled E more n len idx W' ds m.
Proof.
  intros H (F1 & F2 & F3 & F4). split; [exact F1|]. split; [|split; assumption]. intros k o Hk.
  assert (k < len) by (rewrite <- F1; apply nth_error_Some; congruence). rewrite <- H by assumption. apply F2, Hk.
Qed.

Definition dec_inv (E : list uexp) (n len : nat) (idx : nat -> nat) (dec : list nat) (j : nat) (b : list nat * list (option nat)) (more : list uexp) : Prop :=
  exists ds, fst b = dec ++ ds /\ Forall2 (fresh_at E more) ds (map (fun k => XVar (n + k)) (seq 0 j)) /\
    filled E more n len idx (fun k => Nat.ltb (idx k) j) ds (snd b).

Lemma Forall2_In_l {A B} (R : A -> B -> Prop) l l' a : Forall2 R l l' -> In a l -> exists b, In b l' /\ R a b.
Proof. intros F. induction F; cbn; [contradiction|]. intros [<-|H1]; [eauto|]. destruct (IHF H1) as (b & ? & ?). eauto. Qed.

Lemma ds_snoc E more more' n j ds d : Forall2 (fresh_at E more) ds (map (fun k => XVar (n + k)) (seq 0 j)) -> fresh_at (E ++ more) more' d (XVar (n + j)) ->
  Forall2 (fresh_at E (more ++ more')) (ds ++ [d]) (map (fun k => XVar (n + k)) (seq 0 (S j))).
Proof.
  intros H Hd. rewrite seq_S, map_app. cbn [map Nat.add]. apply Forall2_app.
  - eapply Forall2_impl; [|exact H]. intros a b. apply fresh_at_more.
  - constructor; [|constructor]. apply fresh_at_less, Hd.
Qed.

Lemma ds_lt E more n j ds d : Forall2 (fresh_at E more) ds (map (fun k => XVar (n + k)) (seq 0 j)) -> In d ds -> d < length (E ++ more).
Proof. intros H Hd. destruct (Forall2_In_l _ _ _ _ H Hd) as (x & _ & [A _]). exact (at_lt _ _ _ A). Qed.

(** One allocated decision variable copied to one entry. *)
Lemma dec_step1 E n v len idx dec pos j b more : (forall k, k < len -> (idx k = j <-> k = pos)) -> pos < len ->
  dec_inv E n len idx dec j b more ->
  ptrip (pbind (pnew (S := SK) HNew) (fun d => pbind (put_copy (snd b) pos d) (fun m => pret (fst b ++ [d], m))))
    (mkSE (E ++ more) (n + j) (zeros v n j)) (n + S j) (zeros v n (S j)) (fun b' more' => dec_inv E n len idx dec (S j) b' (more ++ more')).
Proof.
  intros Hidx Hp (ds & Hf & Hds & Hm). rewrite zeros_S, Nat.add_succ_r.
  eapply ptrip_bind; [apply pnew_decision|]. intros d m1 Hd. cbn [se_exp].
  eapply ptrip_bind; [apply put_copy_trip; [destruct Hm as [-> _]; exact Hp|apply fresh_at_at in Hd; exact Hd]|].
  intros m' m2 (i & -> & Hi). cbn [se_exp].
  eapply (ptrip_ret _ (mkSE (((E ++ more) ++ m1) ++ m2) (S (n + j)) (upd (zeros v n j) (n + j) 0%R))).
  exists (ds ++ [d]). cbn [fst snd]. rewrite app_nil_r. split; [rewrite Hf, app_assoc; reflexivity|].
  split; [rewrite app_assoc; eapply Forall2_impl; [|exact (ds_snoc E more m1 n j ds d Hds Hd)]; intros ? ?; rewrite <- ?app_assoc; rewrite app_assoc; apply fresh_at_more|].
  eapply filled_ext; [|rewrite app_assoc; eapply (filled_put E (more ++ m1) m2 n len idx (fun k => idx k <? j) (ds ++ [d]))].
  - intros k Hk. cbn beta. destruct (Nat.eqb_spec k pos) as [->|D].
    + rewrite orb_true_r. symmetry. apply Nat.ltb_lt. rewrite (proj2 (Hidx pos Hp) eq_refl). lia.
    + rewrite orb_false_r. assert (idx k <> j) by (intros X; apply D, Hidx; auto).
      destruct (Nat.ltb_spec (idx k) j), (Nat.ltb_spec (idx k) (S j)); auto; lia.
  - assert (G := filled_dec _ _ _ _ _ _ _ _ d Hm). apply filled_more. apply G. destruct Hd as [_ Hd]. exact Hd.
  - exact Hp.
  - rewrite app_assoc. rewrite (proj2 (Hidx pos Hp) eq_refl). exact Hi.
  - intros d' Hd'. rewrite app_assoc. apply in_app_or in Hd' as [Hd'|[<-|[]]].
    + pose proof (ds_lt _ _ _ _ _ _ Hds Hd'). rewrite app_length. lia.
    + exact (at_lt _ _ _ (fresh_at_at _ _ _ _ Hd)).
Qed.

(** ... copied to two entries (which may be the same). *)
Lemma dec_step2 E n v len idx dec pos pos2 j b more : (forall k, k < len -> (idx k = j <-> k = pos \/ k = pos2)) -> pos < len -> pos2 < len ->
  dec_inv E n len idx dec j b more ->
  ptrip (pbind (pnew (S := SK) HNew) (fun d => pbind (put_copy (snd b) pos d) (fun m => pbind (put_copy m pos2 d) (fun m => pret (fst b ++ [d], m)))))
    (mkSE (E ++ more) (n + j) (zeros v n j)) (n + S j) (zeros v n (S j)) (fun b' more' => dec_inv E n len idx dec (S j) b' (more ++ more')).
Proof.
  intros Hidx Hp Hp2 (ds & Hf & Hds & Hm). rewrite zeros_S, Nat.add_succ_r.
  eapply ptrip_bind; [apply pnew_decision|]. intros d m1 Hd. cbn [se_exp].
  eapply ptrip_bind; [apply put_copy_trip; [destruct Hm as [-> _]; exact Hp|apply fresh_at_at in Hd; exact Hd]|].
  intros m' m2 (i & -> & Hi). cbn [se_exp].
  eapply ptrip_bind; [apply put_copy_trip; [rewrite mput_length; destruct Hm as [-> _]; exact Hp2|apply at_more; apply fresh_at_at in Hd; exact Hd]|].
  intros m' m3 (i2 & -> & Hi2). cbn [se_exp].
  eapply (ptrip_ret _ (mkSE ((((E ++ more) ++ m1) ++ m2) ++ m3) (S (n + j)) (upd (zeros v n j) (n + j) 0%R))).
  exists (ds ++ [d]). cbn [fst snd]. rewrite app_nil_r. split; [rewrite Hf, app_assoc; reflexivity|].
  split; [rewrite app_assoc; eapply Forall2_impl; [|exact (ds_snoc E more m1 n j ds d Hds Hd)]; intros ? ?; rewrite <- ?app_assoc; rewrite app_assoc; apply fresh_at_more|].
  assert (FD : filled E (more ++ m1) n len idx (fun k => idx k <? j) (ds ++ [d]) (snd b)).
  { apply filled_more. apply filled_dec; [exact Hm|]. destruct Hd as [_ Hd]. exact Hd. }
  assert (DL : forall d', In d' (ds ++ [d]) -> d' < length ((E ++ more) ++ m1)).
  { intros d' Hd'. apply in_app_or in Hd' as [Hd'|[<-|[]]].
    + pose proof (ds_lt _ _ _ _ _ _ Hds Hd'). rewrite app_length. lia.
    + exact (at_lt _ _ _ (fresh_at_at _ _ _ _ Hd)). }
  assert (F2 := filled_put E (more ++ m1) m2 n len idx _ (ds ++ [d]) _ pos i FD Hp).
  rewrite app_assoc in F2. rewrite (proj2 (Hidx pos Hp) (or_introl eq_refl)) in F2. specialize (F2 Hi DL).
  assert (F3 := filled_put E ((more ++ m1) ++ m2) m3 n len idx _ (ds ++ [d]) _ pos2 i2 F2 Hp2).
  rewrite !app_assoc in F3. rewrite (proj2 (Hidx pos2 Hp2) (or_intror eq_refl)) in F3. specialize (F3 Hi2).
  rewrite !app_assoc. eapply filled_ext; [|apply F3].
  - intros k Hk. cbn beta. destruct (Nat.eqb_spec k pos2) as [->|D2].
    + rewrite orb_true_r. symmetry. apply Nat.ltb_lt. rewrite (proj2 (Hidx pos2 Hp2) (or_intror eq_refl)). lia.
    + rewrite orb_false_r. destruct (Nat.eqb_spec k pos) as [->|D].
      * rewrite orb_true_r. symmetry. apply Nat.ltb_lt. rewrite (proj2 (Hidx pos Hp) (or_introl eq_refl)). lia.
      * rewrite orb_false_r. assert (idx k <> j) by (intros X; apply Hidx in X; tauto).
        destruct (Nat.ltb_spec (idx k) j), (Nat.ltb_spec (idx k) (S j)); auto; lia.
  - intros d' Hd'. specialize (DL d' Hd'). rewrite app_length. lia.
Qed.

Lemma all_some_ok m : (forall k o, nth_error m k = Some o -> exists i, o = Some i) -> exists l, all_some m = Some l /\ m = map Some l.
Proof.
  induction m as [|o m IH]; intros H; [exists []; auto|].
  destruct (H 0 o eq_refl) as (i & ->). destruct IH as (l & E & ->). { intros k o Hk. exact (H (S k) o Hk). }
  exists (i :: l). cbn. rewrite E. auto.
Qed.

Lemma Forall2_nth {A B} (R : A -> B -> Prop) l l' : length l = length l' -> (forall k a b, nth_error l k = Some a -> nth_error l' k = Some b -> R a b) -> Forall2 R l l'.
Proof.
  revert l'. induction l as [|a l IH]; intros [|b l'] HL H; try discriminate HL; constructor.
  - apply (H 0); reflexivity.
  - apply IH; [injection HL; auto|]. intros k x y Hx Hy. apply (H (S k)); assumption.
Qed.

Lemma finish_trip E n len idx dec cnt b more n' v' : (forall k, k < len -> idx k < cnt) -> dec_inv E n len idx dec cnt b more ->
  ptrip (finish (S := SK) b) (mkSE (E ++ more) n' v') n' v' (fun r more' => exists ds, fst r = dec ++ ds /\
     Forall2 (fresh_at E (more ++ more')) ds (map (fun k => XVar (n + k)) (seq 0 cnt)) /\
     Forall2 (fresh_at E (more ++ more')) (snd r) (map (fun k => XVar (n + idx k)) (seq 0 len)) /\
     NoDup (snd r) /\ (forall d, In d ds -> ~ In d (snd r))).
Proof.
  intros Hidx (ds & Hf & Hds & F1 & F2 & F3 & F4) e s dv L.
  assert (AS : forall k o, nth_error (snd b) k = Some o -> exists i, o = Some i /\ fresh_at E more i (XVar (n + idx k))).
  { intros k o Hk. destruct (F2 k o Hk) as [G _]. apply G. apply Nat.ltb_lt, Hidx. rewrite <- F1. apply nth_error_Some. congruence. }
  destruct (all_some_ok (snd b)) as (l & El & Em). { intros k o Hk. destruct (AS k o Hk) as (i & -> & _). eauto. }
  exists (fst b, l), e, s, dv, []. unfold finish. rewrite El. split; [reflexivity|]. cbn [se_exp]. rewrite !app_nil_r. split; [exact L|].
  assert (NT : forall k i, nth_error l k = Some i -> nth_error (snd b) k = Some (Some i)) by (intros k i Hk; rewrite Em, nth_error_map, Hk; reflexivity).
  exists ds. cbn [fst snd]. split; [exact Hf|]. split; [exact Hds|]. split; [|split].
  - apply Forall2_nth; [rewrite map_length, seq_length, <- F1, Em, map_length; reflexivity|].
    intros k i x Hi Hx. destruct (AS k (Some i) (NT k i Hi)) as (i' & [= <-] & Hfr).
    assert (HL : k < len) by (rewrite <- F1, Em, map_length; apply nth_error_Some; congruence).
    rewrite nth_error_map in Hx. rewrite (nth_error_nth' _ 0) in Hx by (rewrite seq_length; exact HL). rewrite seq_nth in Hx by exact HL.
    injection Hx as <-. exact Hfr.
  - apply NoDup_nth_error. intros k k' Hk HE. destruct (nth_error l k) as [i|] eqn:Ei; [|apply nth_error_None in Ei; lia].
    symmetry in HE. eapply F3; apply NT; eauto.
  - intros d Hd Hin. apply In_nth_error in Hin as (k & Hk). exact (F4 k d Hd (NT k d Hk)).
Qed.

Lemma dec_inv_0 E n len idx dec : dec_inv E n len idx dec 0 (dec, repeat None len) [].
Proof.
  exists []. cbn [fst snd]. rewrite app_nil_r. split; [reflexivity|]. split; [constructor|].
  assert (R : forall k (o : option nat), nth_error (repeat None len) k = Some o -> o = None).
  { intros k o H. apply nth_error_In in H. apply repeat_spec in H. exact H. }
  split; [apply repeat_length|]. split; [intros k o Hk; split; [discriminate|intros _; eauto]|].
  split; [intros k k' i Hk; apply R in Hk; discriminate|]. intros k d [].
Qed.

Definition matrix_made (E more : list uexp) (n cnt : nat) (entries : list nat) (dec : list nat) (r : list nat * list nat) : Prop :=
  exists ds, fst r = dec ++ ds /\
    Forall2 (fresh_at E more) ds (map XVar (seq n cnt)) /\
    Forall2 (fresh_at E more) (snd r) (map (fun k => XVar (n + k)) entries) /\
    NoDup (snd r) /\ (forall d, In d ds -> ~ In d (snd r)).

Lemma map_seq_XVar n cnt : map (fun k => XVar (n + k)) (seq 0 cnt) = map XVar (seq n cnt).
Proof. rewrite (seq_shift_add n cnt), map_map. reflexivity. Qed.

Lemma decision_trip E n v dec rows cols :
  ptrip (decision_variable (S := SK) dec rows cols) (mkSE E n v) (n + rows * cols) (zeros v n (rows * cols))
    (fun r more => matrix_made E more n (rows * cols) (seq 0 (rows * cols)) dec r).
Proof.
  unfold decision_variable. eapply ptrip_bind.
  - apply (pfold_trip _ E n v (dec_inv E n (rows * cols) (fun k => k) dec)); [|apply dec_inv_0].
    intros j [r c] b more Hj HI. cbn [fst snd].
    assert (HJ : r * cols + c = j /\ j < rows * cols).
    { rewrite cells_eq, nth_error_map in Hj.
      destruct (nth_error (seq 0 (rows * cols)) j) as [k|] eqn:Ek; [|discriminate].
      assert (LJ : j < rows * cols) by (rewrite <- (seq_length (rows * cols) 0); apply nth_error_Some; congruence).
      rewrite (nth_error_nth' _ 0) in Ek by (rewrite seq_length; exact LJ). rewrite seq_nth in Ek by exact LJ. injection Ek as <-.
      cbn [option_map] in Hj. injection Hj as <- <-. cbn [Nat.add]. split; [|exact LJ].
      rewrite (Nat.div_mod j cols) at 3 by (intros ->; lia). lia. }
    destruct HJ as [HJ LJ]. apply dec_step1; [|lia|exact HI]. intros k _. lia.
  - intros b more HI. cbn [se_exp]. assert (HLc : length (cells rows cols) = rows * cols) by (rewrite cells_eq, map_length, seq_length; reflexivity).
    rewrite HLc in *. eapply ptrip_weaken; [apply (finish_trip E n (rows * cols) (fun k => k) dec (rows * cols)); [auto|exact HI]|].
    intros r more' (ds & H1 & H2 & H3 & H4 & H5). exists ds. rewrite <- map_seq_XVar. auto.
Qed.

Definition tri (n : nat) : nat := n * (n + 1) / 2.
Lemma tri_S n : tri (S n) = tri n + S n.
Proof. unfold tri. replace (S n * (S n + 1)) with (n * (n + 1) + S n * 2) by lia. rewrite Nat.div_add by lia. reflexivity. Qed.
Lemma tri_mono a b : a <= b -> tri a <= tri b.
Proof. intros H. induction H; [lia|]. rewrite tri_S. lia. Qed.
Lemma tri_inj r c r' c' : c <= r -> c' <= r' -> tri r + c = tri r' + c' -> r = r' /\ c = c'.
Proof.
  intros H H' E. assert (r = r'); [|subst; lia].
  destruct (Nat.lt_trichotomy r r') as [L|[L|L]]; [|exact L|].
  - pose proof (tri_mono (S r) r' L). rewrite tri_S in H0. lia.
  - pose proof (tri_mono (S r') r L). rewrite tri_S in H0. lia.
Qed.

Lemma lower_cells_length n : length (lower_cells n) = tri n.
Proof.
  induction n as [|n IH]; [reflexivity|]. unfold lower_cells in *. rewrite seq_S, flat_map_app, app_length, IH.
  cbn [flat_map]. rewrite app_nil_r, map_length, seq_length, tri_S. reflexivity.
Qed.

Lemma lower_cells_nth n j r c : nth_error (lower_cells n) j = Some (r, c) -> r < n /\ c <= r /\ j = tri r + c.
Proof.
  induction n as [|n IH]; intros H; [destruct j; discriminate|].
  unfold lower_cells in H. rewrite seq_S, flat_map_app in H. fold (lower_cells n) in H. cbn [flat_map Nat.add] in H. rewrite app_nil_r in H.
  destruct (Nat.lt_ge_cases j (length (lower_cells n))) as [L|G].
  - rewrite nth_error_app1 in H by exact L. destruct (IH H) as (A & B & C). auto.
  - rewrite nth_error_app2 in H by exact G. rewrite lower_cells_length in *. rewrite nth_error_map in H.
    destruct (nth_error (seq 0 (S n)) (j - tri n)) as [k|] eqn:Ek; [|discriminate].
    assert (LJ : j - tri n < S n) by (rewrite <- (seq_length (S n) 0); apply nth_error_Some; congruence).
    rewrite (nth_error_nth' _ 0) in Ek by (rewrite seq_length; exact LJ). rewrite seq_nth in Ek by exact LJ. injection Ek as <-.
    cbn [option_map Nat.add] in H. injection H as <- <-. lia.
Qed.

Lemma row_col n a b : b < n -> (a * n + b) / n = a /\ (a * n + b) mod n = b.
Proof.
  intros H. split; [rewrite Nat.div_add_l, Nat.div_small by lia; lia|]. rewrite Nat.add_comm, Nat.mod_add, Nat.mod_small by lia. reflexivity.
Qed.

Lemma symmetric_trip E n v dec rows :
  ptrip (symmetric_decision_variable (S := SK) dec rows) (mkSE E n v) (n + tri rows) (zeros v n (tri rows))
    (fun r more => matrix_made E more n (tri rows) (map (fun k => sym_index (k / rows) (k mod rows)) (seq 0 (rows * rows))) dec r).
Proof.
  unfold symmetric_decision_variable. set (idx := fun k => sym_index (k / rows) (k mod rows)).
  assert (DM : forall k, k < rows * rows -> k / rows < rows /\ k mod rows < rows /\ k = k / rows * rows + k mod rows).
  { intros k Hk. assert (rows <> 0) by (intros ->; lia). split; [apply Nat.div_lt_upper_bound; lia|]. split; [apply Nat.mod_upper_bound; lia|].
    rewrite Nat.mul_comm. apply Nat.div_mod. lia. }
  eapply ptrip_bind.
  - apply (pfold_trip _ E n v (dec_inv E n (rows * rows) idx dec)); [|apply dec_inv_0].
    intros j [r c] b more Hj HI. cbn [fst snd]. destruct (lower_cells_nth _ _ _ _ Hj) as (Hr & Hc & ->).
    assert (HB : forall a d, a < rows -> d < rows -> a * rows + d < rows * rows) by (intros a d Ha Hd; nia).
    apply dec_step2; [|apply HB; lia|apply HB; lia|exact HI].
    intros k Hk. destruct (DM k Hk) as (D1 & D2 & D3). unfold idx, sym_index. fold (tri (Nat.max (k / rows) (k mod rows))).
    split.
    + intros E0. apply tri_inj in E0 as [E1 E2]; [|lia|exact Hc].
      destruct (Nat.max_spec (k / rows) (k mod rows)) as [[M1 M2]|[M1 M2]]; [right|left]; rewrite D3; lia.
    + intros [->| ->].
      * destruct (row_col rows r c) as [-> ->]; [lia|]. rewrite Nat.max_l, Nat.min_r by lia. reflexivity.
      * destruct (row_col rows c r) as [-> ->]; [lia|]. rewrite Nat.max_r, Nat.min_l by lia. reflexivity.
  - intros b more HI. cbn [se_exp]. rewrite lower_cells_length in *.
    eapply ptrip_weaken; [apply (finish_trip E n (rows * rows) idx dec (tri rows)); [|exact HI]|].
    + intros k Hk. destruct (DM k Hk) as (D1 & D2 & _). unfold idx, sym_index. fold (tri (Nat.max (k / rows) (k mod rows))).
      assert (Nat.max (k / rows) (k mod rows) < rows) by lia.
      pose proof (tri_mono (S (Nat.max (k / rows) (k mod rows))) rows H). rewrite tri_S in H0. lia.
    + intros r more' (ds & H1 & H2 & H3 & H4 & H5). exists ds. rewrite <- map_seq_XVar, map_map. auto.
Qed.

End Build2.
