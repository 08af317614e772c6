(** Proofs for C16: both passes of the topological sort. *)
From Coq Require Import ZArith List Arith Lia Permutation.
From Verif Require Import Base ExprModel GraphSpec.
Import ListNotations.

Definition occ (a : nat) (l : list nat) : nat := count_occ Nat.eq_dec l a.

Lemma occ_cons a x l : occ a (x :: l) = (if Nat.eq_dec x a then 1 else 0) + occ a l.
Proof. unfold occ. cbn. destruct (Nat.eq_dec x a); lia. Qed.

Lemma occ_app a l l' : occ a (l ++ l') = occ a l + occ a l'.
Proof. apply count_occ_app. Qed.

Lemma occ_in a l : 1 <= occ a l <-> In a l.
Proof. unfold occ. rewrite (count_occ_In Nat.eq_dec). lia. Qed.

Lemma upd_eq {A} (f : nat -> A) i x : upd f i x i = x.
Proof. unfold upd. rewrite Nat.eqb_refl. reflexivity. Qed.

Lemma upd_ne {A} (f : nat -> A) i x j : j <> i -> upd f i x j = f j.
Proof. unfold upd. intros H. destruct (Nat.eqb_spec j i); [contradiction|reflexivity]. Qed.

Lemma NoDup_app_remove_r (l l' : list nat) : NoDup (l ++ l') -> NoDup l.
Proof.
  induction l as [|x l IH]; cbn; intros H; [constructor|].
  inversion H as [|? ? A B]; subst. constructor; [|apply IH, B].
  intros C. apply A, in_or_app; auto.
Qed.

(** First pass: arguments seen for the first time are pushed. *)
Lemma visit_up l : forall scr stack, (forall a, (-1 <= scr a)%Z) ->
  exists new scr', visit scr 1 0 l stack = (scr', new ++ stack) /\ NoDup new /\
    (forall a, scr' a = (scr a + Z.of_nat (occ a l))%Z) /\
    (forall a, In a new <-> In a l /\ scr a = (-1)%Z).
Proof.
  induction l as [|x l IH]; intros scr stack Hs; cbn [visit].
  - exists [], scr. cbn. split; [reflexivity|]. split; [constructor|]. split; [intros; lia|tauto].
  - set (s1 := upd scr x (scr x + 1)%Z).
    assert (H1 : forall a, (-1 <= s1 a)%Z).
    { intros a. unfold s1. destruct (Nat.eq_dec a x) as [->|D]; [rewrite upd_eq|rewrite upd_ne by exact D];
        [specialize (Hs x)|specialize (Hs a)]; lia. }
    destruct (IH s1 (if (scr x + 1 =? 0)%Z then x :: stack else stack) H1) as (new & s' & E & ND & Hv & Hn).
    rewrite E. assert (Hx : s1 x = (scr x + 1)%Z) by apply upd_eq.
    destruct (Z.eqb_spec (scr x + 1) 0) as [Z0|NZ].
    + exists (new ++ [x]), s'. split; [rewrite <- app_assoc; reflexivity|]. split; [|split].
      * apply (Permutation_NoDup (l := x :: new)); [apply Permutation_cons_append|].
        constructor; [|exact ND]. rewrite Hn, Hx. lia.
      * intros a. rewrite Hv, occ_cons. unfold s1. destruct (Nat.eq_dec x a) as [<-|D].
        -- rewrite upd_eq. lia.
        -- rewrite upd_ne by congruence. lia.
      * intros a. rewrite in_app_iff, Hn. cbn [In]. unfold s1. destruct (Nat.eq_dec a x) as [->|D].
        -- rewrite upd_eq. split; [intros _; split; [auto|lia]|intros _; right; auto].
        -- rewrite upd_ne by exact D. split.
           ++ intros [[A B]|[C|[]]]; [auto|congruence].
           ++ intros [[C|A] B]; [congruence|auto].
    + exists new, s'. split; [reflexivity|]. split; [exact ND|]. split.
      * intros a. rewrite Hv, occ_cons. unfold s1. destruct (Nat.eq_dec x a) as [<-|D].
        -- rewrite upd_eq. lia.
        -- rewrite upd_ne by congruence. lia.
      * intros a. rewrite Hn. cbn [In]. unfold s1. destruct (Nat.eq_dec a x) as [->|D].
        -- rewrite upd_eq. split; [intros [A B]; pose proof (Hs x); lia|intros [_ B]; lia].
        -- rewrite upd_ne by exact D. split; [tauto|]. intros [[C|A] B]; [congruence|auto].
Qed.

(** Second pass: arguments whose last incoming edge has been traversed are pushed. *)
Lemma visit_down l : forall scr stack, (forall a, In a l -> (Z.of_nat (occ a l) - 1 <= scr a)%Z) ->
  exists new scr', visit scr (-1) (-1) l stack = (scr', new ++ stack) /\ NoDup new /\
    (forall a, scr' a = (scr a - Z.of_nat (occ a l))%Z) /\
    (forall a, In a new <-> In a l /\ scr' a = (-1)%Z).
Proof.
  induction l as [|x l IH]; intros scr stack Hs; cbn [visit].
  - exists [], scr. cbn. split; [reflexivity|]. split; [constructor|]. split; [intros; lia|tauto].
  - set (s1 := upd scr x (scr x + -1)%Z).
    assert (Hx : s1 x = (scr x + -1)%Z) by apply upd_eq.
    assert (H1 : forall a, In a l -> (Z.of_nat (occ a l) - 1 <= s1 a)%Z).
    { intros a Ha. specialize (Hs a (or_intror Ha)). rewrite occ_cons in Hs. unfold s1.
      destruct (Nat.eq_dec x a) as [<-|D]; [rewrite upd_eq|rewrite upd_ne by congruence]; lia. }
    destruct (IH s1 (if (scr x + -1 =? -1)%Z then x :: stack else stack) H1) as (new & s' & E & ND & Hv & Hn).
    rewrite E.
    assert (Hv' : forall a, s' a = (scr a - Z.of_nat (occ a (x :: l)))%Z).
    { intros a. rewrite Hv, occ_cons. unfold s1. destruct (Nat.eq_dec x a) as [<-|D].
      - rewrite upd_eq. lia.
      - rewrite upd_ne by congruence. lia. }
    pose proof (Hs x (or_introl eq_refl)) as Hsx. rewrite occ_cons in Hsx.
    destruct (Nat.eq_dec x x) as [_|]; [|congruence].
    destruct (Z.eqb_spec (scr x + -1) (-1)) as [Z0|NZ].
    + assert (Hnl : ~ In x l). { intros A. apply occ_in in A. lia. }
      exists (new ++ [x]), s'. split; [rewrite <- app_assoc; reflexivity|]. split; [|split; [exact Hv'|]].
      * apply (Permutation_NoDup (l := x :: new)); [apply Permutation_cons_append|].
        constructor; [|exact ND]. rewrite Hn. tauto.
      * intros a. rewrite in_app_iff, Hn. cbn [In]. split.
        -- intros [[A B]|[<-|[]]]; [auto|]. split; [auto|]. rewrite Hv'. rewrite occ_cons.
           destruct (Nat.eq_dec x x); [|congruence].
           assert (occ x l = 0) by (destruct (occ x l) eqn:Eo; [reflexivity|exfalso; apply Hnl, occ_in; lia]). lia.
        -- intros [[<-|A] B]; auto.
    + exists new, s'. split; [reflexivity|]. split; [exact ND|]. split; [exact Hv'|].
      intros a. rewrite Hn. cbn [In]. split; [tauto|]. intros [[<-|A] B]; [|auto].
      split; [|exact B]. apply occ_in. rewrite Hv', occ_cons in B.
      destruct (Nat.eq_dec x x); [|congruence]. lia.
Qed.

Section Sort.
Variable ns : list node.
Variable r : nat.
Hypothesis Hac : acyclic_nodes ns.
Hypothesis Hr : r < length ns.

Local Notation arg := (args ns).

(** Edges from the nodes in [P] to [a]. *)
Definition cnt (P : list nat) (a : nat) : nat := list_sum (map (fun p => occ a (arg p)) P).

Lemma cnt_cons p P a : cnt (p :: P) a = occ a (arg p) + cnt P a.
Proof. reflexivity. Qed.

Lemma cnt_app P Q a : cnt (P ++ Q) a = cnt P a + cnt Q a.
Proof. unfold cnt. rewrite map_app, list_sum_app. reflexivity. Qed.

Lemma cnt_perm P Q a : Permutation P Q -> cnt P a = cnt Q a.
Proof. intros H. induction H; rewrite ?cnt_cons; lia. Qed.

Lemma cnt_pos P a : 1 <= cnt P a <-> exists p, In p P /\ In a (arg p).
Proof.
  induction P as [|p P IH].
  - unfold cnt; cbn. split; [lia|intros (p & [] & _)].
  - rewrite cnt_cons. split.
    + intros H. destruct (Nat.eq_dec (occ a (arg p)) 0) as [Z|NZ].
      * destruct IH as [IH _]. destruct IH as (q & Hq & Ha); [lia|]. exists q. cbn; auto.
      * exists p. split; [cbn; auto|apply occ_in; lia].
    + intros (q & [<-|Hq] & Ha).
      * apply occ_in in Ha. lia.
      * assert (1 <= cnt P a) by (apply IH; eauto). lia.
Qed.

Lemma reach_le n : reach ns r n -> n <= r.
Proof. induction 1 as [|n a _ IH Ha]; [lia|]. apply Hac in Ha. lia. Qed.

Lemma reach_lt n : reach ns r n -> n < length ns.
Proof. intros H. apply reach_le in H. lia. Qed.

Lemma reach_arg_ne n a : reach ns r n -> In a (arg n) -> a <> r.
Proof. intros H Ha. apply reach_le in H. apply Hac in Ha. lia. Qed.

Lemma node_at n : n < length ns -> exists nd, nth_error ns n = Some nd /\ n_args nd = arg n.
Proof.
  intros H. unfold args. destruct (nth_error ns n) as [nd|] eqn:E; [eauto|].
  apply nth_error_None in E. lia.
Qed.

Lemma nodup_bound (l : list nat) N : NoDup l -> (forall n, In n l -> n < N) -> length l <= N.
Proof.
  intros ND H. rewrite <- (seq_length N 0). apply NoDup_incl_length; [exact ND|].
  intros n Hn. apply in_seq. specialize (H n Hn). lia.
Qed.

Lemma count_edges_ok fuel : forall P stack scr,
  NoDup (P ++ stack) -> (forall n, In n (P ++ stack) -> reach ns r n) -> In r (P ++ stack) ->
  (forall a, scr a = (-1 + Z.of_nat (cnt P a))%Z) ->
  (forall a, a <> r -> (In a (P ++ stack) <-> 1 <= cnt P a)) ->
  length ns <= fuel + length P ->
  exists P' scr', count_edges fuel ns stack scr = Ok scr' /\ NoDup P' /\ In r P' /\
    (forall n, In n P' -> reach ns r n) /\ (forall a, scr' a = (-1 + Z.of_nat (cnt P' a))%Z) /\
    (forall a, a <> r -> (In a P' <-> 1 <= cnt P' a)).
Proof.
  induction fuel as [|fuel IH]; intros P stack scr ND HR Hin Hscr Hv Hf.
  - destruct stack as [|n rest]; cbn [count_edges].
    + rewrite app_nil_r in *. exists P, scr. auto 7.
    + exfalso. assert (length (P ++ n :: rest) <= length ns).
      { apply nodup_bound; [exact ND|]. intros m Hm. apply reach_lt, HR, Hm. }
      rewrite app_length in H. cbn in *. lia.
  - destruct stack as [|n rest]; cbn [count_edges].
    { rewrite app_nil_r in *. exists P, scr. auto 7. }
    assert (Rn : reach ns r n) by (apply HR, in_or_app; right; left; reflexivity).
    destruct (node_at n (reach_lt n Rn)) as (nd & E & Ea). rewrite E, Ea.
    destruct (visit_up (arg n) scr rest) as (new & scr' & Ev & NDn & Hs' & Hn).
    { intros a. rewrite Hscr. lia. }
    rewrite Ev.
    assert (Hc : forall a, cnt (P ++ [n]) a = cnt P a + occ a (arg n)).
    { intros a. rewrite cnt_app, cnt_cons. change (cnt [] a) with 0. lia. }
    assert (Hmem : forall a, In a new -> ~ In a (P ++ n :: rest)).
    { intros a Ha. apply Hn in Ha as [A B]. rewrite Hv.
      - rewrite Hscr in B. lia.
      - apply (reach_arg_ne n a Rn A). }
    apply (IH (P ++ [n]) (new ++ rest) scr').
    + apply (Permutation_NoDup (l := new ++ P ++ n :: rest)).
      * rewrite <- app_assoc. cbn [app].
        transitivity (P ++ new ++ n :: rest).
        -- rewrite !app_assoc. apply Permutation_app_tail, Permutation_app_comm.
        -- apply Permutation_app_head. symmetry. apply Permutation_middle.
      * clear -NDn ND Hmem. induction new as [|x new IHn]; [exact ND|].
        inversion NDn as [|? ? A B]; subst. cbn [app]. constructor.
        -- intros C. apply in_app_iff in C as [C|C]; [contradiction|].
           apply (Hmem x); [left; reflexivity|exact C].
        -- apply IHn; [exact B|]. intros a Ha. apply Hmem. right; exact Ha.
    + intros m Hm. rewrite !in_app_iff in Hm. destruct Hm as [[Hm|[<-|[]]]|[Hm|Hm]].
      * apply HR, in_or_app; auto.
      * exact Rn.
      * apply Hn in Hm as [A _]. eapply reach_arg; eauto.
      * apply HR, in_or_app; right; right; exact Hm.
    + rewrite !in_app_iff in *. cbn [In] in *. tauto.
    + intros a. rewrite Hs', Hscr, Hc. lia.
    + intros a Ha. rewrite Hc. rewrite !in_app_iff. cbn [In].
      specialize (Hv a Ha). rewrite in_app_iff in Hv. cbn [In] in Hv.
      rewrite Hn, Hscr. rewrite <- (occ_in a (arg n)).
      destruct (Nat.eq_dec (cnt P a) 0) as [Z|NZ].
      2:{ split; [lia|intros _]. assert (X : In a P \/ n = a \/ In a rest) by (apply Hv; lia). tauto. }
      rewrite Z in *. split; [|intros; right; left; lia].
      intros [[H|[H|[]]]|[[H _]|H]]; try lia; exfalso; assert (1 <= 0) by (apply Hv; auto); lia.
    + rewrite app_length. cbn. lia.
Qed.

(** The set collected by the first pass is exactly the reachable set. *)
Lemma collected P : In r P -> (forall n, In n P -> reach ns r n) ->
  (forall a, a <> r -> (In a P <-> 1 <= cnt P a)) -> forall n, In n P <-> reach ns r n.
Proof.
  intros Hin HR Hv n. split; [apply HR|]. induction 1 as [|n a Rn IH Ha]; [exact Hin|].
  apply Hv; [eapply reach_arg_ne; eauto|]. apply cnt_pos. eauto.
Qed.

Lemma nodup_split_perm (out P : list nat) : NoDup out -> incl out P -> exists rest, Permutation P (out ++ rest).
Proof.
  revert P. induction out as [|x out IH]; intros P ND HI.
  - exists P. reflexivity.
  - inversion ND as [|? ? A B]; subst.
    destruct (in_split x P) as (p1 & p2 & ->); [apply HI; left; reflexivity|].
    destruct (IH (p1 ++ p2) B) as (rest & Hp).
    { intros y Hy. assert (In y (p1 ++ x :: p2)) by (apply HI; right; exact Hy).
      rewrite in_app_iff in *. cbn [In] in *. destruct H as [H|[H|H]]; auto. congruence. }
    exists rest. cbn [app]. rewrite <- Hp. symmetry. apply Permutation_middle.
Qed.

Section Second.
Variable P : list nat.
Hypothesis NDP : NoDup P.
Hypothesis HP : forall n, In n P <-> reach ns r n.

Lemma cnt_sub out a : NoDup out -> incl out P -> cnt out a <= cnt P a /\
  (cnt out a = cnt P a -> forall p, In p P -> In a (arg p) -> In p out).
Proof.
  intros ND HI. destruct (nodup_split_perm out P ND HI) as (rest & Hp).
  rewrite (cnt_perm _ _ a Hp), cnt_app. split; [lia|].
  intros E p Hin Ha. apply (Permutation_in _ Hp) in Hin. apply in_app_iff in Hin as [Hin|Hin]; [exact Hin|].
  exfalso. assert (1 <= cnt rest a) by (apply cnt_pos; eauto). lia.
Qed.

Definition ordered (out : list nat) : Prop :=
  forall l1 n l2, out = l1 ++ n :: l2 -> forall a, In a (arg n) -> ~ In a (l1 ++ [n]).

Lemma emit_ok fuel : forall out stack scr,
  NoDup (out ++ stack) -> incl (out ++ stack) P -> In r (out ++ stack) ->
  (forall a, scr a = (-1 + Z.of_nat (cnt P a) - Z.of_nat (cnt out a))%Z) ->
  (forall a, a <> r -> (In a (out ++ stack) <-> 1 <= cnt P a /\ cnt out a = cnt P a)) ->
  ordered out -> (exists t, out ++ stack = r :: t) -> (out = [] -> stack = [r]) ->
  length ns <= fuel + length out ->
  exists out' scr', emit fuel ns stack scr out = Ok (out', scr') /\ NoDup out' /\ incl out' P /\ In r out' /\
    (forall a, scr' a = (-1 + Z.of_nat (cnt P a) - Z.of_nat (cnt out' a))%Z) /\
    (forall a, a <> r -> (In a out' <-> 1 <= cnt P a /\ cnt out' a = cnt P a)) /\ ordered out' /\
    exists t, out' = r :: t.
Proof.
  induction fuel as [|fuel IH]; intros out stack scr ND HI Hin Hscr Hv Ho Hh Hh0 Hf.
  - destruct stack as [|n rest]; cbn [emit].
    + rewrite app_nil_r in *. exists out, scr. auto 9.
    + exfalso. assert (length (out ++ n :: rest) <= length ns).
      { apply nodup_bound; [exact ND|]. intros m Hm. apply reach_lt, HP, HI, Hm. }
      rewrite app_length in H. cbn in *. lia.
  - destruct stack as [|n rest]; cbn [emit].
    { rewrite app_nil_r in *. exists out, scr. auto 9. }
    assert (Pn : In n P) by (apply HI, in_or_app; right; left; reflexivity).
    assert (Rn : reach ns r n) by (apply HP; exact Pn).
    destruct (node_at n (reach_lt n Rn)) as (nd & E & Ea). rewrite E, Ea.
    assert (NDo : NoDup (out ++ [n])).
    { apply (NoDup_app_remove_r _ rest). rewrite <- app_assoc. exact ND. }
    assert (HIo : incl (out ++ [n]) P).
    { intros m Hm. apply HI. rewrite in_app_iff in *. cbn [In] in *. tauto. }
    assert (Hc : forall a, cnt (out ++ [n]) a = cnt out a + occ a (arg n)).
    { intros a. rewrite cnt_app, cnt_cons. change (cnt [] a) with 0. lia. }
    destruct (visit_down (arg n) scr rest) as (new & scr' & Ev & NDn & Hs' & Hn).
    { intros a Ha. rewrite Hscr. pose proof (proj1 (cnt_sub _ a NDo HIo)). rewrite Hc in H. lia. }
    rewrite Ev.
    assert (Hscr' : forall a, scr' a = (-1 + Z.of_nat (cnt P a) - Z.of_nat (cnt (out ++ [n]) a))%Z).
    { intros a. rewrite Hs', Hscr, Hc. lia. }
    assert (Hnin : forall a, In a (arg n) -> ~ In a (out ++ n :: rest)).
    { intros a Ha C. apply Hv in C; [|eapply reach_arg_ne; eauto]. destruct C as [_ C].
      assert (NDo' : NoDup out) by (eapply NoDup_app_remove_r; eauto).
      assert (HIo' : incl out P) by (intros m Hm; apply HI, in_or_app; auto).
      pose proof (proj2 (cnt_sub out a NDo' HIo') C n Pn Ha) as B.
      apply NoDup_remove_2 in ND. apply ND, in_or_app; auto. }
    apply (IH (out ++ [n]) (new ++ rest) scr').
    + apply (Permutation_NoDup (l := new ++ out ++ n :: rest)).
      * rewrite <- app_assoc. cbn [app].
        transitivity (out ++ new ++ n :: rest).
        -- rewrite !app_assoc. apply Permutation_app_tail, Permutation_app_comm.
        -- apply Permutation_app_head. symmetry. apply Permutation_middle.
      * assert (Hmem : forall a, In a new -> ~ In a (out ++ n :: rest)).
        { intros a Ha. apply Hnin. apply Hn in Ha. tauto. }
        clear -NDn ND Hmem. induction new as [|x new IHn]; [exact ND|].
        inversion NDn as [|? ? A B]; subst. cbn [app]. constructor.
        -- intros C. apply in_app_iff in C as [C|C]; [contradiction|].
           apply (Hmem x); [left; reflexivity|exact C].
        -- apply IHn; [exact B|]. intros a Ha. apply Hmem. right; exact Ha.
    + intros m Hm. rewrite !in_app_iff in Hm. destruct Hm as [[Hm|[<-|[]]]|[Hm|Hm]].
      * apply HI, in_or_app; auto.
      * exact Pn.
      * apply Hn in Hm as [A _]. apply HP. eapply reach_arg; eauto.
      * apply HI, in_or_app; right; right; exact Hm.
    + rewrite !in_app_iff in *. cbn [In] in *. tauto.
    + exact Hscr'.
    + intros a Ha. rewrite !in_app_iff. cbn [In].
      specialize (Hv a Ha). rewrite in_app_iff in Hv. cbn [In] in Hv.
      pose proof (proj1 (cnt_sub _ a NDo HIo)) as Hle.
      rewrite Hn, Hscr'. split.
      * intros [[H|[H|[]]]|[[H1 H2]|H]].
        -- assert (X : 1 <= cnt P a /\ cnt out a = cnt P a) by (apply Hv; auto). rewrite Hc in *. lia.
        -- assert (X : 1 <= cnt P a /\ cnt out a = cnt P a) by (apply Hv; auto). rewrite Hc in *. lia.
        -- apply occ_in in H1. rewrite Hc in *. lia.
        -- assert (X : 1 <= cnt P a /\ cnt out a = cnt P a) by (apply Hv; auto). rewrite Hc in *. lia.
      * intros [H1 H2]. destruct (Nat.eq_dec (cnt out a) (cnt P a)) as [Eq0|NE].
        -- assert (X : In a out \/ n = a \/ In a rest) by (apply Hv; auto). tauto.
        -- right; left. split; [apply occ_in; rewrite Hc in H2; lia|lia].
    + intros l1 m l2 Eo a Ha Hia.
      destruct l2 as [|y l2].
      * apply app_inj_tail in Eo as [<- <-]. apply (Hnin a Ha).
        rewrite in_app_iff in *. cbn [In] in *. tauto.
      * assert (El : exists l2', out = l1 ++ m :: l2').
        { exists (removelast (y :: l2)). clear -Eo.
          assert (X : out ++ [n] = (l1 ++ m :: removelast (y :: l2)) ++ [last (y :: l2) n]).
          { rewrite Eo, <- app_assoc. cbn [app]. do 2 f_equal. apply app_removelast_last. discriminate. }
          apply app_inj_tail in X. tauto. }
        destruct El as (l2' & El). exact (Ho l1 m l2' El a Ha Hia).
    + destruct Hh as (t & Hh). destruct out as [|o out].
      * rewrite (Hh0 eq_refl) in Hh. specialize (Hh0 eq_refl). injection Hh0 as -> ->.
        cbn [app]. eexists. reflexivity.
      * cbn [app] in Hh |- *. injection Hh as -> _. eexists. reflexivity.
    + intros Eo. destruct out; discriminate.
    + rewrite app_length. cbn. lia.
Qed.

(** Every reachable node is emitted. *)
Lemma emitted out : NoDup out -> incl out P -> In r out ->
  (forall a, a <> r -> (In a out <-> 1 <= cnt P a /\ cnt out a = cnt P a)) -> incl P out.
Proof.
  intros ND HI Hin Hv.
  assert (G : forall k n, r - n <= k -> In n P -> In n out).
  { induction k as [|k IH]; intros n Hk Hn.
    - assert (n = r) by (apply HP in Hn; apply reach_le in Hn; lia). subst. exact Hin.
    - destruct (Nat.eq_dec n r) as [->|D]; [exact Hin|].
      apply Hv; [exact D|].
      assert (Hpar : forall p, In p P -> In n (arg p) -> In p out).
      { intros p Hp Ha. apply IH; [|exact Hp]. apply Hac in Ha.
        assert (p <= r) by (apply HP in Hp; apply reach_le in Hp; lia). lia. }
      split.
      + apply cnt_pos. apply HP in Hn. destruct Hn as [|m a Rm Ha]; [congruence|].
        exists m. split; [apply HP; exact Rm|exact Ha].
      + destruct (nodup_split_perm out P ND HI) as (rest & Hperm).
        rewrite (cnt_perm _ _ n Hperm), cnt_app.
        destruct (cnt rest n) eqn:Ec; [lia|exfalso].
        assert (1 <= cnt rest n) by lia. apply cnt_pos in H as (p & Hp & Ha).
        assert (Pp : In p P). { apply (Permutation_in _ (Permutation_sym Hperm)). apply in_or_app; auto. }
        specialize (Hpar p Pp Ha).
        apply (Permutation_NoDup Hperm) in NDP as ND2.
        apply in_split in Hpar as (o1 & o2 & ->). rewrite <- app_assoc in ND2. cbn [app] in ND2.
        apply NoDup_remove_2 in ND2. apply ND2. rewrite !in_app_iff. auto. }
  intros n Hn. apply (G (r - n) n); [lia|exact Hn].
Qed.

End Second.

Lemma sort_ok scr : (forall a, scr a = (-1)%Z) ->
  exists scr1 out scr2, count_edges (length ns) ns [r] scr = Ok scr1 /\
    emit (length ns) ns [r] scr1 [] = Ok (out, scr2) /\
    topological ns r out /\ (forall a, scr2 a = (-1)%Z).
Proof.
  intros Hscr.
  destruct (count_edges_ok (length ns) [] [r] scr) as (P & scr1 & E1 & ND1 & Hin1 & HR1 & Hs1 & Hv1).
  - cbn [app]. constructor; [intros []|constructor].
  - intros n [<-|[]]. apply reach_refl.
  - left; reflexivity.
  - intros a. rewrite Hscr. change (cnt [] a) with 0. lia.
  - intros a Ha. change (cnt [] a) with 0. cbn [app In]. split; [intros [C|[]]; congruence|lia].
  - cbn. lia.
  - pose proof (collected P Hin1 HR1 Hv1) as HP.
    assert (Hcr : forall Q, incl Q P -> cnt Q r = 0).
    { intros Q HQ. destruct (cnt Q r) eqn:Ec; [reflexivity|exfalso].
      assert (1 <= cnt Q r) by lia. apply cnt_pos in H as (p & Hp & Ha).
      apply HQ, HP in Hp. exact (reach_arg_ne p r Hp Ha eq_refl). }
    destruct (emit_ok P HP (length ns) [] [r] scr1) as (out & scr2 & E2 & ND2 & HI2 & Hin2 & Hs2 & Hv2 & Ho2 & (t & Ht)).
    + cbn [app]. constructor; [intros []|constructor].
    + intros n [<-|[]]. exact Hin1.
    + left; reflexivity.
    + intros a. rewrite Hs1. change (cnt [] a) with 0. lia.
    + intros a Ha. change (cnt [] a) with 0. cbn [app In]. split; [intros [C|[]]; congruence|lia].
    + intros l1 n l2 El. destruct l1; discriminate.
    + exists []. reflexivity.
    + intros _. reflexivity.
    + cbn; lia.
    + pose proof (emitted P ND1 HP out ND2 HI2 Hin2 Hv2) as Hall.
      exists scr1, out, scr2. split; [exact E1|]. split; [exact E2|]. split.
      * split; [exact ND2|]. split.
        -- intros n. rewrite <- HP. split; [apply HI2|apply Hall].
        -- split; [|eauto]. intros l1 n l2 El a Ha.
           assert (Hn : In n P) by (apply HI2; rewrite El; apply in_or_app; right; left; reflexivity).
           assert (Hia : In a out). { apply Hall, HP. eapply reach_arg; [apply HP; exact Hn|exact Ha]. }
           pose proof (Ho2 l1 n l2 El a Ha) as Hno. rewrite El in Hia.
           rewrite in_app_iff in *. cbn [In] in *. tauto.
      * intros a. rewrite Hs2.
        destruct (nodup_split_perm out P ND2 HI2) as (rest & Hp).
        assert (rest = []).
        { destruct rest as [|x rest]; [reflexivity|exfalso].
          assert (Hx : In x P). { apply (Permutation_in _ (Permutation_sym Hp)). apply in_or_app; right; left; reflexivity. }
          apply Hall in Hx. apply (Permutation_NoDup Hp) in ND1 as ND3.
          apply NoDup_remove_2 in ND3. apply ND3, in_or_app; auto. }
        subst rest. rewrite app_nil_r in Hp. rewrite (cnt_perm _ _ a Hp). lia.
Qed.

End Sort.
