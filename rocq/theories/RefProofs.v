(** Proofs for C13-C15. *)
From Coq Require Import ZArith List Lia Arith.
From Verif Require Import Base RefModel RefSpec.
Import ListNotations.
Open Scope Z_scope.

Definition occ (n : nat) (l : list nat) : nat := count_occ Nat.eq_dec l n.

Lemma occ_app n l l' : occ n (l ++ l') = (occ n l + occ n l')%nat.
Proof. apply count_occ_app. Qed.

Lemma occ_rev n l : occ n (rev l) = occ n l.
Proof.
  induction l as [|x l IH]; [reflexivity|].
  cbn [rev]. rewrite occ_app, IH. unfold occ. cbn. destruct (Nat.eq_dec x n); lia.
Qed.

Lemma occ_cons n x l : occ n (x :: l) = ((if Nat.eq_dec x n then 1 else 0) + occ n l)%nat.
Proof. unfold occ. cbn. destruct (Nat.eq_dec x n); lia. Qed.

Lemma occ_in n l : (1 <= occ n l)%nat <-> In n l.
Proof. unfold occ. rewrite (count_occ_In Nat.eq_dec). lia. Qed.

Lemma occ_le n l : (occ n l <= length l)%nat.
Proof. unfold occ. induction l as [|x l IH]; cbn; [lia|]. destruct (Nat.eq_dec x n); lia. Qed.

Definition kids (o : option rnode) : list nat := match o with Some nd => children nd | None => [] end.

Lemma heap_refs_cons o h : heap_refs (o :: h) = kids o ++ heap_refs h.
Proof. reflexivity. Qed.

Lemma heap_refs_app h h' : heap_refs (h ++ h') = heap_refs h ++ heap_refs h'.
Proof. unfold heap_refs. apply flat_map_app. Qed.

Lemma r_put_length h n o : length (r_put h n o) = length h.
Proof. revert n; induction h as [|x h IH]; intros [|n]; cbn; auto. Qed.

Lemma r_put_same h n o : (n < length h)%nat -> nth_error (r_put h n o) n = Some o.
Proof. revert n; induction h as [|x h IH]; intros [|n] H; cbn in *; try lia; auto. apply IH; lia. Qed.

Lemma r_put_other h n o m : m <> n -> nth_error (r_put h n o) m = nth_error h m.
Proof. revert n m; induction h as [|x h IH]; intros [|n] [|m] H; cbn; auto; try congruence. Qed.

Lemma put_length {A} (l : list A) i x : length (put l i x) = length l.
Proof. revert i; induction l as [|y l IH]; intros [|i]; cbn; auto. Qed.

Lemma put_same {A} (l : list A) i x : (i < length l)%nat -> nth_error (put l i x) i = Some x.
Proof. revert i; induction l as [|y l IH]; intros [|i] H; cbn in *; try lia; auto. apply IH; lia. Qed.

Lemma put_other {A} (l : list A) i x j : j <> i -> nth_error (put l i x) j = nth_error l j.
Proof. revert i j; induction l as [|y l IH]; intros [|i] [|j] H; cbn; auto; try congruence. Qed.

Lemma occ_heap_put h n o o' x : nth_error h n = Some o ->
  (occ x (heap_refs (r_put h n o')) + occ x (kids o) = occ x (heap_refs h) + occ x (kids o'))%nat.
Proof.
  revert n; induction h as [|y h IH]; intros [|n] H; cbn [nth_error] in H; try discriminate.
  - injection H as ->. cbn [r_put]. rewrite !heap_refs_cons, !occ_app. lia.
  - cbn [r_put]. rewrite !heap_refs_cons, !occ_app. specialize (IH _ H). lia.
Qed.

Lemma len_heap_put h n o o' : nth_error h n = Some o ->
  (length (heap_refs (r_put h n o')) + length (kids o) = length (heap_refs h) + length (kids o'))%nat.
Proof.
  revert n; induction h as [|y h IH]; intros [|n] H; cbn [nth_error] in H; try discriminate.
  - injection H as ->. cbn [r_put]. rewrite !heap_refs_cons, !app_length. lia.
  - cbn [r_put]. rewrite !heap_refs_cons, !app_length. specialize (IH _ H). lia.
Qed.

Definition roots (l : list (option nat)) : list nat := flat_map opt_list l.

Lemma roots_app l l' : roots (l ++ l') = roots l ++ roots l'.
Proof. apply flat_map_app. Qed.

Lemma occ_roots_put l i p p' x : nth_error l i = Some p ->
  (occ x (roots (put l i p')) + occ x (opt_list p) = occ x (roots l) + occ x (opt_list p'))%nat.
Proof.
  revert i; induction l as [|y l IH]; intros [|i] H; cbn [nth_error] in H; try discriminate.
  - injection H as ->. unfold roots. cbn [put flat_map]. rewrite !occ_app. lia.
  - unfold roots in *. cbn [put flat_map]. rewrite !occ_app. specialize (IH _ H). lia.
Qed.

Lemma len_roots l : (length (roots l) <= length l)%nat.
Proof. unfold roots. induction l as [|[y|] l IH]; cbn; lia. Qed.

Lemma roots_in l n : In n (roots l) <-> exists i, nth_error l i = Some (Some n).
Proof.
  unfold roots. rewrite in_flat_map. split.
  - intros (o & Ho & Hn). destruct o as [m|]; cbn in Hn; [|contradiction].
    destruct Hn as [->|[]]. apply In_nth_error in Ho. exact Ho.
  - intros (i & Hi). exists (Some n). split; [eapply nth_error_In; eauto|cbn; auto].
Qed.

(** Counting invariant: [rs] are the references held outside the heap. *)
Definition InvH (h : rheap) (rs : list nat) : Prop :=
  forall n, match nth_error h n with
  | Some (Some nd) => r_rc nd = Z.of_nat (occ n rs + occ n (heap_refs h)) /\ (1 <= occ n rs + occ n (heap_refs h))%nat
  | _ => (occ n rs + occ n (heap_refs h) = 0)%nat
  end.

Lemma InvH_ext h rs rs' : (forall n, occ n rs = occ n rs') -> InvH h rs -> InvH h rs'.
Proof. intros E H n. specialize (H n). rewrite (E n) in H. exact H. Qed.

Lemma r_get_ok h n nd : r_get h n = Ok nd <-> nth_error h n = Some (Some nd).
Proof.
  unfold r_get. destruct (nth_error h n) as [[x|]|]; split; intros H; try discriminate; congruence.
Qed.

Lemma InvH_alive h rs n : InvH h rs -> In n rs \/ In n (heap_refs h) ->
  exists nd, nth_error h n = Some (Some nd).
Proof.
  intros H Hn. specialize (H n). rewrite <- !occ_in in Hn.
  destruct (nth_error h n) as [[nd|]|]; eauto; lia.
Qed.

Lemma u32_id z : 0 <= z < 2 ^ 32 -> u32 z = z.
Proof. intros. apply Z.mod_small; assumption. Qed.

Lemma nth_lt {A} (l : list A) n x : nth_error l n = Some x -> (n < length l)%nat.
Proof. intros H. apply nth_error_Some. congruence. Qed.

(** What releasing can do to the heap: free nodes or change counts. *)
Definition shrinks (h h' : rheap) : Prop :=
  length h' = length h /\
  forall n nd', nth_error h' n = Some (Some nd') ->
    exists nd, nth_error h n = Some (Some nd) /\ r_adj nd' = r_adj nd /\ r_args nd' = r_args nd.

Lemma shrinks_refl h : shrinks h h.
Proof. split; [reflexivity|]. intros n nd' H. exists nd'. auto. Qed.

Lemma shrinks_trans h1 h2 h3 : shrinks h1 h2 -> shrinks h2 h3 -> shrinks h1 h3.
Proof.
  intros [L1 H1] [L2 H2]. split; [congruence|]. intros n nd H.
  destruct (H2 _ _ H) as (nd2 & E2 & A2 & B2). destruct (H1 _ _ E2) as (nd1 & E1 & A1 & B1).
  exists nd1. split; [exact E1|]. split; congruence.
Qed.

Lemma shrinks_put h n nd o : nth_error h n = Some (Some nd) ->
  (forall nd', o = Some nd' -> r_adj nd' = r_adj nd /\ r_args nd' = r_args nd) ->
  shrinks h (r_put h n o).
Proof.
  intros E Ho. split; [apply r_put_length|]. intros m nd' Hm.
  destruct (Nat.eq_dec m n) as [->|D].
  - rewrite r_put_same in Hm by (eapply nth_lt; eauto). injection Hm as ->.
    exists nd. split; [exact E|]. apply Ho; reflexivity.
  - rewrite r_put_other in Hm by exact D. exists nd'. auto.
Qed.

Lemma dec_loop_ok fuel : forall stack h rs,
  InvH h (stack ++ rs) -> (length stack + length (heap_refs h) <= fuel)%nat ->
  Z.of_nat (length stack + length rs + length (heap_refs h)) < 2 ^ 32 ->
  exists h', dec_loop fuel stack h = Ok h' /\ InvH h' rs /\ shrinks h h'.
Proof.
  induction fuel as [|fuel IH]; intros stack h rs HI Hf Hs.
  - destruct stack; cbn in Hf; [|lia]. exists h. split; [reflexivity|]. split; [exact HI|apply shrinks_refl].
  - destruct stack as [|n rest].
    { exists h. split; [reflexivity|]. split; [exact HI|apply shrinks_refl]. }
    cbn [length] in Hf, Hs.
    destruct (InvH_alive _ _ n HI) as (nd & End). { left. left. reflexivity. }
    cbn [dec_loop]. rewrite (proj2 (r_get_ok h n nd) End). cbn [obind].
    pose proof (HI n) as Hn. rewrite End in Hn. destruct Hn as [Hrc _].
    assert (Hocc : occ n ((n :: rest) ++ rs) = S (occ n (rest ++ rs))).
    { cbn [app]. rewrite occ_cons. destruct (Nat.eq_dec n n); [lia|congruence]. }
    rewrite Hocc in Hrc.
    assert (Hle : (occ n (rest ++ rs) + occ n (heap_refs h) <= length rest + length rs + length (heap_refs h))%nat).
    { pose proof (occ_le n (rest ++ rs)). pose proof (occ_le n (heap_refs h)). rewrite app_length in *. lia. }
    rewrite u32_id by lia.
    assert (Hlt : (n < length h)%nat) by (eapply nth_lt; eauto).
    destruct (Z.eqb_spec (r_rc nd - 1) 0) as [Z0|NZ].
    + destruct (IH (rev (children nd) ++ rest) (r_put h n None) rs) as (h' & E & I' & S').
      * intros m. pose proof (occ_heap_put h n _ None m End) as Hp. cbn [kids] in Hp.
        change (occ m []) with 0%nat in Hp.
        specialize (HI m). rewrite <- app_assoc, occ_app, occ_rev.
        destruct (Nat.eq_dec m n) as [->|D].
        -- rewrite r_put_same by exact Hlt. rewrite occ_app in *. lia.
        -- rewrite r_put_other by exact D. cbn [app] in HI. rewrite occ_cons in HI.
           destruct (Nat.eq_dec n m); [congruence|]. rewrite occ_app in *. cbn [kids] in Hp.
           destruct (nth_error h m) as [[x|]|]; lia.
      * pose proof (len_heap_put h n _ None End) as Hp. cbn [kids length] in Hp.
        rewrite app_length, rev_length. lia.
      * pose proof (len_heap_put h n _ None End) as Hp. cbn [kids length] in Hp.
        rewrite app_length, rev_length. lia.
      * exists h'. split; [exact E|]. split; [exact I'|].
        eapply shrinks_trans; [|exact S']. eapply shrinks_put; [exact End|]. discriminate.
    + set (nd' := mkR (r_rc nd - 1) (r_adj nd) (r_args nd)).
      assert (Ek : kids (Some nd') = kids (Some nd)) by reflexivity.
      destruct (IH rest (r_put h n (Some nd')) rs) as (h' & E & I' & S').
      * intros m. pose proof (occ_heap_put h n _ (Some nd') m End) as Hp. rewrite Ek in Hp.
        specialize (HI m).
        destruct (Nat.eq_dec m n) as [->|D].
        -- rewrite r_put_same by exact Hlt. cbn [r_rc]. unfold nd'; cbn [r_rc]. fold nd'. split; lia.
        -- rewrite r_put_other by exact D. cbn [app] in HI. rewrite occ_cons in HI.
           destruct (Nat.eq_dec n m); [congruence|].
           destruct (nth_error h m) as [[x|]|]; lia.
      * pose proof (len_heap_put h n _ (Some nd') End) as Hp. rewrite Ek in Hp. lia.
      * pose proof (len_heap_put h n _ (Some nd') End) as Hp. rewrite Ek in Hp. lia.
      * exists h'. split; [exact E|]. split; [exact I'|].
        eapply shrinks_trans; [|exact S']. eapply shrinks_put; [exact End|].
        intros x Hx. injection Hx as <-. auto.
Qed.

Lemma dec_opt_ok h p rs : InvH h (opt_list p ++ rs) ->
  Z.of_nat (length (opt_list p) + length rs + length (heap_refs h)) < 2 ^ 32 ->
  exists h', dec_opt h p = Ok h' /\ InvH h' rs /\ shrinks h h'.
Proof.
  destruct p as [n|]; cbn [opt_list dec_opt]; intros HI Hs.
  - apply dec_loop_ok; [exact HI|cbn [length]; lia|exact Hs].
  - exists h. split; [reflexivity|]. split; [exact HI|apply shrinks_refl].
Qed.

Lemma inc_ok h n rs : InvH h rs -> In n rs \/ In n (heap_refs h) ->
  Z.of_nat (length rs + length (heap_refs h) + 1) < 2 ^ 32 ->
  exists h', inc h n = Ok h' /\ InvH h' (n :: rs) /\ heap_refs h' = heap_refs h /\
    shrinks h h' /\ shrinks h' h.
Proof.
  intros HI Hn Hs. destruct (InvH_alive _ _ n HI Hn) as (nd & End).
  unfold inc. rewrite (proj2 (r_get_ok h n nd) End). cbn [obind].
  pose proof (HI n) as Hc. rewrite End in Hc. destruct Hc as [Hrc _].
  pose proof (occ_le n rs). pose proof (occ_le n (heap_refs h)).
  rewrite u32_id by lia.
  set (nd' := mkR (r_rc nd + 1) (r_adj nd) (r_args nd)).
  eexists. split; [reflexivity|].
  assert (Ek : kids (Some nd') = kids (Some nd)) by reflexivity.
  assert (Hr : heap_refs (r_put h n (Some nd')) = heap_refs h).
  { clear -End Ek. revert n End; induction h as [|y h IH]; intros [|n] E; cbn in E; try discriminate.
    - injection E as ->. cbn [r_put]. rewrite !heap_refs_cons, Ek. reflexivity.
    - cbn [r_put]. rewrite !heap_refs_cons, IH by exact E. reflexivity. }
  split; [|split; [exact Hr|split]].
  - intros m. rewrite Hr, occ_cons. specialize (HI m).
    destruct (Nat.eq_dec m n) as [->|D].
    + rewrite r_put_same by (eapply nth_lt; eauto). unfold nd'; cbn [r_rc].
      destruct (Nat.eq_dec n n); [|congruence]. lia.
    + rewrite r_put_other by exact D. destruct (Nat.eq_dec n m); [congruence|]. exact HI.
  - eapply shrinks_put; [exact End|]. intros x Hx; injection Hx as <-; auto.
  - split; [symmetry; apply r_put_length|]. intros m x Hm.
    destruct (Nat.eq_dec m n) as [->|D].
    + rewrite End in Hm. injection Hm as <-. exists nd'.
      rewrite r_put_same by (eapply nth_lt; eauto). auto.
    + exists x. rewrite r_put_other by exact D. auto.
Qed.

Lemma inc_opt_ok h p rs : InvH h rs -> (forall n, p = Some n -> In n rs \/ In n (heap_refs h)) ->
  Z.of_nat (length rs + length (heap_refs h) + 1) < 2 ^ 32 ->
  exists h', inc_opt h p = Ok h' /\ InvH h' (opt_list p ++ rs) /\ heap_refs h' = heap_refs h /\
    shrinks h h' /\ shrinks h' h.
Proof.
  destruct p as [n|]; cbn [inc_opt opt_list app]; intros HI Hn Hs.
  - apply inc_ok; auto.
  - exists h. split; [reflexivity|]. split; [exact HI|]. split; [reflexivity|]. split; apply shrinks_refl.
Qed.

Lemma inc_all_ok l : forall h rs, InvH h rs -> (forall n, In n l -> In n rs) ->
  Z.of_nat (length rs + length (heap_refs h) + length l) < 2 ^ 32 ->
  exists h', inc_all h l = Ok h' /\ InvH h' (l ++ rs) /\ heap_refs h' = heap_refs h /\ length h' = length h /\
    shrinks h h' /\ shrinks h' h.
Proof.
  induction l as [|n l IH]; intros h rs HI Hl Hs.
  - exists h. split; [reflexivity|]. split; [exact HI|]. split; [reflexivity|]. split; [reflexivity|]. split; apply shrinks_refl.
  - cbn [length] in Hs.
    destruct (inc_ok h n rs HI) as (h1 & E1 & I1 & R1 & S1 & T1); [left; apply Hl; left; reflexivity|lia|].
    destruct (IH h1 (n :: rs) I1) as (h2 & E2 & I2 & R2 & L2 & S2 & T2).
    { intros m Hm. right. apply Hl. right. exact Hm. }
    { rewrite R1. cbn [length]. lia. }
    exists h2. cbn [inc_all]. rewrite E1. cbn [obind]. rewrite E2.
    split; [reflexivity|]. split.
    + eapply InvH_ext; [|exact I2]. intros m. cbn [app]. rewrite occ_cons, !occ_app, occ_cons. lia.
    + split; [congruence|]. split; [destruct S1; lia|]. split; eapply shrinks_trans; eauto.
Qed.

(** Overwriting the adjoint slot of a node that outlives a release commutes with the release. *)
Definition set_adj (nd : rnode) (p : option nat) : rnode := mkR (r_rc nd) p (r_args nd).

Lemma r_put_put h n o o' : r_put (r_put h n o) n o' = r_put h n o'.
Proof. revert n; induction h as [|x h IH]; intros [|n]; cbn; auto. f_equal; auto. Qed.

Lemma r_put_comm h n m o o' : n <> m -> r_put (r_put h n o) m o' = r_put (r_put h m o') n o.
Proof. revert n m; induction h as [|x h IH]; intros [|n] [|m] D; cbn; auto; try congruence. f_equal; auto. Qed.

Lemma r_put_id h n o : nth_error h n = Some o -> r_put h n o = h.
Proof. revert n; induction h as [|x h IH]; intros [|n] E; cbn in *; try discriminate; [congruence|]. f_equal; auto. Qed.

Lemma dec_loop_freed fuel : forall stack h h' n, dec_loop fuel stack h = Ok h' ->
  nth_error h n = Some None -> nth_error h' n = Some None.
Proof.
  induction fuel as [|fuel IH]; intros [|m rest] h h' n E Hn; cbn [dec_loop] in E; try congruence.
  apply obind_ok in E as (nd & G & E). apply r_get_ok in G.
  assert (D : n <> m) by congruence.
  destruct (_ =? 0); eapply IH; eauto; rewrite r_put_other by exact D; exact Hn.
Qed.

Lemma dec_loop_adj fuel : forall stack h h' n nd nd' p,
  dec_loop fuel stack h = Ok h' -> nth_error h n = Some (Some nd) -> nth_error h' n = Some (Some nd') ->
  dec_loop fuel stack (r_put h n (Some (set_adj nd p))) = Ok (r_put h' n (Some (set_adj nd' p))).
Proof.
  induction fuel as [|fuel IH]; intros [|m rest] h h' n nd nd' p E Hn Hn'; cbn [dec_loop] in E |- *; try congruence.
  apply obind_ok in E as (x & G & E). apply r_get_ok in G.
  assert (Hlt : (n < length h)%nat) by (eapply nth_lt; eauto).
  destruct (Nat.eq_dec m n) as [->|D].
  - rewrite Hn in G. injection G as <-.
    rewrite (proj2 (r_get_ok _ n (set_adj nd p))) by (apply r_put_same; exact Hlt).
    cbn [obind set_adj r_rc r_adj r_args].
    destruct (_ =? 0).
    + exfalso. apply (dec_loop_freed _ _ _ _ n) in E; [congruence|]. apply r_put_same; exact Hlt.
    + rewrite r_put_put.
      specialize (IH _ _ _ n _ _ p E (r_put_same _ _ _ Hlt) Hn').
      rewrite r_put_put in IH. exact IH.
  - rewrite (proj2 (r_get_ok _ m x)) by (rewrite r_put_other by exact D; exact G).
    cbn [obind]. destruct (_ =? 0).
    + rewrite r_put_comm by congruence. apply IH; auto. rewrite r_put_other by congruence. exact Hn.
    + rewrite r_put_comm by congruence. apply IH; auto. rewrite r_put_other by congruence. exact Hn.
Qed.

(** The fuel of [dec] is irrelevant once large enough. *)
Lemma dec_loop_fuel f1 : forall f2 stack h h', (f1 <= f2)%nat -> dec_loop f1 stack h = Ok h' ->
  dec_loop f2 stack h = Ok h'.
Proof.
  induction f1 as [|f1 IH]; intros f2 [|n rest] h h' L E; destruct f2 as [|f2]; cbn [dec_loop] in *;
    try discriminate; try assumption; try lia.
  apply obind_ok in E as (nd & G & E). rewrite G. cbn [obind].
  destruct (_ =? 0); eapply IH; eauto; lia.
Qed.

Definition Inv (s : rstate) : Prop := InvH (s_heap s) (roots (s_vars s)).

Definition sized (s : rstate) (k : nat) : Prop := Z.of_nat (handles s + k) < 2 ^ 32.

Lemma nonnull_deref s i : nonnull s i -> exists n, deref s i = Ok n /\ In n (roots (s_vars s)).
Proof.
  intros (n & E). exists n. unfold deref. rewrite E. split; [reflexivity|]. apply roots_in. eauto.
Qed.

Lemma derefs_ok s l : (forall i, In i l -> nonnull s i) ->
  exists ns, derefs s l = Ok ns /\ length ns = length l /\ forall n, In n ns -> In n (roots (s_vars s)).
Proof.
  induction l as [|i l IH]; intros H.
  - exists []. cbn. intuition.
  - destruct (nonnull_deref s i) as (n & E & Hn); [apply H; left; reflexivity|].
    destruct IH as (ns & E' & L & Hns); [intros; apply H; right; assumption|].
    exists (n :: ns). cbn [derefs]. rewrite E. cbn [obind]. rewrite E'. cbn [obind length].
    split; [reflexivity|]. split; [lia|]. intros m [<-|Hm]; auto.
Qed.

Lemma rd_var s i : var_ok s i -> exists p, rd s (LVar i) = Ok p /\ nth_error (s_vars s) i = Some p.
Proof.
  intros H. cbn [rd]. destruct (nth_error (s_vars s) i) as [p|] eqn:E; [eauto|].
  apply nth_error_None in E. unfold var_ok in H. lia.
Qed.

Lemma same_ptr_spec p q : Bool.reflect (p = q) (same_ptr p q).
Proof.
  destruct p as [a|], q as [b|]; cbn; try (constructor; congruence).
  destruct (Nat.eqb_spec a b); constructor; congruence.
Qed.

Lemma occ_put_none l i p x : nth_error l i = Some p ->
  (occ x (roots l) = occ x (opt_list p) + occ x (roots (put l i None)))%nat.
Proof.
  intros H. pose proof (occ_roots_put l i p None x H) as E. cbn [opt_list] in E.
  change (occ x []) with 0%nat in E. lia.
Qed.

Lemma len_roots_put l i p p' : nth_error l i = Some p ->
  (length (roots (put l i p')) + length (opt_list p) = length (roots l) + length (opt_list p'))%nat.
Proof.
  revert i; induction l as [|y l IH]; intros [|i] H; cbn [nth_error] in H; try discriminate.
  - injection H as ->. unfold roots. cbn [put flat_map]. rewrite !app_length. lia.
  - unfold roots in *. cbn [put flat_map]. rewrite !app_length. specialize (IH _ H). lia.
Qed.

(** Releasing one variable's handle. *)
Lemma release_var s i p : Inv s -> sized s 0 -> nth_error (s_vars s) i = Some p ->
  exists h', dec_opt (s_heap s) p = Ok h' /\ InvH h' (roots (put (s_vars s) i None)) /\ shrinks (s_heap s) h'.
Proof.
  intros HI Hs Hp. apply dec_opt_ok.
  - eapply InvH_ext; [|exact HI]. intros n. rewrite occ_app. apply occ_put_none; exact Hp.
  - pose proof (len_roots_put _ _ _ None Hp) as E. cbn [opt_list length] in E.
    pose proof (len_roots (s_vars s)). unfold sized, handles in Hs. lia.
Qed.

Lemma shrinks_len_refs_aux h : forall h', length h' = length h ->
  (forall n nd', nth_error h' n = Some (Some nd') ->
    exists nd, nth_error h n = Some (Some nd) /\ r_adj nd' = r_adj nd /\ r_args nd' = r_args nd) ->
  (length (heap_refs h') <= length (heap_refs h))%nat.
Proof.
  induction h as [|x h IH]; intros [|y h'] L H; cbn in L; try lia.
  rewrite !heap_refs_cons, !app_length.
  assert (length (heap_refs h') <= length (heap_refs h))%nat.
  { apply IH; [lia|]. intros n nd' E. exact (H (S n) nd' E). }
  assert (length (kids y) <= length (kids x))%nat.
  { destruct y as [nd'|]; [|cbn; lia]. destruct (H 0%nat nd' eq_refl) as (nd & E & A & B).
    cbn in E. injection E as ->. cbn [kids]. unfold children. rewrite A, B. lia. }
  lia.
Qed.

Lemma shrinks_len_refs h h' : shrinks h h' -> (length (heap_refs h') <= length (heap_refs h))%nat.
Proof. intros [L H]. apply shrinks_len_refs_aux; assumption. Qed.

Lemma assign_var s i j p q : Inv s -> sized s 1 ->
  nth_error (s_vars s) i = Some p -> nth_error (s_vars s) j = Some q ->
  exists s', copy_assign s (LVar i) (LVar j) = Ok s' /\ Inv s' /\ s_vars s' = put (s_vars s) i q /\
    shrinks (s_heap s) (s_heap s').
Proof.
  intros HI Hs Hp Hq. unfold copy_assign. cbn [rd]. rewrite Hp, Hq. cbn [obind].
  destruct (same_ptr_spec p q) as [->|D].
  - exists s. assert (E : put (s_vars s) i q = s_vars s).
    { clear -Hp. revert i Hp. induction (s_vars s) as [|y l IH]; intros [|i] H; cbn in *; try discriminate; [congruence|].
      f_equal; auto. }
    split; [reflexivity|]. split; [exact HI|]. split; [auto|apply shrinks_refl].
  - assert (Dij : j <> i) by congruence.
    destruct (release_var s i p HI) as (h1 & E1 & I1 & S1); [unfold sized in *; lia|exact Hp|].
    rewrite E1. cbn [obind s_vars]. rewrite Hq. cbn [obind wr s_vars s_heap]. rewrite Hp. cbn [obind s_heap s_vars].
    destruct (inc_opt_ok h1 q _ I1) as (h2 & E2 & I2 & R2 & S2 & T2).
    { intros n ->. left. apply roots_in. exists j. rewrite put_other by exact Dij. exact Hq. }
    { pose proof (len_roots (put (s_vars s) i None)). rewrite put_length in *.
      pose proof (shrinks_len_refs _ _ S1). unfold sized, handles in Hs. lia. }
    rewrite E2. cbn [obind]. eexists. split; [reflexivity|]. split; [|split; [reflexivity|]].
    + unfold Inv. cbn [s_heap s_vars]. eapply InvH_ext; [|exact I2].
      intros n. rewrite occ_app. pose proof (occ_roots_put _ _ _ q n Hp).
      pose proof (occ_put_none _ _ _ n Hp). lia.
    + cbn [s_heap]. eapply shrinks_trans; eauto.
Qed.

Lemma len_children_set nd p : (length (children (set_adj nd p)) + length (opt_list (r_adj nd)) =
  length (children nd) + length (opt_list p))%nat.
Proof. unfold children, set_adj; cbn [r_adj r_args]. rewrite !app_length. lia. Qed.

Lemma occ_children_set nd p x : (occ x (children (set_adj nd p)) + occ x (opt_list (r_adj nd)) =
  occ x (children nd) + occ x (opt_list p))%nat.
Proof. unfold children, set_adj; cbn [r_adj r_args]. rewrite !occ_app. lia. Qed.

(** Moving the reference held by an adjoint slot outside the heap. *)
Lemma detach_adj h n nd rs : InvH h rs -> nth_error h n = Some (Some nd) ->
  InvH (r_put h n (Some (set_adj nd None))) (opt_list (r_adj nd) ++ rs) /\
  (length (opt_list (r_adj nd)) + length (heap_refs (r_put h n (Some (set_adj nd None)))) = length (heap_refs h))%nat.
Proof.
  intros HI E. split.
  - intros m. pose proof (occ_heap_put h n _ (Some (set_adj nd None)) m E) as Hp. cbn [kids] in Hp.
    pose proof (occ_children_set nd None m) as Hc. cbn [opt_list] in Hc. change (occ m []) with 0%nat in Hc.
    specialize (HI m). rewrite occ_app.
    destruct (Nat.eq_dec m n) as [->|D].
    + rewrite r_put_same by (eapply nth_lt; eauto). rewrite E in HI. cbn [set_adj r_rc]. lia.
    + rewrite r_put_other by exact D. destruct (nth_error h m) as [[x|]|]; lia.
  - pose proof (len_heap_put h n _ (Some (set_adj nd None)) E) as Hp. cbn [kids] in Hp.
    pose proof (len_children_set nd None) as Hc. cbn [opt_list length] in Hc. lia.
Qed.

(** Storing an outside reference into an empty adjoint slot. *)
Lemma attach_adj h n nd p rs : InvH h (opt_list p ++ rs) -> nth_error h n = Some (Some nd) ->
  r_adj nd = None -> InvH (r_put h n (Some (set_adj nd p))) rs.
Proof.
  intros HI E A m. pose proof (occ_heap_put h n _ (Some (set_adj nd p)) m E) as Hp. cbn [kids] in Hp.
  pose proof (occ_children_set nd p m) as Hc. rewrite A in Hc. cbn [opt_list] in Hc. change (occ m []) with 0%nat in Hc.
  specialize (HI m). rewrite occ_app in HI.
  destruct (Nat.eq_dec m n) as [->|D].
  + rewrite r_put_same by (eapply nth_lt; eauto). rewrite E in HI. cbn [set_adj r_rc]. lia.
  + rewrite r_put_other by exact D. destruct (nth_error h m) as [[x|]|]; lia.
Qed.

Lemma set_adj_set nd p q : set_adj (set_adj nd p) q = set_adj nd q.
Proof. reflexivity. Qed.

Lemma set_adj_same nd : set_adj nd (r_adj nd) = nd.
Proof. destruct nd; reflexivity. Qed.

Lemma inc_adj h n nd m h' q : m = n \/ m <> n -> nth_error h n = Some (Some nd) -> inc h m = Ok h' ->
  exists nd', nth_error h' n = Some (Some nd') /\ r_adj nd' = r_adj nd /\
    inc (r_put h n (Some (set_adj nd q))) m = Ok (r_put h' n (Some (set_adj nd' q))).
Proof.
  intros D0 E. unfold inc. intros I. apply obind_ok in I as (x & G & I). injection I as <-.
  apply r_get_ok in G. assert (Hlt : (n < length h)%nat) by (eapply nth_lt; eauto).
  destruct D0 as [->|D].
  - rewrite E in G. injection G as <-. rewrite r_put_same by exact Hlt. eexists. split; [reflexivity|].
    split; [reflexivity|].
    rewrite (proj2 (r_get_ok _ n (set_adj nd q))) by (apply r_put_same; exact Hlt).
    cbn [obind]. rewrite !r_put_put. reflexivity.
  - rewrite r_put_other by congruence. exists nd. split; [exact E|]. split; [reflexivity|].
    rewrite (proj2 (r_get_ok _ m x)) by (rewrite r_put_other by exact D; exact G).
    cbn [obind]. rewrite r_put_comm by congruence. reflexivity.
Qed.

Lemma inc_opt_adj h n nd p h' q : nth_error h n = Some (Some nd) -> inc_opt h p = Ok h' ->
  exists nd', nth_error h' n = Some (Some nd') /\ r_adj nd' = r_adj nd /\
    inc_opt (r_put h n (Some (set_adj nd q))) p = Ok (r_put h' n (Some (set_adj nd' q))).
Proof.
  destruct p as [m|]; cbn [inc_opt]; intros E I.
  - eapply inc_adj; eauto. destruct (Nat.eq_dec m n); auto.
  - injection I as <-. exists nd. auto.
Qed.

(** Same shape except one adjoint slot. *)
Lemma setadj_ok s i j n q : Inv s -> sized s 1 ->
  nth_error (s_vars s) i = Some (Some n) -> nth_error (s_vars s) j = Some q ->
  exists s', copy_assign s (LAdj n) (LVar j) = Ok s' /\ Inv s' /\ s_vars s' = s_vars s /\
    (forall m nd', nth_error (s_heap s') m = Some (Some nd') ->
       exists nd, nth_error (s_heap s) m = Some (Some nd) /\ r_args nd' = r_args nd /\
         r_adj nd' = (if Nat.eq_dec m n then q else r_adj nd)) /\ length (s_heap s') = length (s_heap s).
Proof.
  intros HI Hs Hn Hq.
  assert (Hroot : In n (roots (s_vars s))) by (apply roots_in; eauto).
  destruct (InvH_alive _ _ n HI (or_introl Hroot)) as (nd & End).
  unfold copy_assign. cbn [rd]. rewrite (proj2 (r_get_ok _ _ _) End). cbn [obind]. rewrite Hq. cbn [obind].
  destruct (same_ptr_spec (r_adj nd) q) as [Eq0|D].
  - exists s. split; [reflexivity|]. split; [exact HI|]. split; [reflexivity|]. split; [|reflexivity].
    intros m x Hm. exists x. split; [exact Hm|]. split; [reflexivity|].
    destruct (Nat.eq_dec m n) as [->|]; [congruence|reflexivity].
  - destruct (detach_adj _ _ _ _ HI End) as (I0 & L0).
    set (h0 := r_put (s_heap s) n (Some (set_adj nd None))) in *.
    assert (Hlt : (n < length (s_heap s))%nat) by (eapply nth_lt; eauto).
    destruct (dec_opt_ok h0 (r_adj nd) (roots (s_vars s)) I0) as (h1 & E1 & I1 & S1).
    { pose proof (len_roots (s_vars s)). unfold sized, handles in Hs. lia. }
    destruct (InvH_alive _ _ n I1 (or_introl Hroot)) as (nd1 & End1).
    destruct (proj2 S1 _ _ End1) as (nd0 & End0 & A0 & B0).
    unfold h0 in End0. rewrite r_put_same in End0 by exact Hlt. injection End0 as <-. cbn [set_adj r_adj r_args] in A0, B0.
    assert (Edec : dec_opt (s_heap s) (r_adj nd) = Ok (r_put h1 n (Some (set_adj nd1 (r_adj nd))))).
    { destruct (r_adj nd) as [a|] eqn:Ea; cbn [dec_opt] in *.
      - unfold dec in *.
        assert (En0 : nth_error h0 n = Some (Some (set_adj nd None))) by (apply r_put_same; exact Hlt).
        pose proof (dec_loop_adj _ _ _ _ _ _ _ (Some a) E1 En0 End1) as X.
        unfold h0 in X at 2. rewrite r_put_put, set_adj_set, <- Ea, set_adj_same in X.
        rewrite (r_put_id _ _ _ End) in X. rewrite Ea in X. eapply dec_loop_fuel; [|exact X].
        cbn [opt_list length] in L0. lia.
      - injection E1 as <-. unfold h0 in End1. rewrite r_put_same in End1 by exact Hlt. injection End1 as <-.
        unfold h0. rewrite r_put_put, set_adj_set. rewrite <- Ea at 1. rewrite set_adj_same.
        rewrite (r_put_id _ _ _ End). reflexivity. }
    rewrite Edec. cbn [obind s_vars]. rewrite Hq. cbn [obind wr s_heap s_vars].
    assert (Hlt1 : (n < length h1)%nat) by (eapply nth_lt; eauto).
    rewrite (proj2 (r_get_ok _ n (set_adj nd1 (r_adj nd)))) by (apply r_put_same; exact Hlt1).
    cbn [obind s_heap s_vars set_adj r_rc r_args]. rewrite r_put_put.
    destruct (inc_opt_ok h1 q _ I1) as (h2 & E2 & I2 & R2 & S2 & T2).
    { intros m ->. left. apply roots_in. eauto. }
    { pose proof (len_roots (s_vars s)). pose proof (shrinks_len_refs _ _ S1).
      unfold sized, handles in Hs. lia. }
    destruct (inc_opt_adj _ _ _ _ _ q End1 E2) as (nd2 & End2 & A2 & E2').
    unfold set_adj at 1 in E2'. rewrite E2'. cbn [obind].
    eexists. split; [reflexivity|]. split; [|split; [reflexivity|split]].
    + unfold Inv. cbn [s_heap s_vars]. apply attach_adj; [exact I2|exact End2|congruence].
    + cbn [s_heap]. intros m x Hm. destruct (Nat.eq_dec m n) as [->|Dm].
      * rewrite r_put_same in Hm by (eapply nth_lt; eauto). injection Hm as <-.
        exists nd. split; [exact End|]. cbn [set_adj r_args r_adj]. split; [|reflexivity].
        destruct (proj2 S2 _ _ End2) as (y & Ey & _ & By). rewrite End1 in Ey. injection Ey as <-. congruence.
      * rewrite r_put_other in Hm by exact Dm.
        destruct (proj2 S2 _ _ Hm) as (y & Ey & Ay & By). destruct (proj2 S1 _ _ Ey) as (z & Ez & Az & Bz).
        unfold h0 in Ez. rewrite r_put_other in Ez by exact Dm. exists z.
        split; [exact Ez|]. split; congruence.
    + cbn [s_heap]. rewrite r_put_length. destruct S2 as [L2 _], S1 as [L1 _]. unfold h0 in L1.
      rewrite r_put_length in L1. lia.
Qed.

Lemma rd_adj s n nd : nth_error (s_heap s) n = Some (Some nd) -> rd s (LAdj n) = Ok (r_adj nd).
Proof. intros E. cbn [rd]. rewrite (proj2 (r_get_ok _ _ _) E). reflexivity. Qed.

Lemma wr_adj s n nd p : nth_error (s_heap s) n = Some (Some nd) ->
  wr s (LAdj n) p = Ok (mkS (r_put (s_heap s) n (Some (set_adj nd p))) (s_vars s)).
Proof. intros E. cbn [wr]. rewrite (proj2 (r_get_ok _ _ _) E). reflexivity. Qed.

(** Every well-formed step succeeds and keeps the invariant. *)
Lemma step_ok s o : Inv s -> op_ok s o -> fits s o -> exists s', rstep s o = Ok s' /\ Inv s'.
Proof.
  intros HI Hop Hfit. unfold fits in Hfit.
  pose proof (len_roots (s_vars s)) as Hlr. unfold handles in Hfit.
  destruct o as [is|i|i|i j|i j|i|i j|i|i]; cbn [op_ok rstep op_size] in *.
  - destruct (derefs_ok s is Hop) as (ns & E & L & Hns). rewrite E. cbn [obind].
    destruct (inc_all_ok ns _ _ HI Hns) as (h & E2 & I2 & R2 & L2 & _); [lia|].
    rewrite E2. cbn [obind]. eexists. split; [reflexivity|].
    unfold Inv. cbn [s_heap s_vars]. intros n. rewrite roots_app, heap_refs_app, !occ_app.
    replace (roots [Some (length h)]) with [length h] by reflexivity.
    replace (heap_refs [Some (mkR 1 None ns)]) with ns by (unfold heap_refs, children; cbn; rewrite app_nil_r; reflexivity).
    rewrite occ_cons. change (occ n []) with 0%nat.
    pose proof (I2 n) as Hn. rewrite occ_app in Hn.
    destruct (Nat.lt_trichotomy n (length h)) as [Hl|[->|Hg]].
    + rewrite nth_error_app1 by exact Hl. destruct (Nat.eq_dec (length h) n); [lia|].
      destruct (nth_error h n) as [[x|]|]; lia.
    + rewrite nth_error_app2 by lia. rewrite Nat.sub_diag. cbn [nth_error r_rc].
      destruct (Nat.eq_dec (length h) (length h)); [|congruence].
      rewrite (proj2 (nth_error_None h (length h))) in Hn by lia. lia.
    + rewrite nth_error_app2 by lia. destruct (n - length h)%nat eqn:En; [lia|]. cbn [nth_error].
      destruct (Nat.eq_dec (length h) n); [lia|].
      rewrite (proj2 (nth_error_None h n)) in Hn by lia. destruct n0; cbn [nth_error]; lia.
  - destruct (rd_var s i Hop) as (p & E & Ep). cbn [rd] in E |- *. rewrite E. cbn [obind].
    destruct (inc_opt_ok _ p _ HI) as (h & E2 & I2 & _).
    { intros n ->. left. apply roots_in. eauto. } { lia. }
    rewrite E2. cbn [obind]. eexists. split; [reflexivity|]. unfold Inv. cbn [s_heap s_vars].
    eapply InvH_ext; [|exact I2]. intros n. rewrite roots_app, !occ_app. cbn [roots flat_map]. rewrite app_nil_r. lia.
  - destruct (rd_var s i Hop) as (p & E & Ep). cbn [rd] in E |- *. rewrite E. cbn [obind].
    eexists. split; [reflexivity|]. unfold Inv. cbn [s_heap s_vars].
    eapply InvH_ext; [|exact HI]. intros n. rewrite roots_app, !occ_app. cbn [roots flat_map]. rewrite app_nil_r.
    rewrite (occ_put_none _ _ _ n Ep). lia.
  - destruct Hop as [Hi Hj]. destruct (rd_var s i Hi) as (p & _ & Ep). destruct (rd_var s j Hj) as (q & _ & Eq0).
    destruct (assign_var s i j p q HI) as (s' & E & I' & _); auto.
    exists s'. auto.
  - destruct Hop as [Hi Hj]. destruct (rd_var s i Hi) as (p & _ & Ep). destruct (rd_var s j Hj) as (q & _ & Eq0).
    unfold move_assign. cbn [rd]. rewrite Ep, Eq0. cbn [obind].
    destruct (same_ptr_spec p q) as [->|D]; [exists s; auto|].
    cbn [wr]. rewrite Ep. cbn [obind s_vars s_heap]. rewrite put_other by congruence. rewrite Eq0.
    eexists. split; [reflexivity|]. unfold Inv. cbn [s_heap s_vars].
    eapply InvH_ext; [|exact HI]. intros n.
    pose proof (occ_roots_put _ _ _ q n Ep) as X1.
    assert (Ej : nth_error (put (s_vars s) i q) j = Some q) by (rewrite put_other by congruence; exact Eq0).
    pose proof (occ_roots_put _ _ _ p n Ej) as X2. lia.
  - destruct (rd_var s i Hop) as (p & E & Ep). cbn [rd] in E |- *. rewrite E. cbn [obind].
    destruct (release_var s i p HI) as (h & E2 & I2 & _); [unfold sized, handles; lia|exact Ep|].
    rewrite E2. cbn [obind]. eexists. split; [reflexivity|]. exact I2.
  - destruct Hop as [(n & En) Hj]. destruct (rd_var s j Hj) as (q & _ & Eq0).
    unfold deref. rewrite En. cbn [obind].
    destruct (setadj_ok s i j n q HI) as (s' & E & I' & _); auto. exists s'. auto.
  - destruct Hop as (n & En). unfold deref. rewrite En. cbn [obind].
    destruct (InvH_alive _ _ n HI) as (nd & End). { left. apply roots_in. eauto. }
    rewrite (rd_adj _ _ _ End). cbn [obind]. rewrite (wr_adj _ _ _ _ End). cbn [obind s_heap s_vars].
    destruct (detach_adj _ _ _ _ HI End) as (I0 & L0).
    destruct (dec_opt_ok _ _ _ I0) as (h1 & E1 & I1 & _); [lia|].
    rewrite E1. cbn [obind]. eexists. split; [reflexivity|]. exact I1.
  - destruct Hop as (n & En). unfold deref. rewrite En. cbn [obind].
    destruct (InvH_alive _ _ n HI) as (nd & End). { left. apply roots_in. eauto. }
    rewrite (rd_adj _ _ _ End). cbn [obind]. rewrite (wr_adj _ _ _ _ End). cbn [obind s_heap s_vars].
    destruct (detach_adj _ _ _ _ HI End) as (I0 & L0).
    eexists. split; [reflexivity|]. unfold Inv. cbn [s_heap s_vars].
    eapply InvH_ext; [|exact I0]. intros m. rewrite roots_app, !occ_app. cbn [roots flat_map]. rewrite app_nil_r. lia.
Qed.

Lemma run_inv s : run s -> Inv s.
Proof.
  induction 1 as [|s o s' _ IH Hop Hf E].
  - intros n. cbn. destruct n; reflexivity.
  - destruct (step_ok s o IH Hop Hf) as (s'' & E' & I').
    rewrite E in E'. injection E' as <-. exact I'.
Qed.

(** Progress: no use of a freed node, no double free, no non-termination, at any step of any history. *)
Lemma run_progress s o : run s -> op_ok s o -> fits s o -> exists s', rstep s o = Ok s'.
Proof. intros R Ho Hf. destruct (step_ok s o (run_inv s R) Ho Hf) as (s' & E & _). eauto. Qed.

Lemma points_refs s n c : points s n c -> In c (heap_refs (s_heap s)).
Proof.
  intros (nd & E & H). unfold heap_refs. apply in_flat_map. exists (Some nd).
  split; [eapply nth_error_In; eauto|]. unfold children. apply in_or_app.
  destruct H as [H|H]; [left; rewrite H; left; reflexivity|right; exact H].
Qed.

Lemma refs_points s c : In c (heap_refs (s_heap s)) -> exists n, points s n c.
Proof.
  unfold heap_refs. rewrite in_flat_map. intros (o & Ho & Hc). destruct o as [nd|]; [|destruct Hc].
  apply In_nth_error in Ho as (n & E). exists n, nd. split; [exact E|].
  unfold children in Hc. apply in_app_or in Hc as [Hc|Hc]; [|auto].
  destruct (r_adj nd); cbn in Hc; [|contradiction]. destruct Hc as [->|[]]. auto.
Qed.

Lemma inv_reach_alive s n : Inv s -> reach s n -> alive s n.
Proof.
  intros HI R. destruct R as [i n E|m n R P].
  - apply (InvH_alive _ _ _ HI). left. apply roots_in. eauto.
  - apply (InvH_alive _ _ _ HI). right. eapply points_refs; eauto.
Qed.

Lemma points_alive s n c : points s n c -> (n < length (s_heap s))%nat.
Proof. intros (nd & E & _). eapply nth_lt; eauto. Qed.

(** An upper bound on the ranks of existing nodes. *)
Lemma rank_bound (rank : nat -> nat) k : exists B, forall n, (n < k)%nat -> (rank n <= B)%nat.
Proof.
  induction k as [|k (B & IH)]; [exists 0%nat; lia|].
  exists (Nat.max B (rank k)). intros n Hn. destruct (Nat.eq_dec n k) as [->|]; [lia|].
  specialize (IH n). lia.
Qed.

Lemma inv_alive_reach s n : Inv s -> acyclic s -> alive s n -> reach s n.
Proof.
  intros HI (rank & Hr). destruct (rank_bound rank (length (s_heap s))) as (B & HB).
  assert (G : forall k m, (B - rank m < k)%nat -> alive s m -> reach s m).
  { induction k as [|k IH]; intros m Hk (nd & E); [lia|].
    pose proof (HI m) as Hm. rewrite E in Hm. destruct Hm as [_ Hm].
    destruct (Nat.eq_dec (occ m (roots (s_vars s))) 0) as [Z|NZ].
    - assert (Hin : In m (heap_refs (s_heap s))) by (apply occ_in; lia).
      destruct (refs_points s m Hin) as (p & Hp). pose proof (Hr _ _ Hp) as Hlt.
      apply (reach_step s p m); [|exact Hp]. apply IH.
      + pose proof (HB p (points_alive _ _ _ Hp)). lia.
      + destruct Hp as (x & Ex & _). exists x. exact Ex.
    - assert (Hin : In m (roots (s_vars s))) by (apply occ_in; lia).
      apply roots_in in Hin as (i & Hi). eapply reach_var; eauto. }
  intros Ha. apply (G (S (B - rank n)) n); [lia|exact Ha].
Qed.

Lemma run_safe s : run s -> (forall n, reach s n -> alive s n) /\
  (acyclic s -> forall n, alive s n -> reach s n) /\
  (acyclic s -> (forall i p, nth_error (s_vars s) i = Some p -> p = None) -> forall n, ~ alive s n).
Proof.
  intros R. pose proof (run_inv s R) as HI. split; [|split].
  - intros n. apply inv_reach_alive; exact HI.
  - intros Ha n. apply inv_alive_reach; assumption.
  - intros Ha Hv n Hn. pose proof (inv_alive_reach s n HI Ha Hn) as Rn.
    induction Rn as [i n E|m n Rm IH P].
    + apply Hv in E. discriminate.
    + apply IH. destruct P as (nd & E & _). exists nd. exact E.
Qed.

(** Sub-heaps of acyclic heaps are acyclic. *)
Lemma shrinks_points h h' v v' n c : shrinks h h' -> points (mkS h' v') n c -> points (mkS h v) n c.
Proof.
  intros [_ H] (nd & E & P). cbn [s_heap] in E. destruct (H _ _ E) as (nd0 & E0 & A & B).
  exists nd0. split; [exact E0|]. rewrite <- A, <- B. exact P.
Qed.

Lemma destroy_exact s i p : run s -> acyclic s -> fits s (ODestroy i) -> nth_error (s_vars s) i = Some p ->
  exists s', rstep s (ODestroy i) = Ok s' /\ s_vars s' = put (s_vars s) i None /\
    (forall n, alive s' n <-> reach s' n) /\
    (forall n, reach s' n <-> reach (mkS (s_heap s) (put (s_vars s) i None)) n) /\
    (forall n c, points s' n c <-> alive s' n /\ points s n c).
Proof.
  intros R Ha Hf Hp. pose proof (run_inv s R) as HI.
  destruct (release_var s i p HI) as (h & E & I & Sh); [unfold sized; unfold fits in Hf; cbn in Hf; lia|exact Hp|].
  exists (mkS h (put (s_vars s) i None)). cbn [rstep rd]. rewrite Hp. cbn [obind]. rewrite E. cbn [obind].
  split; [reflexivity|]. split; [reflexivity|].
  assert (I' : Inv (mkS h (put (s_vars s) i None))) by exact I.
  assert (Hpt : forall n c, points (mkS h (put (s_vars s) i None)) n c <->
     alive (mkS h (put (s_vars s) i None)) n /\ points s n c).
  { intros n c. split.
    - intros P. split; [destruct P as (x & Ex & _); exists x; exact Ex|].
      destruct s as [hs vs]. eapply shrinks_points; eauto.
    - intros ((x & Ex) & (y & Ey & P)). cbn [s_heap] in Ex. destruct (proj2 Sh _ _ Ex) as (z & Ez & A & B).
      rewrite Ey in Ez. injection Ez as <-. exists x. split; [exact Ex|]. rewrite A, B. exact P. }
  assert (Ha' : acyclic (mkS h (put (s_vars s) i None))).
  { destruct Ha as (rank & Hr). exists rank. intros n c P. apply Hr. apply Hpt. exact P. }
  split; [|split].
  - intros n. split; [apply inv_alive_reach; assumption|apply inv_reach_alive; assumption].
  - intros n. split.
    + induction 1 as [j n Ej|m n Rm IH P].
      * eapply reach_var. exact Ej.
      * eapply reach_step; [exact IH|]. apply Hpt in P as [_ P]. exact P.
    + induction 1 as [j n Ej|m n Rm IH P].
      * eapply reach_var. exact Ej.
      * eapply reach_step; [exact IH|]. apply Hpt. split; [apply inv_reach_alive; assumption|exact P].
  - exact Hpt.
Qed.

(** Histories that never store a handle into a live node keep the heap acyclic. *)
Definition ordered (s : rstate) : Prop := forall n nd, nth_error (s_heap s) n = Some (Some nd) ->
  r_adj nd = None /\ forall c, In c (r_args nd) -> (c < n)%nat.

Lemma shrinks_ordered h v h' v' : shrinks h h' -> ordered (mkS h v) -> ordered (mkS h' v').
Proof.
  intros [_ H] Ho n nd E. cbn [s_heap] in E. destruct (H _ _ E) as (x & Ex & A & B).
  rewrite A, B. apply (Ho n x Ex).
Qed.

Lemma plain_run s : run_plain s -> run s.
Proof. induction 1; [apply run_init|eapply run_step; eauto]. Qed.

Lemma derefs_in s l ns n : derefs s l = Ok ns -> In n ns -> In n (roots (s_vars s)).
Proof.
  revert ns. induction l as [|i l IH]; cbn [derefs]; intros ns E Hn.
  - injection E as <-. destruct Hn.
  - apply obind_ok in E as (m & E1 & E). apply obind_ok in E as (ms & E2 & E). injection E as <-.
    destruct Hn as [<-|Hn]; [|eauto]. unfold deref in E1.
    destruct (nth_error (s_vars s) i) as [[x|]|] eqn:Ei; try discriminate. injection E1 as ->.
    apply roots_in. eauto.
Qed.

Lemma plain_ordered s : run_plain s -> ordered s.
Proof.
  induction 1 as [|s o s' R IH Hns Hop Hf E].
  { intros [|n] nd; discriminate. }
  pose proof (run_inv s (plain_run s R)) as HI. pose proof (len_roots (s_vars s)) as Hlr.
  unfold fits, handles in Hf.
  destruct s as [h v]. cbn [s_heap s_vars] in *.
  destruct o as [is|i|i|i j|i j|i|i j|i|i]; cbn [op_ok rstep op_size] in *.
  - destruct (derefs_ok _ is Hop) as (ns & E0 & L & Hns').
    rewrite E0 in E. cbn [obind] in E.
    destruct (inc_all_ok ns _ _ HI Hns') as (h1 & E2 & I2 & R2 & L2 & S2 & T2); [cbn [s_heap s_vars]; lia|].
    cbn [s_heap s_vars] in *. rewrite E2 in E. cbn [obind] in E. injection E as <-.
    intros n nd En. cbn [s_heap] in En.
    destruct (Nat.lt_ge_cases n (length h1)) as [Hl|Hg].
    + rewrite nth_error_app1 in En by exact Hl. exact (shrinks_ordered _ v _ v S2 IH n nd En).
    + rewrite nth_error_app2 in En by exact Hg. destruct (n - length h1)%nat as [|k] eqn:Ek.
      * cbn in En. injection En as <-. cbn [r_adj r_args]. split; [reflexivity|]. intros c Hc.
        destruct (InvH_alive _ _ c HI) as (x & Ex). { left. apply Hns'. exact Hc. }
        cbn [s_heap] in Ex. pose proof (nth_lt _ _ _ Ex). lia.
      * destruct k; discriminate.
  - destruct (rd_var _ i Hop) as (p & E0 & Ep). cbn [rd s_vars] in E, E0, Ep. rewrite E0 in E. cbn [obind] in E.
    destruct (inc_opt_ok _ p _ HI) as (h1 & E2 & I2 & R2 & S2 & _).
    { intros n ->. left. apply roots_in. eauto. } { cbn [s_heap s_vars]. lia. }
    cbn [s_heap] in *. rewrite E2 in E. cbn [obind] in E. injection E as <-. eapply shrinks_ordered; eauto.
  - cbn [rd s_vars] in E. destruct (nth_error v i); [|discriminate]. cbn [obind] in E. injection E as <-. exact IH.
  - destruct Hop as [Hi Hj]. destruct (rd_var _ i Hi) as (p & _ & Ep). destruct (rd_var _ j Hj) as (q & _ & Eq0).
    destruct (assign_var _ i j p q HI) as (s1 & E1 & _ & Ev & S1); auto.
    rewrite E in E1. injection E1 as <-. destruct s' as [h' v']. eapply shrinks_ordered; eauto.
  - destruct Hop as [Hi Hj]. destruct (rd_var _ i Hi) as (p & _ & Ep). destruct (rd_var _ j Hj) as (q & _ & Eq0).
    unfold move_assign in E. cbn [rd s_vars] in E, Ep, Eq0. rewrite Ep, Eq0 in E. cbn [obind] in E.
    destruct (same_ptr_spec p q) as [->|D]; [injection E as <-; exact IH|].
    cbn [wr s_vars] in E. rewrite Ep in E. cbn [obind s_vars s_heap] in E.
    rewrite put_other in E by congruence. rewrite Eq0 in E. injection E as <-. exact IH.
  - destruct (rd_var _ i Hop) as (p & E0 & Ep). cbn [rd s_vars s_heap] in E, E0, Ep. rewrite E0 in E. cbn [obind] in E.
    destruct (release_var _ i p HI) as (h1 & E2 & I2 & S2); [unfold sized, handles; cbn [s_heap s_vars]; lia|exact Ep|].
    cbn [s_heap s_vars] in *. rewrite E2 in E. cbn [obind] in E. injection E as <-. eapply shrinks_ordered; eauto.
  - exfalso. eapply Hns. reflexivity.
  - destruct Hop as (n & En). unfold deref in E. rewrite En in E. cbn [obind] in E.
    destruct (InvH_alive _ _ n HI) as (nd & End). { left. apply roots_in. eauto. }
    rewrite (rd_adj _ _ _ End) in E. cbn [obind] in E. rewrite (wr_adj _ _ _ _ End) in E. cbn [obind s_heap s_vars] in E.
    cbn [s_heap] in End.
    destruct (IH n nd End) as [A _]. rewrite A in E. cbn [dec_opt obind] in E. injection E as <-.
    rewrite <- A in *. rewrite set_adj_same, r_put_id by exact End. exact IH.
  - destruct Hop as (n & En). unfold deref in E. rewrite En in E. cbn [obind] in E.
    destruct (InvH_alive _ _ n HI) as (nd & End). { left. apply roots_in. eauto. }
    rewrite (rd_adj _ _ _ End) in E. cbn [obind] in E. rewrite (wr_adj _ _ _ _ End) in E. cbn [obind s_heap s_vars] in E.
    cbn [s_heap] in End.
    destruct (IH n nd End) as [A _]. injection E as <-.
    replace (set_adj nd None) with nd by (rewrite <- A; symmetry; apply set_adj_same).
    rewrite r_put_id by exact End. exact IH.
Qed.

Lemma ordered_acyclic s : ordered s -> acyclic s.
Proof.
  intros H. exists (fun n => n). intros n c (nd & E & P). destruct (H n nd E) as [A B].
  destruct P as [P|P]; [congruence|auto].
Qed.

Lemma plain_acyclic s : run_plain s -> acyclic s.
Proof. intros R. apply ordered_acyclic, plain_ordered, R. Qed.

(** Assignment from a handle stored inside a node: safe when that node outlives the release. *)
Lemma assign_inner s i p m src q : run s -> fits s (ODestroy i) -> acyclic s ->
  nth_error (s_vars s) i = Some p -> (src = LAdj m \/ exists k, src = LArg m k) ->
  rd s src = Ok q -> reach (mkS (s_heap s) (put (s_vars s) i None)) m ->
  exists s', copy_assign s (LVar i) src = Ok s' /\ Inv s' /\ rd s' (LVar i) = Ok q /\ rd s' src = Ok q /\
    (forall j, j <> i -> rd s' (LVar j) = rd s (LVar j)).
Proof.
  intros R Hf Ha Hp Hsrc Hrd Hm. pose proof (run_inv s R) as HI.
  assert (Hlt : (i < length (s_vars s))%nat) by (eapply nth_lt; eauto).
  unfold copy_assign. cbn [rd]. rewrite Hp. cbn [obind]. fold (rd s src). rewrite Hrd. cbn [obind].
  destruct (same_ptr_spec p q) as [->|D].
  { exists s. split; [reflexivity|]. split; [exact HI|]. split; [cbn [rd]; rewrite Hp; reflexivity|]. auto. }
  destruct (release_var s i p HI) as (h1 & E1 & I1 & S1); [unfold sized; unfold fits in Hf; cbn in Hf; lia|exact Hp|].
  destruct (destroy_exact s i p R Ha Hf Hp) as (s1 & Ed & _ & Hal & Hre & Hpt).
  cbn [rstep rd] in Ed. rewrite Hp in Ed. cbn [obind] in Ed. rewrite E1 in Ed. cbn [obind] in Ed. injection Ed as <-.
  assert (Am : alive (mkS h1 (put (s_vars s) i None)) m) by (apply Hal, Hre; exact Hm).
  destruct Am as (nd1 & End1). cbn [s_heap] in End1.
  destruct (proj2 S1 _ _ End1) as (nd & End & A & B).
  assert (Hrd1 : forall v, rd (mkS h1 v) src = Ok q).
  { intros v. destruct Hsrc as [->|(k & ->)]; cbn [rd s_heap] in *;
      rewrite (proj2 (r_get_ok _ _ _) End1); rewrite (proj2 (r_get_ok _ _ _) End) in Hrd; cbn [obind] in *;
      rewrite ?A, ?B; exact Hrd. }
  rewrite E1. cbn [obind]. rewrite Hrd1. cbn [obind wr s_vars s_heap]. rewrite Hp. cbn [obind s_heap s_vars].
  assert (Hq : forall n, q = Some n -> In n (heap_refs h1)).
  { intros n ->. apply (points_refs (mkS h1 []) m n). exists nd1. split; [exact End1|].
    specialize (Hrd1 []). destruct Hsrc as [->|(k & ->)]; cbn [rd s_heap] in Hrd1;
      rewrite (proj2 (r_get_ok _ _ _) End1) in Hrd1; cbn [obind] in Hrd1.
    - left. congruence.
    - right. destruct (nth_error (r_args nd1) k) eqn:Ek; [|discriminate]. injection Hrd1 as ->.
      eapply nth_error_In; eauto. }
  destruct (inc_opt_ok h1 q _ I1) as (h2 & E2 & I2 & R2 & S2 & T2).
  { intros n Hn. right. auto. }
  { pose proof (len_roots (put (s_vars s) i None)). rewrite put_length in *.
    pose proof (shrinks_len_refs _ _ S1). unfold fits, handles in Hf. cbn in Hf. lia. }
  rewrite E2. cbn [obind]. eexists. split; [reflexivity|]. split; [|split; [|split]].
  - unfold Inv. cbn [s_heap s_vars]. eapply InvH_ext; [|exact I2].
    intros n. rewrite occ_app. pose proof (occ_roots_put _ _ _ q n Hp).
    pose proof (occ_put_none _ _ _ n Hp). lia.
  - cbn [rd s_vars]. rewrite put_same by exact Hlt. reflexivity.
  - destruct (proj2 T2 _ _ End1) as (nd2 & End2 & A2 & B2).
    specialize (Hrd1 []). destruct Hsrc as [->|(k & ->)]; cbn [rd s_heap] in *;
      rewrite (proj2 (r_get_ok _ _ _) End2); rewrite (proj2 (r_get_ok _ _ _) End1) in Hrd1; cbn [obind] in *;
      rewrite <- ?A2, <- ?B2; exact Hrd1.
  - intros j Hj. cbn [rd s_vars]. rewrite put_other by exact Hj. reflexivity.
Qed.

Lemma assign_outer s i j p q : run s -> fits s (OAssign i j) ->
  nth_error (s_vars s) i = Some p -> nth_error (s_vars s) j = Some q ->
  exists s', copy_assign s (LVar i) (LVar j) = Ok s' /\ (forall n, reach s' n -> alive s' n) /\
    s_vars s' = put (s_vars s) i q.
Proof.
  intros R Hf Hp Hq. destruct (assign_var s i j p q (run_inv s R)) as (s' & E & I & V & _); auto.
  exists s'. split; [exact E|]. split; [|exact V]. intros n. apply inv_reach_alive, I.
Qed.

(** For examples: running a list of operations. *)
Fixpoint steps (s : rstate) (os : list rop) (s' : rstate) : Prop :=
  match os with
  | [] => s = s'
  | o :: rest => op_ok s o /\ fits s o /\ (forall i j, o <> OSetAdj i j) /\
      match rstep s o with Ok s1 => steps s1 rest s' | _ => False end
  end.

Lemma steps_plain os : forall s s', run_plain s -> steps s os s' -> run_plain s'.
Proof.
  induction os as [|o os IH]; cbn [steps]; intros s s' R H; [congruence|].
  destruct H as (Ho & Hf & Hn & H). destruct (rstep s o) as [s1| | |] eqn:E; try contradiction.
  eapply IH; [|exact H]. eapply rp_step; eauto.
Qed.
