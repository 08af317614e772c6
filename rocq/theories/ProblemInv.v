(** Facts about programs with one Problem that hold for every kind of scalar. *)
From Coq Require Import ZArith List Bool Arith Lia.
From Verif Require Import Base ExprModel GraphSpec GraphProofs ExprInv VarModel VarReach VarProofs JacModel JacProofs JacReach JacHist ProblemModel.
Import ListNotations.
Local Open Scope nat_scope.

Section Inv.
Context {S : sops}.

(** [e'] has the variables of [e], each with the same expression, and possibly more. *)
Definition keeps (e e' : henv) : Prop :=
  forall j v, nth_error e j = Some v -> exists v', nth_error e' j = Some v' /\ v_expr v' = v_expr v.

Lemma keeps_refl e : keeps e e.
Proof. intros j v H. eauto. Qed.
Lemma keeps_trans a b c : keeps a b -> keeps b c -> keeps a c.
Proof. intros H1 H2 j v H. destruct (H1 j v H) as (v1 & A & B). destruct (H2 j v1 A) as (v2 & C & D). exists v2. split; congruence. Qed.
Lemma keeps_len e e' : keeps e e' -> length e <= length e'.
Proof.
  intros H. destruct e as [|v0 e0] eqn:E; [cbn; lia|]. rewrite <- E in *.
  destruct (nth_error e (length e - 1)) as [v|] eqn:Ev.
  - destruct (H _ _ Ev) as (v' & A & _). assert (length e - 1 < length e') by (apply nth_error_Some; congruence). subst e. cbn in *. lia.
  - apply nth_error_None in Ev. subst e. cbn in Ev. lia.
Qed.
Lemma keeps_app e more : keeps e (e ++ more).
Proof. intros j v H. exists v. split; [|reflexivity]. rewrite nth_error_app1; [exact H|]. apply nth_error_Some. congruence. Qed.
(** Statement [o] changes the expression of no existing variable but possibly of [hop_target o]. *)
Definition hop_target (o : hop S) : option nat :=
  match o with HAssign i _ | HAssignScalar i _ => Some i | _ => None end.

Lemma hvar_lt e i v : hvar e i = Ok v -> nth_error e i = Some v /\ i < length e.
Proof. unfold hvar. destruct (nth_error e i) eqn:E; [|discriminate]. intros [= ->]. split; [reflexivity|]. apply nth_error_Some. congruence. Qed.

Lemma hstep_scope (o : hop S) e s r : hstep o e s = Ok r -> in_scope (length e) o.
Proof.
  intros H. destruct o; cbn [hstep in_scope] in *; auto;
    repeat match type of H with
    | obind (hvar e ?i) _ = Ok _ => let v := fresh "v" in let E := fresh "E" in
        destruct (hvar e i) as [v| | |] eqn:E; cbn [obind] in H; try discriminate; apply hvar_lt in E
    end; repeat match goal with E : _ /\ _ |- _ => destruct E end; auto.
Qed.

Lemma jreach_step_hop (o : hop S) e s e' s' out : jreach (e, [], s) -> hstep o e s = Ok (e', s', out) -> jreach (e', [], s').
Proof.
  intros R H. eapply (jreach_step (JH o) (e, [], s) (e', [], s') (map OVal out) R).
  - exact (hstep_scope _ _ _ _ H).
  - destruct o; cbn; auto.
  - cbn [jstep]. rewrite H. reflexivity.
Qed.


Lemma hset_nth_same e i v : i < length e -> nth_error (hset e i v) i = Some v.
Proof. revert i. induction e as [|x e IH]; intros [|i] H; cbn in *; try lia; [reflexivity|]. apply IH. lia. Qed.
Lemma hset_nth_other e i j v : j <> i -> nth_error (hset e i v) j = nth_error e j.
Proof. revert i j. induction e as [|x e IH]; intros [|i] [|j] H; cbn; auto; try lia. Qed.

Lemma keeps_hset e i v v' : nth_error e i = Some v -> v_expr v' = v_expr v -> keeps e (hset e i v').
Proof.
  intros H E j w Hw. destruct (Nat.eq_dec j i) as [->|D].
  - exists v'. rewrite hset_nth_same by (apply nth_error_Some; congruence). split; [reflexivity|congruence].
  - exists w. rewrite hset_nth_other by exact D. auto.
Qed.

Lemma var_value_expr (v : var) (s : st S) x v' s' : var_value v s = Ok ((x, v'), s') -> v_expr v' = v_expr v.
Proof.
  unfold var_value. destruct (v_init v); cbn [obind].
  - destruct (update_values _ s) as [s1| | |]; cbn [obind]; try discriminate. destruct (pval _ s1) as [[y s2]| | |]; cbn [obind]; try discriminate.
    intros [= <- <- <-]. reflexivity.
  - destruct (topological_sort _ s) as [[g s0]| | |]; cbn [obind]; try discriminate. cbn [v_graph v_expr].
    destruct (update_values _ s0) as [s1| | |]; cbn [obind]; try discriminate. destruct (pval _ s1) as [[y s2]| | |]; cbn [obind]; try discriminate.
    intros [= <- <- <-]. reflexivity.
Qed.

Lemma hstep_keeps (o : hop S) e s e' s' out : hop_target o = None -> hstep o e s = Ok (e', s', out) -> keeps e e'.
Proof.
  intros T H. destruct o; cbn [hstep hop_target] in *; try discriminate;
    repeat match type of H with
    | obind (hvar e ?i) _ = Ok _ => let v := fresh "v" in let E := fresh "E" in
        destruct (hvar e i) as [v| | |] eqn:E; cbn [obind] in H; try discriminate; apply hvar_lt in E
    | obind (var_value ?v s) _ = _ => destruct (var_value v s) as [[[x1 v1] s1]| | |] eqn:Ev; cbn [obind] in H; try discriminate
    | obind ?m _ = Ok _ => destruct m as [[p1 s1]| | |]; cbn [obind] in H; try discriminate
    end; injection H as <- <- <-; try apply keeps_app; try apply keeps_refl.
  apply (keeps_hset _ _ v); [apply E|]. eapply var_value_expr; eauto.
Qed.

Lemma hstep_others (o : hop S) e s e' s' out : hstep o e s = Ok (e', s', out) ->
  forall j v, hop_target o <> Some j -> nth_error e j = Some v -> exists v', nth_error e' j = Some v' /\ v_expr v' = v_expr v.
Proof.
  intros H j v T Hv. destruct (hop_target o) as [t|] eqn:Et; [|eapply hstep_keeps; eauto].
  destruct o; cbn [hop_target] in Et; try discriminate; injection Et as ->; cbn [hstep] in H;
    repeat match type of H with
    | obind (hvar e ?i) _ = Ok _ => let v := fresh "v" in let E := fresh "E" in
        destruct (hvar e i) as [v| | |] eqn:E; cbn [obind] in H; try discriminate
    | obind ?m _ = Ok _ => destruct m as [[p1 s1]| | |]; cbn [obind] in H; try discriminate
    end; injection H as <- <- <-; exists v; (split; [|reflexivity]); rewrite hset_nth_other; auto; congruence.
Qed.

Lemma hstep_length (o : hop S) e s e' s' out : hstep o e s = Ok (e', s', out) ->
  length e' = if creates o then Datatypes.S (length e) else length e.
Proof.
  intros H. assert (HL : forall l i v, length (hset l i v) = length l)
    by (induction l as [|x l IH]; intros [|i] v; cbn; auto).
  destruct o; cbn [hstep creates] in *;
    repeat match type of H with
    | obind (var_value ?v s) _ = _ => destruct (var_value v s) as [[[x1 v1] s1]| | |] eqn:Ev; cbn [obind] in H; try discriminate
    | obind (hvar e ?i) _ = Ok _ => let v := fresh "v" in let E := fresh "E" in
        destruct (hvar e i) as [v| | |] eqn:E; cbn [obind] in H; try discriminate
    | obind ?m _ = Ok _ => destruct m as [[p1 s1]| | |]; cbn [obind] in H; try discriminate
    end; injection H as <- <- <-; rewrite ?app_length, ?HL; cbn; lia.
Qed.

(** A computation on the variables of the program is a history that assigns to no existing variable. *)
Definition psafe {A} (m : P (S := S) A) (Q : A -> henv -> henv -> Prop) : Prop :=
  forall e s a e' s', jreach (e, [], s) -> m e s = Ok (a, e', s') ->
    jreach (e', [], s') /\ keeps e e' /\ grows s s' /\
    (forall n, is_kconst (st_nodes s) n \/ is_kvar (st_nodes s) n -> st_val s' n = st_val s n) /\ Q a e e'.

Definition any {A} : A -> henv -> henv -> Prop := fun _ _ _ => True.
Definition between (i : nat) (e e' : henv) : Prop := length e <= i < length e'.

Lemma hop_frame (o : hop S) e s e' s' out : jreach (e, [], s) -> (forall i x, o <> HSet i x) -> hstep o e s = Ok (e', s', out) ->
  forall n, is_kconst (st_nodes s) n \/ is_kvar (st_nodes s) n -> st_val s' n = st_val s n.
Proof.
  intros R N H. destruct (jreach_inv _ R) as (HI & _).
  pose proof (hstep_frame o e s e' s' out HI (hstep_scope _ _ _ _ H) H) as F. destruct o; auto. exfalso. eapply N. reflexivity.
Qed.

Lemma psafe_hop (o : hop S) e s e' s' out : hop_target o = None -> (forall i x, o <> HSet i x) -> jreach (e, [], s) -> hstep o e s = Ok (e', s', out) ->
  jreach (e', [], s') /\ keeps e e' /\ grows s s' /\
  (forall n, is_kconst (st_nodes s) n \/ is_kvar (st_nodes s) n -> st_val s' n = st_val s n).
Proof.
  intros T N R H. split; [eapply jreach_step_hop; eauto|]. split; [eapply hstep_keeps; eauto|].
  destruct (jreach_inv _ R) as (HI & _). split; [|eapply hop_frame; eauto].
  apply (hstep_grows o e s e' s' out HI (hstep_scope _ _ _ _ H) H).
Qed.

Lemma psafe_new (o : hop S) : creates o = true -> psafe (pnew o) (fun i e e' => i = length e /\ length e' = Datatypes.S (length e)).
Proof.
  intros Cr e s a e' s' R H. unfold pnew in H. destruct (hstep o e s) as [[[e1 s1] out]| | |] eqn:E; cbn [obind] in H; try discriminate.
  injection H as <- <- <-.
  assert (T : hop_target o = None) by (destruct o; try discriminate; reflexivity).
  assert (N : forall i x, o <> HSet i x) by (intros i x ->; discriminate).
  destruct (psafe_hop o e s e1 s1 out T N R E) as (A & B & C & D). repeat (split; [assumption|]).
  split; [reflexivity|]. rewrite (hstep_length _ _ _ _ _ _ E), Cr. reflexivity.
Qed.

Lemma psafe_value (i : nat) : psafe (pvalue (S := S) i) any.
Proof.
  intros e s a e' s' R H. unfold pvalue in H. destruct (hstep (HValue i) e s) as [[[e1 s1] out]| | |] eqn:E; cbn [obind] in H; try discriminate.
  destruct out as [|x [|y out]]; try discriminate. injection H as <- <- <-.
  destruct (psafe_hop (HValue i) e s e1 s1 [x] eq_refl ltac:(discriminate) R E) as (A & B & C & D). repeat (split; [assumption|]). exact I.
Qed.

Lemma psafe_ret {A} (a : A) (Q : A -> henv -> henv -> Prop) : (forall e, Q a e e) -> psafe (pret a) Q.
Proof. intros HQ e s a' e' s' R [= <- <- <-]. split; [exact R|]. split; [apply keeps_refl|]. split; [exists []; rewrite app_nil_r; reflexivity|]. auto. Qed.

Lemma grows_frame (s s1 s2 : st S) : grows s s1 ->
  (forall n, is_kconst (st_nodes s) n \/ is_kvar (st_nodes s) n -> st_val s1 n = st_val s n) ->
  (forall n, is_kconst (st_nodes s1) n \/ is_kvar (st_nodes s1) n -> st_val s2 n = st_val s1 n) ->
  (forall n, is_kconst (st_nodes s) n \/ is_kvar (st_nodes s) n -> st_val s2 n = st_val s n).
Proof.
  intros (m & G) H1 H2 n Hn. rewrite H2, H1; auto. rewrite G.
  assert (X : forall nd, nth_error (st_nodes s) n = Some nd -> nth_error (st_nodes s ++ m) n = Some nd).
  { intros nd E. rewrite nth_error_app1; [exact E|]. apply nth_error_Some. congruence. }
  destruct Hn as [(nd & E & K)|(nd & E & K)]; [left|right]; exists nd; auto.
Qed.

Lemma psafe_bind {A B} (m : P A) (f : A -> P B) Q1 Q2 (Q : B -> henv -> henv -> Prop) : psafe m Q1 ->
  (forall a, psafe (f a) (Q2 a)) ->
  (forall a b e e1 e2, keeps e e1 -> keeps e1 e2 -> Q1 a e e1 -> Q2 a b e1 e2 -> Q b e e2) -> psafe (pbind m f) Q.
Proof.
  intros Hm Hf HQ e s b e2 s2 R H. unfold pbind in H. destruct (m e s) as [[[a e1] s1]| | |] eqn:E; cbn [obind] in H; try discriminate.
  destruct (Hm _ _ _ _ _ R E) as (R1 & K1 & G1 & V1 & q1). destruct (Hf a _ _ _ _ _ R1 H) as (R2 & K2 & G2 & V2 & q2).
  split; [exact R2|]. split; [eapply keeps_trans; eauto|]. split; [eapply grows_trans; eauto|].
  split; [eapply grows_frame; eauto|]. eapply HQ; eauto.
Qed.

Lemma psafe_weaken {A} (m : P A) (Q Q' : A -> henv -> henv -> Prop) : (forall a e e', keeps e e' -> Q a e e' -> Q' a e e') -> psafe m Q -> psafe m Q'.
Proof. intros W H e s a e' s' R E. destruct (H _ _ _ _ _ R E) as (A1 & B & C & D & F). repeat (split; [assumption|]). auto. Qed.

Lemma psafe_any {A} (m : P A) Q : psafe m Q -> psafe m any.
Proof. apply psafe_weaken. intros; exact I. Qed.

(** The slots in a result are new. *)
Definition news (l : list nat) (e e' : henv) : Prop := List.Forall (fun i => between i e e') l.

Lemma news_more l e e1 e2 : keeps e1 e2 -> news l e e1 -> news l e e2.
Proof. intros K. apply Forall_impl. intros i [H1 H2]. pose proof (keeps_len _ _ K). split; lia. Qed.
Lemma news_less l e e1 e2 : keeps e e1 -> news l e1 e2 -> news l e e2.
Proof. intros K. apply Forall_impl. intros i [H1 H2]. pose proof (keeps_len _ _ K). split; lia. Qed.

Lemma psafe_pmap {A} (f : A -> P nat) l : (forall a, psafe (f a) (fun i e e' => between i e e')) -> psafe (pmap f l) news.
Proof.
  intros Hf. induction l as [|x l IH]; cbn [pmap]; [apply psafe_ret; intros; constructor|].
  apply psafe_bind with (Q1 := fun i e e' => between i e e') (Q2 := fun a b e1 e2 => forall e, keeps e e1 -> between a e e1 -> news b e e2); [apply Hf| |].
  - intros a.
    eapply psafe_bind with (Q2 := fun ys b e e' => b = a :: ys /\ e' = e); [exact IH| |].
    + intros ys e s b e' s' R [= <- <- <-]. split; [exact R|]. split; [apply keeps_refl|]. split; [exists []; rewrite app_nil_r; reflexivity|]. auto.
    + intros ys b e e1 e2 K1 K2 q1 [-> ->] e0 K0 q0. constructor.
      * destruct q0. pose proof (keeps_len _ _ K1). split; lia.
      * eapply news_less; eauto.
  - intros a b e e1 e2 K1 K2 q1 q2. apply q2; assumption.
Qed.


Lemma psafe_between (o : hop S) : creates o = true -> psafe (pnew o) (fun i e e' => between i e e').
Proof. intros C. eapply psafe_weaken; [|apply psafe_new, C]. intros i e e' _ [-> H]. unfold between. lia. Qed.

Lemma psafe_ub {A} Q : psafe (fun _ _ => UB : outcome (A * henv * st S)) Q.
Proof. intros e s a e' s' R H. discriminate. Qed.

Lemma psafe_oelem (o : operand S) r c : psafe (oelem o r c) any.
Proof.
  destruct o; cbn [oelem].
  - apply psafe_ret. intros; exact I.
  - eapply psafe_any, psafe_new. reflexivity.
  - intros e s a e' s' R H. destruct (nth_error l _); [|discriminate]. injection H as <- <- <-.
    split; [exact R|]. split; [apply keeps_refl|]. split; [apply grows_refl|]. split; [auto|exact I].
  - destruct (nth_error l _); [|apply psafe_ub]. eapply psafe_any, psafe_new. reflexivity.
Qed.

Lemma psafe_sub (a b : operand S) rc : psafe (sub_at a b rc) (fun i e e' => between i e e').
Proof.
  unfold sub_at. eapply psafe_bind with (Q2 := fun _ i e e' => between i e e'); [apply psafe_oelem| |].
  - intros i. eapply psafe_bind with (Q2 := fun _ i e e' => between i e e'); [apply psafe_oelem| |].
    + intros j. apply psafe_between. reflexivity.
    + intros j k e e1 e2 K1 K2 _ [H1 H2]. pose proof (keeps_len _ _ K1). split; lia.
  - intros j k e e1 e2 K1 K2 _ [H1 H2]. pose proof (keeps_len _ _ K1). split; lia.
Qed.

Lemma psafe_make (a b : operand S) : psafe (make_constraints a b) news.
Proof.
  unfold make_constraints. destruct (oshape a) as [[r c]|], (oshape b) as [[r' c']|]; try (apply psafe_pmap; apply psafe_sub).
  intros e s x e' s' R H. unfold oassert in H. destruct (_ && _); [|discriminate]. eapply psafe_pmap in H; eauto. apply psafe_sub.
Qed.

Definition newc (c : cons) (e e' : henv) : Prop := news (snd c) e e'.

Lemma psafe_then {A B} (m : P A) (g : A -> B) (Q : A -> henv -> henv -> Prop) (Q' : B -> henv -> henv -> Prop) :
  psafe m Q -> (forall a e e', Q a e e' -> Q' (g a) e e') -> psafe (pbind m (fun a => pret (g a))) Q'.
Proof.
  intros H HQ e s b e' s' R E. unfold pbind in E. destruct (m e s) as [[[a e1] s1]| | |] eqn:Em; cbn [obind] in E; try discriminate.
  injection E as <- <- <-. destruct (H _ _ _ _ _ R Em) as (A1 & B1 & C & D & F). repeat (split; [assumption|]). apply HQ, F.
Qed.

Lemma psafe_compare c (a b : operand S) : psafe (compare c a b) newc.
Proof. destruct c; cbn [compare]; eapply psafe_then; try apply psafe_make; intros l e e' H; exact H. Qed.

Lemma psafe_copies l : psafe (copies (S := S) l) news.
Proof. apply psafe_pmap. intros i. apply psafe_between. reflexivity. Qed.

Lemma psafe_concat b l : psafe (concat_cons (S := S) b l) newc.
Proof.
  intros e s x e' s' R H. unfold concat_cons in H. match type of H with (if ?t then _ else _) = _ => destruct t; [|discriminate] end.
  eapply (psafe_then (copies (flat_map snd l)) (fun r => (b, r)) news newc) in H; [exact H|apply psafe_copies| |exact R]. intros r e0 e1 K. exact K.
Qed.

Lemma psafe_bounds (l x u : operand S) : psafe (bounds l x u) newc.
Proof.
  unfold bounds. eapply psafe_bind with (Q2 := fun _ => newc); [apply psafe_compare| |].
  - intros a. eapply psafe_bind with (Q2 := fun _ => newc); [apply psafe_compare| |].
    + intros b. apply psafe_concat.
    + intros b k e e1 e2 K1 K2 _ q. eapply news_less; eauto.
  - intros b k e e1 e2 K1 K2 _ q. eapply news_less; eauto.
Qed.

Lemma psafe_all_of test l : psafe (all_of (S := S) test l) any.
Proof.
  induction l as [|i l IH]; cbn [all_of]; [apply psafe_ret; intros; exact I|].
  eapply psafe_bind with (Q2 := fun _ => any); [apply psafe_value| |intros; exact I].
  intros x. destruct (test x); [exact IH|apply psafe_ret; intros; exact I].
Qed.

Lemma psafe_bool c : psafe (cons_bool (S := S) c) any.
Proof. unfold cons_bool. destruct (fst c); apply psafe_all_of. Qed.

Lemma pfold_inv {A B} (f : A -> B -> P B) (J : B -> henv -> st S -> Prop) :
  (forall a b e s b' e' s', J b e s -> f a b e s = Ok (b', e', s') -> J b' e' s') ->
  forall l b e s b' e' s', J b e s -> pfold f l b e s = Ok (b', e', s') -> J b' e' s'.
Proof.
  intros H. induction l as [|a l IH]; intros b e s b' e' s' J0 E; cbn [pfold] in E.
  - injection E as <- <- <-. exact J0.
  - unfold pbind in E at 1. destruct (f a b e s) as [[[b1 e1] s1]| | |] eqn:E1; cbn [obind] in E; try discriminate.
    eapply IH; [|exact E]. eapply H; eauto.
Qed.

(** What registering decision variables does: new slots [ds] with new, distinct nodes; every entry of the matrix shows
    one of them. *)
Definition dec_loop (dec : list nat) (e0 : henv) (s0 : st S) (b : list nat * list (option nat)) (e : henv) (s : st S) : Prop :=
  jreach (e, [], s) /\ keeps e0 e /\ ext s0 s /\
  exists ds nodes, fst b = dec ++ ds /\ news ds e0 e /\ Forall2 (decides e s) ds nodes /\ NoDup nodes /\
    List.Forall (fun n => nlen s0 <= n /\ st_val s n = s_ofZ S 0) nodes /\
    forall i, In (Some i) (snd b) -> between i e0 e /\ ~ In i ds /\ exists n, In n nodes /\ decides e s i n.

Lemma decides_ext (e e' : henv) (s s' : st S) i n : keeps e e' -> grows s s' -> decides e s i n -> decides e' s' i n.
Proof.
  intros K G (v & A & B & C). destruct (K _ _ A) as (v' & A' & B'). exists v'. split; [exact A'|]. split; [congruence|]. eapply kvar_grows; eauto.
Qed.

Lemma decision_new (e : henv) (s : st S) i e' s' : jreach (e, [], s) -> pnew HNew e s = Ok (i, e', s') ->
  i = length e /\ jreach (e', [], s') /\ e' = e ++ [var_of (Some (nlen s))] /\ ext s s' /\ decides e' s' i (nlen s) /\
  st_val s' (nlen s) = s_ofZ S 0 /\ nlen s' = Datatypes.S (nlen s).
Proof.
  intros R H. unfold pnew in H. destruct (hstep HNew e s) as [[[e1 s1] out]| | |] eqn:E; cbn [obind] in H; try discriminate.
  injection H as <- <- <-. pose proof (jreach_step_hop _ _ _ _ _ _ R E) as R1. cbn in E. injection E as <- <- <-.
  split; [reflexivity|]. split; [exact R1|]. split; [reflexivity|]. split.
  - split; [eexists; reflexivity|]. split; intros n Hn; cbn [st_val st_adj st_adje st_scr]; unfold upd, nlen in *.
    + assert (X : Nat.eqb n (length (st_nodes s)) = false) by (apply Nat.eqb_neq; lia). rewrite X. auto.
    + destruct (Nat.eqb n _); auto.
  - split; [|split; [cbn [st_val]; unfold upd, nlen; rewrite Nat.eqb_refl; reflexivity|unfold nlen; cbn [st_nodes]; rewrite app_length; cbn; lia]].
    exists (var_of (Some (nlen s))). split; [rewrite nth_error_app2 by lia; rewrite Nat.sub_diag; reflexivity|]. split; [reflexivity|].
    exists (mkN KVar LINEAR). cbn [st_nodes]. split; [|reflexivity]. unfold nlen. rewrite nth_error_app2 by lia. rewrite Nat.sub_diag. reflexivity.
Qed.

Lemma put_copy_ok (m : list (option nat)) k d (e : henv) (s : st S) m' e' s' n : jreach (e, [], s) -> decides e s d n ->
  put_copy m k d e s = Ok (m', e', s') ->
  jreach (e', [], s') /\ keeps e e' /\ s' = s /\ length e' = Datatypes.S (length e) /\ m' = mput m k (length e) /\ decides e' s' (length e) n.
Proof.
  intros R (v & A & B & C) H. unfold put_copy in H. destruct (Nat.ltb k (length m)); [|discriminate].
  unfold pbind, pnew in H. destruct (hstep (HCopy d) e s) as [[[e1 s1] out]| | |] eqn:E; cbn [obind] in H; try discriminate.
  injection H as <- <- <-. pose proof (jreach_step_hop _ _ _ _ _ _ R E) as R1. cbn [hstep] in E. unfold hvar in E. rewrite A in E. cbn in E. injection E as <- <- <-.
  split; [exact R1|]. split; [apply keeps_app|]. split; [reflexivity|]. split; [rewrite app_length; cbn; lia|]. split; [reflexivity|].
  exists v. rewrite nth_error_app2, Nat.sub_diag by lia. cbn. auto.
Qed.

Lemma mput_in m k i j : In (Some j) (mput m k i) -> j = i \/ In (Some j) m.
Proof. revert k. induction m as [|x m IH]; intros [|k]; cbn; intuition (try congruence). destruct (IH k); auto. Qed.

Lemma Forall2_decides (e e' : henv) (s s' : st S) ds nodes : keeps e e' -> grows s s' -> Forall2 (decides e s) ds nodes -> Forall2 (decides e' s') ds nodes.
Proof. intros K G F. induction F; constructor; auto. eapply decides_ext; eauto. Qed.

Lemma dec_loop_new dec e0 s0 b e s d e1 s1 : dec_loop dec e0 s0 b e s -> pnew HNew e s = Ok (d, e1, s1) ->
  dec_loop dec e0 s0 (fst b ++ [d], snd b) e1 s1 /\ decides e1 s1 d (nlen s) /\ between d e0 e1 /\ exists ds, fst b = dec ++ ds.
Proof.
  intros (R & K & X & ds & nodes & Hf & Nw & F & ND & Fr & Hm) H.
  destruct (decision_new _ _ _ _ _ R H) as (-> & R1 & He & X1 & D & V & L1).
  assert (K1 : keeps e e1) by (rewrite He; apply keeps_app).
  assert (G1 : grows s s1) by (exact (proj1 X1)).
  assert (BT : between (length e) e0 e1) by (split; [apply keeps_len, K|rewrite He, app_length; cbn; lia]).
  split; [|split; [exact D|split; [exact BT|exists ds; exact Hf]]].
  split; [exact R1|]. split; [eapply keeps_trans; eauto|]. split; [eapply ext_trans; eauto|].
  exists (ds ++ [length e]), (nodes ++ [nlen s]). cbn [fst snd]. split; [rewrite Hf, app_assoc; reflexivity|].
  assert (NL : forall n, In n nodes -> n < nlen s).
  { intros n Hn. clear -F Hn. induction F as [|x n' l l' (v & _ & _ & (nd & E & _)) _ IH]; [destruct Hn|].
    destruct Hn as [->|Hn]; [unfold nlen; apply nth_error_Some; congruence|auto]. }
  split; [apply Forall_app; split; [eapply news_more; eauto|constructor; [exact BT|constructor]]|].
  split; [apply Forall2_app; [eapply Forall2_decides; eauto|constructor; [exact D|constructor]]|].
  split.
  { clear -ND NL. induction ND as [|x l Hx ND IH]; cbn; [constructor; [intros []|constructor]|].
    constructor; [|apply IH; intros n Hn; apply NL; right; exact Hn]. intros C. apply in_app_or in C as [C|[C|[]]]; [auto|].
    specialize (NL x (or_introl eq_refl)). lia. }
  split.
  { apply Forall_app. split.
    - rewrite List.Forall_forall in *. intros n Hn. destruct (Fr n Hn) as [A B]. split; [exact A|].
      rewrite <- B. destruct X1 as (_ & X1 & _). apply X1, NL, Hn.
    - constructor; [|constructor]. split; [apply ext_nlen, X|exact V]. }
  intros i Hi. destruct (Hm i Hi) as ([B1 B2] & B3 & n & B4 & B5). split; [split; [exact B1|rewrite He, app_length; cbn; lia]|].
  split; [intros C; apply in_app_or in C as [C|[C|[]]]; [auto|lia]|].
  exists n. split; [apply in_or_app; left; exact B4|eapply decides_ext; eauto].
Qed.

Lemma dec_loop_put dec e0 s0 f m k d e s m' e1 s1 : dec_loop dec e0 s0 (f, m) e s -> In d (skipn (length dec) f) ->
  put_copy m k d e s = Ok (m', e1, s1) -> dec_loop dec e0 s0 (f, m') e1 s1.
Proof.
  intros (R & K & X & ds & nodes & Hf & Nw & F & ND & Fr & Hm) Hd H. cbn [fst snd] in *.
  assert (Hd' : In d ds) by (rewrite Hf, skipn_app, skipn_all, Nat.sub_diag in Hd; exact Hd).
  assert (exists n, In n nodes /\ decides e s d n) as (n & Hn & D).
  { clear -F Hd'. induction F; [destruct Hd'|]. destruct Hd' as [->|Hd']; [exists y; split; [left; reflexivity|assumption]|].
    destruct (IHF Hd') as (n & A & B). exists n. split; [right; exact A|exact B]. }
  destruct (put_copy_ok _ _ _ _ _ _ _ _ _ R D H) as (R1 & K1 & -> & L1 & -> & D1).
  split; [exact R1|]. split; [eapply keeps_trans; eauto|]. split; [exact X|].
  exists ds, nodes. cbn [fst snd]. split; [exact Hf|]. split; [eapply news_more; eauto|]. split; [eapply Forall2_decides; eauto; apply grows_refl|].
  split; [exact ND|]. split; [exact Fr|]. intros i Hi. apply mput_in in Hi as [->|Hi].
  - split; [split; [apply keeps_len, K|lia]|]. split; [|exists n; auto]. intros C. unfold news in Nw. rewrite List.Forall_forall in Nw. specialize (Nw _ C). destruct Nw. lia.
  - destruct (Hm i Hi) as ([B1 B2] & B3 & n' & B4 & B5). split; [split; [exact B1|lia]|]. split; [exact B3|].
    exists n'. split; [exact B4|eapply decides_ext; eauto; apply grows_refl].
Qed.

Lemma dec_loop_0 dec e s n : jreach (e, [], s) -> dec_loop dec e s (dec, repeat None n) e s.
Proof.
  intros R. split; [exact R|]. split; [apply keeps_refl|]. split; [apply ext_refl|]. exists [], []. cbn [fst snd]. rewrite app_nil_r.
  split; [reflexivity|]. split; [constructor|]. split; [constructor|]. split; [constructor|]. split; [constructor|].
  intros i Hi. apply repeat_spec in Hi. discriminate.
Qed.

Lemma all_some_in m l i : all_some m = Some l -> In i l -> In (Some i) m.
Proof.
  revert l. induction m as [|[x|] m IH]; intros l H Hi; cbn in *; try discriminate; [injection H as <-; destruct Hi|].
  destruct (all_some m) as [l'|]; [|discriminate]. injection H as <-. destruct Hi as [->|Hi]; [left; reflexivity|right; eapply IH; eauto].
Qed.

Definition registered (dec : list nat) (e0 : henv) (s0 : st S) (r : list nat * list nat) (e : henv) (s : st S) : Prop :=
  jreach (e, [], s) /\ keeps e0 e /\ ext s0 s /\
  exists ds nodes, fst r = dec ++ ds /\ news ds e0 e /\ Forall2 (decides e s) ds nodes /\ NoDup nodes /\
    List.Forall (fun n => nlen s0 <= n /\ st_val s n = s_ofZ S 0) nodes /\
    forall i, In i (snd r) -> between i e0 e /\ ~ In i ds /\ exists n, In n nodes /\ decides e s i n.

Lemma finish_ok dec e0 s0 b e s r e' s' : dec_loop dec e0 s0 b e s -> finish b e s = Ok (r, e', s') -> registered dec e0 s0 r e' s'.
Proof.
  intros (R & K & X & ds & nodes & Hf & Nw & F & ND & Fr & Hm) H. unfold finish in H.
  destruct (all_some (snd b)) as [l|] eqn:El; [|discriminate]. injection H as <- <- <-. cbn [fst snd].
  split; [exact R|]. split; [exact K|]. split; [exact X|]. exists ds, nodes. repeat (split; [assumption|]).
  intros i Hi. apply Hm. eapply all_some_in; eauto.
Qed.

Lemma skipn_snoc {A} (dec ds : list A) (d : A) : In d (skipn (length dec) ((dec ++ ds) ++ [d])).
Proof. rewrite <- app_assoc, skipn_app, skipn_all, Nat.sub_diag. cbn. apply in_or_app. right. left. reflexivity. Qed.

Lemma decision_registers dec rows cols e s r e' s' : jreach (e, [], s) ->
  decision_variable dec rows cols e s = Ok (r, e', s') -> registered dec e s r e' s'.
Proof.
  intros R H. unfold decision_variable in H. unfold pbind at 1 in H.
  match type of H with obind (pfold ?f ?l ?b e s) _ = _ => destruct (pfold f l b e s) as [[[b1 e1] s1]| | |] eqn:E; cbn [obind] in H; try discriminate end.
  eapply finish_ok; [|exact H]. refine (pfold_inv _ (dec_loop dec e s) _ _ _ _ _ _ _ _ (dec_loop_0 dec e s _ R) E).
  intros [r0 c0] b e2 s2 b' e3 s3 J Hb. unfold pbind in Hb. destruct (pnew HNew e2 s2) as [[[d e4] s4]| | |] eqn:E4; cbn [obind] in Hb; try discriminate.
  destruct (put_copy (snd b) _ d e4 s4) as [[[m e5] s5]| | |] eqn:E5; cbn [obind] in Hb; try discriminate. injection Hb as <- <- <-.
  destruct (dec_loop_new _ _ _ _ _ _ _ _ _ J E4) as (J1 & D & _ & ds & Hds).
  eapply dec_loop_put; [exact J1| |exact E5]. rewrite Hds. apply skipn_snoc.
Qed.

Lemma symmetric_registers dec rows e s r e' s' : jreach (e, [], s) ->
  symmetric_decision_variable dec rows e s = Ok (r, e', s') -> registered dec e s r e' s'.
Proof.
  intros R H. unfold symmetric_decision_variable in H. unfold pbind at 1 in H.
  match type of H with obind (pfold ?f ?l ?b e s) _ = _ => destruct (pfold f l b e s) as [[[b1 e1] s1]| | |] eqn:E; cbn [obind] in H; try discriminate end.
  eapply finish_ok; [|exact H]. refine (pfold_inv _ (dec_loop dec e s) _ _ _ _ _ _ _ _ (dec_loop_0 dec e s _ R) E).
  intros [r0 c0] b e2 s2 b' e3 s3 J Hb. unfold pbind in Hb. destruct (pnew HNew e2 s2) as [[[d e4] s4]| | |] eqn:E4; cbn [obind] in Hb; try discriminate.
  destruct (put_copy (snd b) _ d e4 s4) as [[[m e5] s5]| | |] eqn:E5; cbn [obind] in Hb; try discriminate.
  destruct (put_copy m _ d e5 s5) as [[[m' e6] s6]| | |] eqn:E6; cbn [obind] in Hb; try discriminate. injection Hb as <- <- <-.
  destruct (dec_loop_new _ _ _ _ _ _ _ _ _ J E4) as (J1 & D & _ & ds & Hds).
  assert (J2 := dec_loop_put _ _ _ _ _ _ _ _ _ _ _ _ J1 (eq_ind_r (fun f => In d (skipn (length dec) (f ++ [d]))) (skipn_snoc dec ds d) Hds) E5).
  eapply dec_loop_put; [exact J2| |exact E6]. rewrite Hds. apply skipn_snoc.
Qed.

(** The invariant of programs. *)
Record pinv (p : prog S) : Prop := mkPinv {
  i_reach : jreach (p_env p, [], p_st p);
  i_user : forall i, In i (p_user p) -> i < length (p_env p);
  i_cons : forall c i, In c (p_cons p) -> In i (snd c) -> i < length (p_env p);
  i_f : forall i, p_f p = Some i -> i < length (p_env p);
  i_eq : forall i, In i (p_eq p) -> i < length (p_env p);
  i_ineq : forall i, In i (p_ineq p) -> i < length (p_env p);
  i_dec : exists nodes, Forall2 (decides (p_env p) (p_st p)) (p_dec p) nodes /\ NoDup nodes;
  i_hidden : forall i, In i (p_dec p) -> ~ In i (p_user p) }.

Lemma pinv_empty : pinv (prog_empty S).
Proof. constructor; cbn; try (intros; contradiction); try discriminate; [apply jreach_0|]. exists []. split; constructor. Qed.

Lemma dec_lt e (s : st S) dec nodes i : Forall2 (decides e s) dec nodes -> In i dec -> i < length e.
Proof. intros F. induction F as [|x n l l' (v & A & _) _ IH]; intros Hi; [destruct Hi|]. destruct Hi as [->|Hi]; [apply nth_error_Some; congruence|auto]. Qed.
Lemma dec_nodes_lt e (s : st S) dec nodes n : Forall2 (decides e s) dec nodes -> In n nodes -> n < nlen s.
Proof.
  intros F. induction F as [|x n' l l' (v & _ & _ & (nd & A & _)) _ IH]; intros Hi; [destruct Hi|].
  destruct Hi as [->|Hi]; [unfold nlen; apply nth_error_Some; congruence|auto].
Qed.

(** Memory that only grew, with new user variables. *)
Lemma pinv_mem p e s new : pinv p -> jreach (e, [], s) -> keeps (p_env p) e -> grows (p_st p) s -> news new (p_env p) e ->
  pinv (add_user (set_mem p e s) new).
Proof.
  intros [R U C F Eq In_ (nodes & D & ND) H] R' K G N. pose proof (keeps_len _ _ K) as L. unfold news in N. rewrite List.Forall_forall in N.
  constructor; cbn [add_user set_mem p_env p_st p_user p_cons p_dec p_f p_eq p_ineq].
  - exact R'.
  - intros i Hi. apply in_app_or in Hi as [Hi|Hi]; [specialize (U i Hi); lia|destruct (N i Hi); lia].
  - intros c i Hc Hi. specialize (C c i Hc Hi). lia.
  - intros i Hi. specialize (F i Hi). lia.
  - intros i Hi. specialize (Eq i Hi). lia.
  - intros i Hi. specialize (In_ i Hi). lia.
  - exists nodes. split; [eapply Forall2_decides; eauto|exact ND].
  - intros i Hi Hu. apply in_app_or in Hu as [Hu|Hu]; [eapply H; eauto|]. destruct (N i Hu). pose proof (dec_lt _ _ _ _ _ D Hi). lia.
Qed.

Lemma pinv_mem0 p e s : pinv p -> jreach (e, [], s) -> keeps (p_env p) e -> grows (p_st p) s -> pinv (set_mem p e s).
Proof.
  intros I R K G. assert (H := pinv_mem p e s [] I R K G (Forall_nil _)).
  destruct H as [? U ? ? ? ? ? Hh]. unfold add_user, set_mem in *. cbn in *. rewrite app_nil_r in *. constructor; cbn; auto.
Qed.

Lemma pinv_psafe {A} (m : P A) Q p a e s : pinv p -> psafe m Q -> m (p_env p) (p_st p) = Ok (a, e, s) ->
  pinv (set_mem p e s) /\ Q a (p_env p) e.
Proof.
  intros I H E. destruct (H _ _ _ _ _ (i_reach _ I) E) as (R & K & G & V & q). split; [|exact q]. apply pinv_mem0; assumption.
Qed.

Lemma pinv_cons p e c : pinv p -> p_env p = e -> (forall i, In i (snd c) -> i < length e) -> pinv (add_cons p c).
Proof.
  intros [R U C F Eq In_ D H] <- Hc. constructor; cbn [add_cons p_env p_st p_user p_cons p_dec p_f p_eq p_ineq]; auto.
  intros c' i Hc' Hi. apply in_app_or in Hc' as [Hc'|[<-|[]]]; eauto.
Qed.

Lemma pinv_registered p r e s : pinv p -> registered (p_dec p) (p_env p) (p_st p) r e s ->
  pinv (add_user (set_dec (set_mem p e s) (fst r)) (snd r)).
Proof.
  intros [R U C F Eq In_ (nodes & D & ND) H] (R' & K & X & ds & nodes' & Hr & Nd & D' & ND' & Fr & Hm).
  pose proof (keeps_len _ _ K) as L. unfold news in Nd. rewrite List.Forall_forall in *.
  constructor; cbn [add_user set_dec set_mem p_env p_st p_user p_cons p_dec p_f p_eq p_ineq].
  - exact R'.
  - intros i Hi. apply in_app_or in Hi as [Hi|Hi]; [specialize (U i Hi); lia|destruct (Hm i Hi) as ([A B] & _); lia].
  - intros c i Hc Hi. specialize (C c i Hc Hi). lia.
  - intros i Hi. specialize (F i Hi). lia.
  - intros i Hi. specialize (Eq i Hi). lia.
  - intros i Hi. specialize (In_ i Hi). lia.
  - exists (nodes ++ nodes'). rewrite Hr. split; [apply Forall2_app; [eapply Forall2_decides; eauto; exact (proj1 X)|exact D']|].
    clear -ND ND' D Fr. pose proof (fun n => dec_nodes_lt _ _ _ _ n D) as NL. clear D. induction ND as [|x l Hx ND IH]; cbn; [exact ND'|].
    constructor; [|apply IH; intros n Hn; apply NL; right; exact Hn]. intros C. apply in_app_or in C as [C|C]; [auto|].
    specialize (NL x (or_introl eq_refl)). destruct (Fr x C). lia.
  - rewrite Hr. intros i Hi Hu. apply in_app_or in Hi as [Hi|Hi]; apply in_app_or in Hu as [Hu|Hu].
    + eapply H; eauto.
    + destruct (Hm i Hu) as ([A B] & _). pose proof (dec_lt _ _ _ _ _ D Hi). lia.
    + specialize (U i Hu). destruct (Nd i Hi). lia.
    + destruct (Hm i Hu) as (_ & A & _). auto.
Qed.

Lemma uslot_in p i k : uslot p i = Ok k -> In k (p_user (S := S) p).
Proof. unfold uslot. destruct (nth_error (p_user p) i) eqn:E; [|discriminate]. intros [= <-]. eapply nth_error_In; eauto. Qed.

Lemma hop_at_target (p : prog S) o o' j : hop_at (uslot p) o = Ok o' -> hop_target o' = Some j -> In j (p_user p).
Proof.
  intros H T. destruct o; cbn [hop_at] in H;
    repeat match type of H with obind (uslot p ?i) _ = _ => let E := fresh "E" in destruct (uslot p i) eqn:E; cbn [obind] in H; try discriminate; apply uslot_in in E end;
    injection H as <-; cbn [hop_target] in T; try discriminate; injection T as <-; assumption.
Qed.

Lemma pinv_step o p p' out : pinv p -> pstep o p = Ok (p', out) -> pinv p'.
Proof.
  intros I H. destruct o as [o|c a b|l x u|b ks|k|rows cols|rows|i|i|k]; cbn [pstep] in H.
  - destruct (hop_at (uslot p) o) as [o'| | |] eqn:Eo; cbn [obind] in H; try discriminate.
    destruct (hstep o' (p_env p) (p_st p)) as [[[e s] out1]| | |] eqn:E; cbn [obind] in H; try discriminate. injection H as <- <-.
    pose proof (i_reach _ I) as R. pose proof (jreach_step_hop _ _ _ _ _ _ R E) as R1.
    destruct (jreach_inv _ R) as (HI & _). pose proof (proj1 (hstep_grows _ _ _ _ _ _ HI (hstep_scope _ _ _ _ E) E)) as G.
    pose proof (hstep_length _ _ _ _ _ _ E) as L.
    destruct (creates o') eqn:Cr.
    + apply pinv_mem; auto; [apply (hstep_keeps o' _ (p_st p) _ s out1); [destruct o'; try discriminate; reflexivity|exact E]|].
      constructor; [split; lia|constructor].
    + destruct I as [_ U C F Eq In_ (nodes & D & ND) Hh]. constructor; cbn [set_mem p_env p_st p_user p_cons p_dec p_f p_eq p_ineq]; try rewrite L; auto.
      exists nodes. split; [|exact ND].
      assert (W : forall j, In j (p_dec p) -> hop_target o' <> Some j) by (intros j Hj Ht; eapply Hh; [exact Hj|]; eapply hop_at_target; eauto).
      clear - D W E G. induction D as [|j n l l' (v & A & B & K) _ IH]; constructor.
      * destruct (hstep_others _ _ _ _ _ _ E j v (W j (or_introl eq_refl)) A) as (v' & A' & B'). exists v'. split; [exact A'|]. split; [congruence|]. eapply kvar_grows; eauto.
      * apply IH. intros j' Hj'. apply W. right. exact Hj'.
  - destruct (operand_at (uslot p) a) as [a'| | |]; cbn [obind] in H; try discriminate.
    destruct (operand_at (uslot p) b) as [b'| | |]; cbn [obind] in H; try discriminate.
    destruct (compare c a' b' (p_env p) (p_st p)) as [[[k e] s]| | |] eqn:E; cbn [obind] in H; try discriminate. injection H as <- <-.
    destruct (pinv_psafe _ _ _ _ _ _ I (psafe_compare c a' b') E) as [I' N]. eapply pinv_cons; [exact I'|reflexivity|].
    unfold newc, news in N. rewrite List.Forall_forall in N. intros i Hi. destruct (N i Hi). cbn. lia.
  - destruct (operand_at (uslot p) l) as [l'| | |]; cbn [obind] in H; try discriminate.
    destruct (operand_at (uslot p) x) as [x'| | |]; cbn [obind] in H; try discriminate.
    destruct (operand_at (uslot p) u) as [u'| | |]; cbn [obind] in H; try discriminate.
    destruct (bounds l' x' u' (p_env p) (p_st p)) as [[[k e] s]| | |] eqn:E; cbn [obind] in H; try discriminate. injection H as <- <-.
    destruct (pinv_psafe _ _ _ _ _ _ I (psafe_bounds l' x' u') E) as [I' N]. eapply pinv_cons; [exact I'|reflexivity|].
    unfold newc, news in N. rewrite List.Forall_forall in N. intros i Hi. destruct (N i Hi). cbn. lia.
  - destruct (pconss p ks) as [l| | |]; cbn [obind] in H; try discriminate.
    destruct (concat_cons b l (p_env p) (p_st p)) as [[[k e] s]| | |] eqn:E; cbn [obind] in H; try discriminate. injection H as <- <-.
    destruct (pinv_psafe _ _ _ _ _ _ I (psafe_concat b l) E) as [I' N]. eapply pinv_cons; [exact I'|reflexivity|].
    unfold newc, news in N. rewrite List.Forall_forall in N. intros i Hi. destruct (N i Hi). cbn. lia.
  - destruct (pcons p k) as [c| | |]; cbn [obind] in H; try discriminate.
    destruct (cons_bool c (p_env p) (p_st p)) as [[[b e] s]| | |] eqn:E; cbn [obind] in H; try discriminate. injection H as <- <-.
    apply (pinv_psafe _ _ _ _ _ _ I (psafe_bool c) E).
  - destruct (decision_variable (p_dec p) rows cols (p_env p) (p_st p)) as [[[[d m] e] s]| | |] eqn:E; cbn [obind] in H; try discriminate. injection H as <- <-.
    apply (pinv_registered p (d, m) e s I). eapply decision_registers; [apply (i_reach _ I)|exact E].
  - destruct (symmetric_decision_variable (p_dec p) rows (p_env p) (p_st p)) as [[[[d m] e] s]| | |] eqn:E; cbn [obind] in H; try discriminate. injection H as <- <-.
    apply (pinv_registered p (d, m) e s I). eapply symmetric_registers; [apply (i_reach _ I)|exact E].
  - destruct (uslot p i) as [k| | |]; cbn [obind] in H; try discriminate.
    destruct (pnew (HCopy k) (p_env p) (p_st p)) as [[[f e] s]| | |] eqn:E; cbn [obind] in H; try discriminate. injection H as <- <-.
    destruct (pinv_psafe _ _ _ _ _ _ I (psafe_between (HCopy k) eq_refl) E) as [I' [N1 N2]].
    destruct I' as [R U C F Eq In_ D Hh]. constructor; cbn [set_f set_mem p_env p_st p_user p_cons p_dec p_f p_eq p_ineq] in *; auto. intros j [= <-]. exact N2.
  - destruct (uslot p i) as [k| | |]; cbn [obind] in H; try discriminate.
    destruct (pnew (HUn UNeg k) (p_env p) (p_st p)) as [[[f e] s]| | |] eqn:E; cbn [obind] in H; try discriminate. injection H as <- <-.
    destruct (pinv_psafe _ _ _ _ _ _ I (psafe_between (HUn UNeg k) eq_refl) E) as [I' [N1 N2]].
    destruct I' as [R U C F Eq In_ D Hh]. constructor; cbn [set_f set_mem p_env p_st p_user p_cons p_dec p_f p_eq p_ineq] in *; auto. intros j [= <-]. exact N2.
  - destruct (pcons p k) as [c| | |]; cbn [obind] in H; try discriminate.
    destruct (copies (snd c) (p_env p) (p_st p)) as [[[l e] s]| | |] eqn:E; cbn [obind] in H; try discriminate. injection H as <- <-.
    destruct (pinv_psafe _ _ _ _ _ _ I (psafe_copies (snd c)) E) as [I' N]. unfold news in N. rewrite List.Forall_forall in N.
    destruct I' as [R U C F Eq In_ D Hh]. destruct (fst c);
      constructor; cbn [add_eq add_ineq set_mem p_env p_st p_user p_cons p_dec p_f p_eq p_ineq] in *; auto;
      intros i Hi; apply in_app_or in Hi as [Hi|Hi]; auto; destruct (N i Hi); lia.
Qed.

Lemma pinv_run l : forall p p' out, pinv p -> prun l p = Ok (p', out) -> pinv p'.
Proof.
  induction l as [|o l IH]; intros p p' out I H; cbn [prun] in H; [injection H as <- <-; exact I|].
  destruct (pstep o p) as [[p1 o1]| | |] eqn:E; cbn [obind] in H; try discriminate.
  destruct (prun l p1) as [[p2 o2]| | |] eqn:E2; cbn [obind] in H; try discriminate. injection H as <- <-.
  eapply IH; [eapply pinv_step; eauto|exact E2].
Qed.

End Inv.
