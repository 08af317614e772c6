(** Proofs for C31-C33: building constraints and problems (any scalar type that computes the user's mathematics). *)
From Coq Require Import ZArith Reals List Bool Arith Lia Lra.
From Verif Require Import Base ExprModel GraphSpec GraphProofs ExprInv VarModel VarProofs ExprReal MathSpec MathProofs VarSpec Faith SmoothGraph HistProofs
  ProblemModel ProblemSpec.
Import ListNotations.

Local Open Scope nat_scope.
Section Build.
Context {SK : sops} {FK : faith SK} {FK2 : faith2 SK}.
Local Notation stR := (st SK).

Lemma Forall2_impl {A B} (P Q : A -> B -> Prop) : (forall a b, P a b -> Q a b) -> forall l l', Forall2 P l l' -> Forall2 Q l l'.
Proof. intros H l l' F. induction F; constructor; auto. Qed.

Lemma Forall2_length {A B} (P : A -> B -> Prop) l l' : Forall2 P l l' -> length l = length l'.
Proof. intros F. induction F; cbn; auto. Qed.

Definition at_ (E : list uexp) (i : nat) (x : uexp) : Prop := nth_error E i = Some x.
Definition fresh_at (E more : list uexp) (i : nat) (x : uexp) : Prop := nth_error (E ++ more) i = Some x /\ length E <= i.

Lemma at_more E more i x : at_ E i x -> at_ (E ++ more) i x.
Proof. intros H. unfold at_. rewrite nth_error_app1; [exact H|]. apply nth_error_Some. rewrite H. discriminate. Qed.
Lemma fresh_at_more E more more' i x : fresh_at E more i x -> fresh_at E (more ++ more') i x.
Proof.
  intros [H L]. split; [|exact L]. rewrite app_assoc. rewrite nth_error_app1; [exact H|]. apply nth_error_Some. rewrite H. discriminate.
Qed.
Lemma fresh_at_less E more more' i x : fresh_at (E ++ more) more' i x -> fresh_at E (more ++ more') i x.
Proof. intros [H L]. rewrite app_length in L. split; [rewrite app_assoc; exact H|lia]. Qed.
Lemma fresh_at_at E more i x : fresh_at E more i x -> at_ (E ++ more) i x.
Proof. intros [H _]. exact H. Qed.

(** Runs [m] in any state whose variables mean [se]; afterwards there are [more] variables. *)
Definition ptrip {A} (m : P (S := SK) A) (se : senv) (n' : nat) (v' : nat -> R) (Q : A -> list uexp -> Prop) : Prop :=
  forall e s dv, linked se e s dv -> exists a e' s' dv' more, m e s = Ok (a, e', s') /\
    linked (mkSE (se_exp se ++ more) n' v') e' s' dv' /\ Q a more.

Lemma ptrip_ret {A} (a : A) se (Q : A -> list uexp -> Prop) : Q a [] -> ptrip (pret a) se (se_n se) (se_val se) Q.
Proof.
  intros H e s dv L. exists a, e, s, dv, []. split; [reflexivity|]. split; [|exact H]. rewrite app_nil_r. destruct se; exact L.
Qed.

Lemma ptrip_bind {A B} (m : P A) (f : A -> P B) se n1 v1 Q n2 v2 Q2 : ptrip m se n1 v1 Q ->
  (forall a more, Q a more -> ptrip (f a) (mkSE (se_exp se ++ more) n1 v1) n2 v2 (fun b more2 => Q2 b (more ++ more2))) ->
  ptrip (pbind m f) se n2 v2 Q2.
Proof.
  intros Hm Hf e s dv L. destruct (Hm e s dv L) as (a & e1 & s1 & dv1 & more & E & L1 & HQ).
  destruct (Hf a more HQ e1 s1 dv1 L1) as (b & e2 & s2 & dv2 & more2 & E2 & L2 & HQ2).
  exists b, e2, s2, dv2, (more ++ more2). unfold pbind. rewrite E. cbn [obind]. split; [exact E2|].
  cbn [se_exp] in L2. rewrite <- app_assoc in L2. split; assumption.
Qed.

Lemma ptrip_weaken {A} (m : P A) se n v (Q Q' : A -> list uexp -> Prop) :
  ptrip m se n v Q -> (forall a more, Q a more -> Q' a more) -> ptrip m se n v Q'.
Proof.
  intros H W e s dv L. destruct (H e s dv L) as (a & e1 & s1 & dv1 & more & E & L1 & HQ).
  exists a, e1, s1, dv1, more. auto.
Qed.

Lemma linked_length se e s dv : linked se e s dv -> length e = length (se_exp se).
Proof. intros (_ & _ & _ & L & _). exact L. Qed.

Lemma pnew_trip o se x n v : sstep o se = Some (mkSE (se_exp se ++ [x]) n v, []) ->
  ptrip (pnew (hinj o)) se n v (fun i more => fresh_at (se_exp se) more i x).
Proof.
  intros H e s dv L. destruct (sstep_ok o se _ _ e s dv L H) as (e' & s' & out & dv' & E & L' & A).
  exists (length e), e', s', dv', [x]. unfold pnew. rewrite E. cbn [obind]. split; [reflexivity|]. split; [exact L'|].
  rewrite (linked_length _ _ _ _ L). split; [|lia]. rewrite nth_error_app2 by lia. rewrite Nat.sub_diag. reflexivity.
Qed.

(** Loops whose every iteration yields the slot of a new variable with a known meaning. *)
Lemma pmap_trip {A} (f : A -> P nat) n v (l : list A) (xs : list uexp) : forall E,
  (forall a x, In (a, x) (combine l xs) -> forall more, ptrip (f a) (mkSE (E ++ more) n v) n v (fun i more' => fresh_at (E ++ more) more' i x)) ->
  length l = length xs ->
  ptrip (pmap f l) (mkSE E n v) n v (fun ks more => Forall2 (fresh_at E more) ks xs).
Proof.
  revert xs. induction l as [|a l IH]; intros [|x xs] E H HL; try discriminate HL; cbn [pmap].
  - apply (ptrip_ret [] (mkSE E n v)). constructor.
  - eapply ptrip_bind.
    { assert (H0 := H a x (or_introl eq_refl) []). rewrite app_nil_r in H0. exact H0. }
    intros i more Hi. cbn [se_exp]. eapply ptrip_bind.
    { apply (IH xs (E ++ more)); [|cbn in HL; lia]. intros b y Hb more'. rewrite <- app_assoc. apply H. right. exact Hb. }
    intros ks more2 Hks. cbn [se_exp]. apply (ptrip_ret (i :: ks) (mkSE ((E ++ more) ++ more2) n v)).
    rewrite app_nil_r. constructor.
    + apply fresh_at_more. exact Hi.
    + eapply Forall2_impl; [|exact Hks]. intros k y. apply fresh_at_less.
Qed.

(** *** Operands *)
(** The slot version [o'] of operand [o]. *)
Definition opslots (E : list uexp) (o' : operand SK) (row col : nat) (x : uexp) : Prop :=
  match o' with
  | OVar i => at_ E i x
  | ONum c => exists z, c = inj z /\ x = XConst z
  | OVars _ cols l => exists i, nth_error l (row * cols + col) = Some i /\ at_ E i x
  | ONums _ cols l => exists c, nth_error l (row * cols + col) = Some (inj c) /\ x = XConst c
  end.

Lemma opslots_more E more o r c x : opslots E o r c x -> opslots (E ++ more) o r c x.
Proof.
  destruct o; cbn; auto.
  - apply at_more.
  - intros (i & Hi & H). exists i. split; [exact Hi|]. apply at_more, H.
Qed.

Lemma oelem_trip o E n v r c x : opslots E o r c x ->
  ptrip (oelem o r c) (mkSE E n v) n v (fun i more => at_ (E ++ more) i x).
Proof.
  intros H. destruct o as [i|z|rr cc l|rr cc l]; cbn [opslots oelem] in *.
  - apply (ptrip_ret i (mkSE E n v)). rewrite app_nil_r. exact H.
  - destruct H as (c0 & -> & ->). eapply ptrip_weaken; [apply (pnew_trip (HConst (S := R_ops) c0) (mkSE E n v)); reflexivity|]. intros i more. apply fresh_at_at.
  - destruct H as (i & Hi & H). intros e s dv L. rewrite Hi. exists i, e, s, dv, [].
    split; [reflexivity|]. cbn [se_exp]. rewrite app_nil_r. split; [exact L|exact H].
  - destruct H as (z & Hz & ->). rewrite Hz. eapply ptrip_weaken; [apply (pnew_trip (HConst (S := R_ops) z) (mkSE E n v)); reflexivity|].
    intros i more. apply fresh_at_at.
Qed.

Lemma sub_trip a b E n v r c x y : opslots E a r c x -> opslots E b r c y ->
  ptrip (sub_at a b (r, c)) (mkSE E n v) n v (fun i more => fresh_at E more i (XBin BSub x y)).
Proof.
  intros Ha Hb. unfold sub_at. cbn [fst snd]. eapply ptrip_bind; [apply oelem_trip; exact Ha|].
  intros i more Hi. cbn [se_exp]. eapply ptrip_bind; [apply oelem_trip, opslots_more, Hb|].
  intros j more2 Hj. cbn [se_exp]. 
  eapply ptrip_weaken.
  - apply (pnew_trip (HBin BSub i j) (mkSE ((E ++ more) ++ more2) n v) (XBin BSub x y)). cbn [sstep se_exp se_n se_val].
    pose proof (at_more _ more2 _ _ Hi) as Hi'. unfold at_ in Hi', Hj. rewrite Hi', Hj. reflexivity.
  - intros k more3 Hk. cbn [se_exp] in Hk. apply fresh_at_less, fresh_at_less. exact Hk.
Qed.

(** *** Row-major loops *)
Lemma seq_shift_add a n : seq a n = map (fun b => a + b) (seq 0 n).
Proof.
  revert a. induction n as [|n IH]; intros a; [reflexivity|]. cbn [seq map]. rewrite Nat.add_0_r. f_equal.
  rewrite IH. rewrite (IH 1), map_map. apply map_ext. intros b. lia.
Qed.

Lemma list_prod_cells c r : forall a, list_prod (seq a r) (seq 0 c) = map (fun k => (k / c, k mod c)) (seq (a * c) (r * c)).
Proof.
  induction r as [|r IH]; intros a; [reflexivity|]. cbn [seq list_prod]. rewrite IH.
  cbn [Nat.mul]. rewrite seq_app, map_app. f_equal.
  - rewrite (seq_shift_add (a * c)), map_map. apply map_ext_in. intros b Hb. apply in_seq in Hb.
    replace (a * c + b) with (b + a * c) by lia. rewrite Nat.div_add, Nat.mod_add by lia.
    rewrite Nat.div_small, Nat.mod_small by lia. reflexivity.
  - rewrite Nat.add_comm. reflexivity.
Qed.

Lemma cells_eq r c : cells r c = map (fun k => (k / c, k mod c)) (seq 0 (r * c)).
Proof. apply (list_prod_cells c r 0). Qed.

Lemma all_opt_forall2 {A B} (f : A -> option B) l bs : all_opt (map f l) = Some bs -> Forall2 (fun a b => f a = Some b) l bs.
Proof.
  revert bs. induction l as [|a l IH]; intros bs H; cbn in H.
  - injection H as <-. constructor.
  - destruct (f a) as [b|] eqn:E; [|discriminate]. destruct (all_opt (map f l)) as [bs'|]; [|discriminate].
    injection H as <-. constructor; auto.
Qed.

(** *** make_constraints *)
(** [o'] is [o] with the user's variables replaced by their slots. *)
Definition op_link (se : senv) (E : list uexp) (o : operand R_ops) (o' : operand SK) : Prop :=
  oshape o' = oshape o /\ forall r c x, oexp se o r c = Some x -> opslots E o' r c x.

Lemma op_link_more se E more o o' : op_link se E o o' -> op_link se (E ++ more) o o'.
Proof. intros [H1 H2]. split; [exact H1|]. intros. apply opslots_more. auto. Qed.

Lemma sub_cells_trip a b E n v ks xs : Forall2 (fun k x => exists y z, x = XBin BSub y z /\ opslots E a (fst k) (snd k) y /\ opslots E b (fst k) (snd k) z) ks xs ->
  ptrip (pmap (sub_at a b) ks) (mkSE E n v) n v (fun l more => Forall2 (fresh_at E more) l xs).
Proof.
  intros H. apply pmap_trip; [|eapply Forall2_length; eauto].
  intros k x Hin more.
  assert (Hk : exists y z, x = XBin BSub y z /\ opslots E a (fst k) (snd k) y /\ opslots E b (fst k) (snd k) z).
  { clear -H Hin. induction H; cbn in Hin; [contradiction|]. destruct Hin as [[= <- <-]|Hin]; auto. }
  destruct Hk as (y & z & -> & Hy & Hz). destruct k as [r c]. apply sub_trip; apply opslots_more; assumption.
Qed.

Definition diff_of (a b : operand R_ops) (se : senv) : option (list uexp) :=
  match common_shape a b with
  | Some (rows, cols) => all_opt (map (fun k => match oexp se a (k / cols) (k mod cols), oexp se b (k / cols) (k mod cols) with
                                   | Some x, Some y => Some (XBin BSub x y) | _, _ => None end) (seq 0 (rows * cols)))
  | None => None
  end.

Lemma make_trip se a b a' b' E n v xs : op_link se E a a' -> op_link se E b b' -> diff_of a b se = Some xs ->
  ptrip (make_constraints a' b') (mkSE E n v) n v (fun l more => Forall2 (fresh_at E more) l xs).
Proof.
  intros [Sa Ha] [Sb Hb] H. unfold diff_of in H.
  destruct (common_shape a b) as [[rows cols]|] eqn:CS; [|discriminate].
  assert (G : Forall2 (fun k x => exists y z, x = XBin BSub y z /\ opslots E a' (fst k) (snd k) y /\ opslots E b' (fst k) (snd k) z)
                (cells rows cols) xs).
  { rewrite cells_eq. apply all_opt_forall2 in H. remember (seq 0 (rows * cols)) as ks. clear Heqks. induction H as [|k x ks xs H1 H2 IH]; cbn [map]; constructor; [|exact IH].
    cbn [fst snd]. destruct (oexp se a (k / cols) (k mod cols)) as [y|] eqn:E1; [|discriminate].
    destruct (oexp se b (k / cols) (k mod cols)) as [z|] eqn:E2; [|discriminate]. injection H1 as <-. exists y, z. split; [reflexivity|]. split; [apply Ha|apply Hb]; assumption. }
  unfold make_constraints, common_shape in *. rewrite Sa, Sb.
  destruct (oshape a) as [[r c]|], (oshape b) as [[r' c']|]; cbn [fst snd] in CS.
  - destruct (Nat.eqb r r' && Nat.eqb c c') eqn:EQ; [|discriminate]. injection CS as -> ->.
    cbv beta. intros e s dv L. cbn [oassert]. exact (sub_cells_trip _ _ _ _ _ _ _ G e s dv L).
  - injection CS as -> ->. apply sub_cells_trip, G.
  - injection CS as -> ->. apply sub_cells_trip, G.
  - injection CS as <- <-. apply sub_cells_trip, G.
Qed.

Definition rexp (r : urel) : uexp :=
  match r_cmp r with CLt | CLe => XBin BSub (r_r r) (r_l r) | _ => XBin BSub (r_l r) (r_r r) end.

Definition flip (c : cmp) : bool := match c with CLt | CLe => true | _ => false end.

Lemma common_shape_sym a b : common_shape b a = common_shape a b.
Proof.
  unfold common_shape. destruct (oshape a) as [[r c]|], (oshape b) as [[r' c']|]; cbn [fst snd]; auto.
  rewrite (Nat.eqb_sym r' r), (Nat.eqb_sym c' c).
  destruct (Nat.eqb r r') eqn:E1; [|reflexivity]. destruct (Nat.eqb c c') eqn:E2; [|reflexivity].
  apply Nat.eqb_eq in E1, E2. subst. reflexivity.
Qed.

Lemma rels_diff se c a b l : rels se c a b = Some l ->
  diff_of (if flip c then b else a) (if flip c then a else b) se = Some (map rexp l) /\ List.Forall (fun r => r_cmp r = c) l.
Proof.
  unfold rels, diff_of. intros H. destruct (owf _ a && owf _ b); [|discriminate].
  assert (CS : common_shape (if flip c then b else a) (if flip c then a else b) = common_shape a b)
    by (destruct (flip c); [apply common_shape_sym|reflexivity]).
  rewrite CS. destruct (common_shape a b) as [[rows cols]|]; [|discriminate].
  revert l H. generalize (seq 0 (rows * cols)). intros ks. induction ks as [|k ks IH]; intros l H; cbn [map all_opt] in *.
  - injection H as <-. split; [reflexivity|constructor].
  - unfold rel_at in H at 1. destruct (oexp se a (k / cols) (k mod cols)) as [x|] eqn:E1; [|discriminate].
    destruct (oexp se b (k / cols) (k mod cols)) as [y|] eqn:E2; [|discriminate].
    destruct (all_opt (map (fun k0 => rel_at se c a b (k0 / cols) (k0 mod cols)) ks)) as [l'|]; [|discriminate].
    injection H as <-. destruct (IH l' eq_refl) as [I1 I2].
    split; [|constructor; [reflexivity|exact I2]].
    rewrite I1. cbn [map]. unfold rexp at 1. cbn [r_cmp r_l r_r].
    destruct c; cbn [flip]; rewrite ?E1, ?E2; reflexivity.
Qed.

(** A new constraint object standing for relations [l]. *)
Definition cons_fresh (E more : list uexp) (b : bool) (l : list urel) (c : cons) : Prop :=
  fst c = b /\ Forall2 (fun i r => fresh_at E more i (rexp r)) (snd c) l.

Lemma Forall2_map_r {A B C} (f : B -> C) (R : A -> C -> Prop) l l' : Forall2 R l (map f l') <-> Forall2 (fun a b => R a (f b)) l l'.
Proof.
  revert l'. induction l as [|a l IH]; intros [|b l']; cbn; split; intros H; inversion H; subst; constructor; auto; apply IH; auto.
Qed.

Lemma compare_trip se c a b a' b' E n v l : op_link se E a a' -> op_link se E b b' -> rels se c a b = Some l ->
  ptrip (compare c a' b') (mkSE E n v) n v (fun k more => cons_fresh E more (is_eq c) l k /\ List.Forall (fun r => is_eq (r_cmp r) = is_eq c) l).
Proof.
  intros Ha Hb H. destruct (rels_diff se c a b l H) as [D F].
  assert (F' : List.Forall (fun r => is_eq (r_cmp r) = is_eq c) l) by (eapply Forall_impl; [|exact F]; intros r ->; reflexivity).
  destruct c; cbn [compare is_eq flip] in *;
    (eapply ptrip_bind; [eapply make_trip; [| |exact D]; eassumption|]);
    intros ks more Hks; cbn [se_exp];
    (eapply (ptrip_ret _ (mkSE (E ++ more) n v)); rewrite app_nil_r; split; [|exact F']; split; [reflexivity|]; cbn [snd];
     apply (proj1 (Forall2_map_r _ _ _ _)) in Hks; exact Hks).
Qed.

Lemma copies_trip E n v l xs : Forall2 (at_ E) l xs ->
  ptrip (copies l) (mkSE E n v) n v (fun ks more => Forall2 (fresh_at E more) ks xs).
Proof.
  intros H. apply pmap_trip; [|eapply Forall2_length; eauto]. intros i x Hin more.
  assert (Hi : at_ E i x). { clear -H Hin. induction H; cbn in Hin; [contradiction|]. destruct Hin as [[= <- <-]|Hin]; auto. }
  apply (pnew_trip (HCopy i) (mkSE (E ++ more) n v)). cbn [sstep se_exp].
  pose proof (at_more _ more _ _ Hi) as Hi'. unfold at_ in Hi'. rewrite Hi'. reflexivity.
Qed.

(** A constraint object standing for [l]. *)
Definition cons_at (E : list uexp) (b : bool) (l : list urel) (c : cons) : Prop :=
  fst c = b /\ Forall2 (fun i r => at_ E i (rexp r)) (snd c) l.

Lemma concat_trip E n v b cs scs : forallb (fun c => Bool.eqb (fst c) b) scs = true ->
  Forall2 (fun c sc => cons_at E (fst sc) (snd sc) c) cs scs ->
  ptrip (concat_cons b cs) (mkSE E n v) n v (fun k more => cons_fresh E more b (concat (map snd scs)) k).
Proof.
  intros Hb H. unfold concat_cons.
  assert (FB : forallb (fun c => Bool.eqb (fst c) b) cs = true).
  { revert Hb. induction H as [|c sc cs scs [H1 H2] H3 IH]; cbn; auto. rewrite H1. intros Hb. apply andb_prop in Hb as [-> Hb]. cbn. auto. }
  assert (G : Forall2 (at_ E) (flat_map snd cs) (map rexp (concat (map snd scs)))).
  { clear -H. induction H as [|c sc cs scs [H1 H2] H3 IH]; cbn; [constructor|]. rewrite map_app. apply Forall2_app; [|exact IH].
    apply Forall2_map_r. exact H2. }
  intros e s dv L. rewrite FB. revert e s dv L. change (ptrip (pbind (copies (flat_map snd cs)) (fun r => pret (b, r))) (mkSE E n v) n v
     (fun k more => cons_fresh E more b (concat (map snd scs)) k)).
  eapply ptrip_bind; [apply copies_trip, G|]. intros ks more Hks. cbn [se_exp].
  apply (ptrip_ret (b, ks) (mkSE (E ++ more) n v)). rewrite app_nil_r. split; [reflexivity|]. apply (proj1 (Forall2_map_r _ _ _ _)) in Hks. exact Hks.
Qed.

Lemma bounds_trip se l x u l' x' u' E n v r1 r2 : op_link se E l l' -> op_link se E x x' -> op_link se E u u' ->
  rels se CLe l x = Some r1 -> rels se CLe x u = Some r2 ->
  ptrip (bounds l' x' u') (mkSE E n v) n v (fun k more => cons_fresh E more false (r1 ++ r2) k /\
    List.Forall (fun r => is_eq (r_cmp r) = false) (r1 ++ r2)).
Proof.
  intros Hl Hx Hu H1 H2. unfold bounds. eapply ptrip_bind; [eapply compare_trip; eassumption|].
  intros a more [Ha Fa]. cbn [se_exp]. eapply ptrip_bind; [eapply compare_trip; [| |exact H2]; apply op_link_more; assumption|].
  intros b more2 [Hb Fb]. cbn [se_exp]. eapply ptrip_weaken.
  - apply (concat_trip ((E ++ more) ++ more2) n v false [a; b] [(false, r1); (false, r2)]); [reflexivity|].
    constructor; [|constructor; [|constructor]]; cbn [fst snd].
    + destruct Ha as [A1 A2]. split; [exact A1|]. eapply Forall2_impl; [|exact A2]. intros i r Hi. apply at_more, fresh_at_at, Hi.
    + destruct Hb as [A1 A2]. split; [exact A1|]. eapply Forall2_impl; [|exact A2]. intros i r Hi. apply fresh_at_at, Hi.
  - intros k more3 Hk. cbn [map snd concat] in Hk. rewrite app_nil_r in Hk. split; [|apply Forall_app; split; assumption].
    destruct Hk as [K1 K2]. split; [exact K1|]. eapply Forall2_impl; [|exact K2]. intros i r Hi. apply fresh_at_less, fresh_at_less, Hi.
Qed.

(** *** Conversion to bool *)
(** What a statement shows is right. *)
Definition pright (q : pquery) (o : pout SK) : Prop :=
  match q, o with
  | QVal q, PVal x => right q x
  | QRel l rho, PTest b => List.Forall (rel_defined rho) l -> (b = true <-> List.Forall (rel_holds rho) l)
  | _, _ => False
  end.

Lemma rexp_value rho r : rel_defined rho r -> exists a b, XEv rho (r_l r) a /\ XEv rho (r_r r) b /\ no_pow00 rho (rexp r) /\
  XEv rho (rexp r) (if flip (r_cmp r) then b - a else a - b)%R.
Proof.
  intros ((P1 & a & A) & (P2 & b & B)). exists a, b. split; [exact A|]. split; [exact B|]. unfold rexp.
  assert (M : forall x y, math_bin BSub x y (x - y)%R) by (intros; constructor).
  destruct (r_cmp r); cbn [flip];
    (split; [cbn [no_pow00]; split; [assumption|]; split; [assumption|discriminate]|]; econstructor; eauto).
Qed.

Lemma pvalue_trip E n v i x : at_ E i x ->
  ptrip (pvalue i) (mkSE E n v) n v (fun a more => more = [] /\ right (x, v) a).
Proof.
  intros H e s dv L. unfold at_ in H.
  destruct (sstep_ok (HValue i) (mkSE E n v) (mkSE E n v) [(x, v)] e s dv L) as (e' & s' & out & dv' & E1 & L' & A).
  { cbn [sstep se_exp]. rewrite H. reflexivity. }
  inversion A as [|q0 y q1 out' A1 A2]; subst. inversion A2; subst.
  exists y, e', s', dv', []. unfold pvalue. cbn [hinj] in E1. rewrite E1. cbn [obind se_exp]. rewrite app_nil_r. auto.
Qed.

Lemma all_of_trip E n v (test : SK -> bool) (good : urel -> Prop) l rs :
  Forall2 (fun i r => at_ E i (rexp r)) l rs ->
  (forall r y, In r rs -> rel_defined v r -> right (rexp r, v) y -> (test y = true <-> good r)) ->
  ptrip (all_of (S := SK) test l) (mkSE E n v) n v (fun b more => more = [] /\ (List.Forall (rel_defined v) rs -> (b = true <-> List.Forall good rs))).
Proof.
  intros H Ht. induction H as [|i r l rs H1 H2 IH]; cbn [all_of].
  - apply (ptrip_ret true (mkSE E n v)). split; [reflexivity|]. split; auto.
  - eapply ptrip_bind; [apply pvalue_trip; exact H1|]. intros y more [-> A]. cbn [se_exp]. rewrite app_nil_r.
    destruct (test y) eqn:T.
    + eapply ptrip_weaken; [apply IH; intros; apply Ht; auto; right; assumption|].
      intros b more [-> Hb]. split; [reflexivity|]. intros D. inversion D; subst.
      rewrite (Hb H4). split; intros G; [constructor; [|exact G]|inversion G; assumption].
      apply (Ht r y); auto. left; reflexivity.
    + apply (ptrip_ret false (mkSE E n v)). split; [reflexivity|]. intros D. inversion D; subst. split; [discriminate|].
      intros G. inversion G; subst. exfalso. apply (Ht r y) in H5; auto; [congruence|left; reflexivity].
Qed.

Lemma cons_bool_trip E n v c b rs : cons_at E b rs c -> List.Forall (fun r => is_eq (r_cmp r) = b) rs ->
  ptrip (cons_bool (S := SK) c) (mkSE E n v) n v (fun t more => more = [] /\ pright (QRel rs v) (PTest (S := SK) t)).
Proof.
  intros [Hb H] F. unfold cons_bool. rewrite Hb. cbn [pright].
  assert (G : forall r y, In r rs -> rel_defined v r -> right (rexp r, v) y ->
    ((if b then s_eqb SK y (s_ofZ SK 0) else s_leb SK (s_ofZ SK 0) y) = true <-> rel_holds v r)).
  { intros r y Hin D A. destruct (rexp_value v r D) as (p & q & Hp & Hq & NP & HE).
    specialize (A NP _ HE). cbn [fst snd] in A.
    assert (EQ : rel_holds v r <-> cmp_holds (r_cmp r) p q).
    { split.
      - intros (p' & q' & Hp' & Hq' & C). rewrite (XEv_det _ _ _ _ Hp Hp'), (XEv_det _ _ _ _ Hq Hq'). exact C.
      - intros C. exists p, q. auto. }
    rewrite EQ. pose proof (proj1 (Forall_forall _ _) F r Hin) as Hc. rewrite A. clear A HE EQ.
    rewrite f_ofZ.
    rewrite <- Hc. clear Hc. destruct (r_cmp r); cbn [is_eq flip cmp_holds]; rewrite ?f_eqb0, ?f_leb0; split; intros; lra. }
  destruct b; apply all_of_trip; auto.
Qed.

End Build.
