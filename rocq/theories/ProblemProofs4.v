(** Proofs for C31 and C32, continued: counting, mismatched shapes, infinities, and registered variables. *)
From Coq Require Import ZArith Reals List Bool Arith Lia Lra.
From Verif Require Import Base ExprModel GraphSpec GraphProofs ExprInv VarModel VarReach VarProofs ExprReal ExprXR MathSpec MathProofs VarSpec Faith SmoothGraph HistProofs
  JacModel JacProofs JacReach JacHist ProblemModel ProblemSpec ProblemInv ProblemProofs ProblemProofs2 ProblemProofs3.
Import ListNotations.
Local Open Scope nat_scope.

Lemma run_linked {SK} {FK : faith SK} {FK2 : faith2 SK} l sp qs p out : spec_run l spec_empty = Some (sp, qs) -> prun (map pinj l) (prog_empty SK) = Ok (p, out) ->
  plink sp p /\ pinv p.
Proof.
  intros H E. destruct (spec_run_ok l _ _ _ _ plink_empty H) as (p' & out' & E' & L & _). rewrite E in E'. injection E' as <- <-.
  split; [exact L|]. eapply pinv_run; [apply pinv_empty|exact E].
Qed.

Lemma run_plink l sp qs p out : spec_run l spec_empty = Some (sp, qs) -> prun l (prog_empty R_ops) = Ok (p, out) -> plink sp p /\ pinv p.
Proof. intros H E. eapply run_linked; [exact H|]. rewrite pinjs_R. exact E. Qed.

Lemma all_opt_nth {A} (l : list (option A)) bs k b : all_opt l = Some bs -> nth_error bs k = Some b -> nth_error l k = Some (Some b).
Proof.
  revert bs k. induction l as [|[x|] l IH]; intros bs k H Hk; cbn in *; try discriminate; [injection H as <-; destruct k; discriminate|].
  destruct (all_opt l) as [bs'|]; [|discriminate]. injection H as <-. destruct k; cbn in *; [congruence|eauto].
Qed.
Lemma all_opt_len {A} (l : list (option A)) bs : all_opt l = Some bs -> length bs = length l.
Proof.
  revert bs. induction l as [|[x|] l IH]; intros bs H; cbn in *; try discriminate; [injection H as <-; reflexivity|].
  destruct (all_opt l) as [bs'|]; [|discriminate]. injection H as <-. cbn. rewrite (IH _ eq_refl). reflexivity.
Qed.

Lemma rels_nth se c a b rs rows cols : rels se c a b = Some rs -> common_shape a b = Some (rows, cols) ->
  length rs = rows * cols /\ forall i j, i < rows -> j < cols -> nth_error rs (i * cols + j) = rel_at se c a b i j.
Proof.
  intros H HS. unfold rels in H. destruct (_ && _); [|discriminate]. rewrite HS in H.
  pose proof (all_opt_len _ _ H) as L. rewrite map_length, seq_length in L. split; [exact L|].
  intros i j Hi Hj. destruct (nth_error rs (i * cols + j)) as [r|] eqn:E; [|apply nth_error_None in E; nia].
  pose proof (all_opt_nth _ _ _ _ H E) as N. rewrite nth_error_map in N.
  assert (LT : i * cols + j < rows * cols) by nia.
  rewrite (nth_error_nth' _ 0) in N by (rewrite seq_length; exact LT). rewrite seq_nth in N by exact LT. cbn [option_map] in N. injection N as N.
  replace ((i * cols + j) / cols) with i in N by (apply Nat.div_unique with j; lia).
  replace ((i * cols + j) mod cols) with j in N by (apply Nat.mod_unique with i; lia). congruence.
Qed.

Lemma c31 l sp qs : spec_run l spec_empty = Some (sp, qs) ->
  exists p out, prun l (prog_empty R_ops) = Ok (p, out) /\ Forall2 panswers qs out /\
    Forall2 (fun c sc => fst c = fst sc /\ length (snd c) = length (snd sc)) (p_cons p) (sp_cons sp).
Proof.
  intros H. destruct (spec_run_ok (SK := R_ops) l _ _ _ _ plink_empty H) as (p & out & E & (E0 & dv & L & T) & A). rewrite pinjs_R in E. exists p, out. split; [exact E|]. split; [exact A|].
  eapply Forall2_impl; [|exact (t_cons _ _ _ T)]. intros c sc [H1 H2]. split; [exact H1|]. eapply Forall2_length; eauto.
Qed.

Lemma slots_len f l l' : slots f l = Ok l' -> length l' = length l.
Proof.
  revert l'. induction l as [|i l IH]; intros l' H; cbn in H; [injection H as <-; reflexivity|].
  destruct (f i); cbn [obind] in H; try discriminate. destruct (slots f l) as [ks| | |]; cbn [obind] in H; try discriminate. injection H as <-. cbn. rewrite (IH _ eq_refl). reflexivity.
Qed.

Lemma operand_at_ok sp (p : prog R_ops) E (o : operand R_ops) : tables sp p E -> owf (length (se_exp (sp_se sp))) o = true ->
  exists o', operand_at (uslot p) o = Ok o' /\ oshape o' = oshape o.
Proof.
  intros T W. destruct o as [i|c|r c l|r c l]; cbn [operand_at owf] in *.
  - apply Nat.ltb_lt in W. destruct (nth_error (se_exp (sp_se sp)) i) as [x|] eqn:Ex; [|apply nth_error_None in Ex; lia].
    destruct (uslot_get sp p E i x T Ex) as (k & A & _). rewrite A. cbn. eexists. split; reflexivity.
  - eexists. split; reflexivity.
  - apply andb_prop in W as [_ W]. assert (exists l', slots (uslot p) l = Ok l') as (l' & Hl).
    { clear r c. induction l as [|i l IH]; cbn in *; [eexists; reflexivity|]. apply andb_prop in W as [W1 W2]. apply Nat.ltb_lt in W1.
      destruct (nth_error (se_exp (sp_se sp)) i) as [x|] eqn:Ex; [|apply nth_error_None in Ex; lia].
      destruct (uslot_get sp p E i x T Ex) as (k & A & _). rewrite A. destruct (IH W2) as (l' & ->). cbn. eexists. reflexivity. }
    rewrite Hl. cbn. eexists. split; reflexivity.
  - eexists. split; reflexivity.
Qed.

Lemma c31_mismatch l sp qs p out c a b : spec_run l spec_empty = Some (sp, qs) -> prun l (prog_empty R_ops) = Ok (p, out) ->
  owf (length (se_exp (sp_se sp))) a = true -> owf (length (se_exp (sp_se sp))) b = true -> common_shape a b = None ->
  pstep (PCompare c a b) p = AssertFail.
Proof.
  intros H Hp Wa Wb Hs. destruct (run_plink _ _ _ _ _ H Hp) as ((E & dv & L & T) & _).
  destruct (operand_at_ok _ _ _ _ T Wa) as (a' & Ea & Sa). destruct (operand_at_ok _ _ _ _ T Wb) as (b' & Eb & Sb).
  cbn [pstep]. rewrite Ea. cbn [obind]. rewrite Eb. cbn [obind].
  unfold common_shape in Hs.
  assert (M : forall x y, (oshape x = oshape a /\ oshape y = oshape b) \/ (oshape x = oshape b /\ oshape y = oshape a) ->
     make_constraints (S := R_ops) x y (p_env p) (p_st p) = AssertFail).
  { intros x y Hxy. unfold make_constraints. destruct (oshape a) as [[r c0]|], (oshape b) as [[r' c']|]; try discriminate.
    cbn [fst snd] in Hs. destruct (Nat.eqb r r' && Nat.eqb c0 c') eqn:Q; [discriminate|].
    destruct Hxy as [[-> ->]|[-> ->]]; unfold oassert; [rewrite Q; reflexivity|].
    rewrite (Nat.eqb_sym r' r), (Nat.eqb_sym c' c0), Q. reflexivity. }
  destruct c; cbn [compare]; unfold pbind; rewrite M; auto.
Qed.

(** Comparing two infinite values. *)
Definition inf_ops (c : cmp) : list (pop X_ops) := [PH HNew; PH (HSet (S := X_ops) 0 PInf); PCompare c (OVar 0) (ONum (S := X_ops) PInf); PBool 0].
Lemma c31_inf c : exists p, prun (inf_ops c) (prog_empty X_ops) = Ok (p, [PTest false]).
Proof.
  assert (H : match prun (inf_ops c) (prog_empty X_ops) with Ok (_, out) => out = [PTest false] | _ => False end)
    by (destruct c; vm_compute; reflexivity).
  destruct (prun _ _) as [[p out]| | |]; try contradiction. exists p. rewrite H. reflexivity.
Qed.

Lemma stands_node se e (s : st R_ops) dv (p : prog R_ops) i k : linked se e s dv -> p_env p = e -> nth_error (se_exp se) i = Some (XVar k) ->
  slot_node p i = Some (nth k dv 0) /\ k < length dv.
Proof.
  intros L <- H. destruct (linked_get _ _ _ _ _ _ L H) as (v & n & A & _ & B & (_ & _ & St & _) & _).
  unfold slot_node. rewrite A. destruct (St k eq_refl) as [K ->]. auto.
Qed.

Lemma decides_node {S : sops} (p : prog S) (s : st S) i n : decides (p_env p) s i n -> slot_node p i = Some n.
Proof. intros (v & A & B & _). unfold slot_node. rewrite A. exact B. Qed.

Lemma registered_untouched {S : sops} (p : prog S) r e s : registered (p_dec p) (p_env p) (p_st p) r e s ->
  untouched p (add_user (set_dec (set_mem p e s) (fst r)) (snd r)).
Proof.
  intros (R & K & ((more & N) & X & _) & _). unfold untouched. cbn [add_user set_dec set_mem p_env p_st p_cons p_f p_eq p_ineq].
  split; [|split; [|auto]].
  - intros i n. unfold slot_node. cbn [add_user set_dec set_mem p_env]. destruct (nth_error (p_env p) i) as [v|] eqn:E; [|discriminate]. destruct (K _ _ E) as (v' & A & B). rewrite A. congruence.
  - intros n Hn. rewrite N, nth_error_app1 by exact Hn. split; [reflexivity|]. apply X, Hn.
Qed.

Lemma registered_registers {S : sops} (p : prog S) r e s ds : pinv p -> registered (p_dec p) (p_env p) (p_st p) r e s -> fst r = p_dec p ++ ds ->
  registers p (add_user (set_dec (set_mem p e s) (fst r)) (snd r)) ds.
Proof.
  intros I Rg Hr. pose proof (pinv_registered _ _ _ _ I Rg) as I'. destruct Rg as (R & K & X & ds' & nodes & Hr' & Nw & D & ND & Fr & Hm).
  assert (ds' = ds) by (rewrite Hr' in Hr; apply app_inv_head in Hr; congruence). subst ds'.
  destruct (i_dec _ I') as (ns & F & NDn). cbn [add_user set_dec set_mem p_env p_st p_dec] in F.
  set (p' := add_user (set_dec (set_mem p e s) (fst r)) (snd r)) in *.
  split; [exact Hr|]. split.
  - change (p_dec p') with (fst r). assert (Em : map (slot_node p') (fst r) = map Some ns).
    { clear - F. induction F as [|i n l l' H _ IH]; cbn; [reflexivity|]. f_equal; [|exact IH]. eapply decides_node. exact H. }
    rewrite Em. clear - NDn. induction NDn as [|x l Hx _ IH]; cbn; constructor; auto. intros C. apply Hx. apply in_map_iff in C as (y & [= ->] & Hy). exact Hy.
  - intros d Hd. rewrite List.Forall_forall in Fr.
    assert (exists n, In n nodes /\ decides e s d n) as (n & Hn & Dn).
    { clear - D Hd. induction D; [destruct Hd|]. destruct Hd as [->|Hd]; [exists y; split; [left; reflexivity|assumption]|].
      destruct (IHD Hd) as (n & A & B). exists n. split; [right; exact A|exact B]. }
    exists n. split; [eapply decides_node; exact Dn|]. split; [destruct Dn as (_ & _ & _ & V); exact V|].
    destruct (Fr n Hn) as [A B]. split; [exact B|exact A].
Qed.

Lemma Forall2_nth0 {A B} (R : A -> B -> Prop) l l' k a b : Forall2 R l l' -> k < length l' -> R (nth k l a) (nth k l' b).
Proof. intros F. revert k. induction F; intros [|k] H1; cbn in *; try lia; auto. apply IHF. lia. Qed.

Lemma made_shows E more n cnt entries dec r se e (s : st R_ops) dv (p' : prog R_ops) : matrix_made E more n cnt entries dec r ->
  linked se e s dv -> se_exp se = E ++ more -> p_env p' = e -> (forall k, In k entries -> k < cnt) ->
  exists ds, fst r = dec ++ ds /\ length ds = cnt /\ length (snd r) = length entries /\
    forall k, k < length entries -> slot_node p' (nth k (snd r) 0) = slot_node p' (nth (nth k entries 0) ds 0).
Proof.
  intros (ds & Hf & Hd & Hm & _) L Ex Ep Hent. exists ds. split; [exact Hf|].
  pose proof (Forall2_length _ _ _ Hd) as L1. rewrite map_length, seq_length in L1. split; [exact L1|].
  pose proof (Forall2_length _ _ _ Hm) as L2. rewrite map_length in L2. split; [exact L2|].
  intros k Hk. pose proof (Hent _ (nth_In _ 0 Hk)) as Hc.
  assert (A1 := Forall2_nth0 _ _ _ k 0 (XVar n) Hm). rewrite map_length in A1. specialize (A1 Hk).
  rewrite (nth_indep _ _ ((fun k0 => XVar (n + k0)) 0)) in A1 by (rewrite map_length; exact Hk). rewrite (map_nth (fun k0 => XVar (n + k0))) in A1.
  assert (A2 := Forall2_nth0 _ _ _ (nth k entries 0) 0 (XVar 0) Hd). rewrite map_length, seq_length in A2. specialize (A2 Hc).
  rewrite map_nth in A2. rewrite seq_nth in A2 by exact Hc.
  apply fresh_at_at in A1, A2. unfold at_ in A1, A2. rewrite <- Ex in A1, A2.
  rewrite (proj1 (stands_node _ _ _ _ p' _ _ L Ep A1)), (proj1 (stands_node _ _ _ _ p' _ _ L Ep A2)). reflexivity.
Qed.

Lemma c32_decision l sp qs p out rows cols : spec_run l spec_empty = Some (sp, qs) -> prun l (prog_empty R_ops) = Ok (p, out) ->
  exists p' ds ms, pstep (PDecision rows cols) p = Ok (p', []) /\ p_user p' = p_user p ++ ms /\ registers p p' ds /\ untouched p p' /\
    length ds = rows * cols /\ length ms = rows * cols /\
    forall i j, i < rows -> j < cols -> slot_node p' (nth (i * cols + j) ms 0) = slot_node p' (nth (i * cols + j) ds 0).
Proof.
  intros H Hp. destruct (run_plink _ _ _ _ _ H Hp) as ((E & dv & L & T) & I).
  destruct (decision_trip E _ _ (p_dec p) rows cols _ _ _ L) as (r & e' & s' & dv' & more & Er & L' & M).
  pose proof (decision_registers _ _ _ _ _ _ _ _ (i_reach _ I) Er) as Rg.
  set (p' := add_user (set_dec (set_mem p e' s') (fst r)) (snd r)).
  destruct (made_shows _ _ _ _ _ _ _ _ _ _ _ p' M L' eq_refl eq_refl) as (ds & Hf & Ld & Lm & Sh).
  { intros k Hk. apply in_seq in Hk. lia. }
  rewrite seq_length in *.
  exists p', ds, (snd r). split; [cbn [pstep]; rewrite Er; cbn [obind]; destruct r; reflexivity|]. split; [reflexivity|].
  split; [apply registered_registers; assumption|]. split; [apply registered_untouched; assumption|]. split; [exact Ld|]. split; [exact Lm|].
  intros i j Hi Hj. assert (LT : i * cols + j < rows * cols) by nia. rewrite (Sh _ LT). rewrite seq_nth by exact LT. reflexivity.
Qed.

Lemma sym_index_lt n i j : i < n -> j < n -> sym_index i j < n * (n + 1) / 2.
Proof.
  intros Hi Hj. unfold sym_index. fold (tri (Nat.max i j)). fold (tri n).
  assert (M : forall a b, a <= b -> tri a <= tri b). { intros a b Hab. induction Hab; [lia|]. rewrite tri_S. lia. }
  specialize (M (S (Nat.max i j)) n). rewrite tri_S in M. lia.
Qed.

Lemma c32_symmetric l sp qs p out n : spec_run l spec_empty = Some (sp, qs) -> prun l (prog_empty R_ops) = Ok (p, out) ->
  exists p' ds ms, pstep (PSymmetric n) p = Ok (p', []) /\ p_user p' = p_user p ++ ms /\ registers p p' ds /\ untouched p p' /\
    length ds = n * (n + 1) / 2 /\ length ms = n * n /\
    forall i j, i < n -> j < n -> slot_node p' (nth (i * n + j) ms 0) = slot_node p' (nth (sym_index i j) ds 0).
Proof.
  intros H Hp. destruct (run_plink _ _ _ _ _ H Hp) as ((E & dv & L & T) & I).
  destruct (symmetric_trip E _ _ (p_dec p) n _ _ _ L) as (r & e' & s' & dv' & more & Er & L' & M).
  pose proof (symmetric_registers _ _ _ _ _ _ _ (i_reach _ I) Er) as Rg.
  set (p' := add_user (set_dec (set_mem p e' s') (fst r)) (snd r)).
  destruct (made_shows _ _ _ _ _ _ _ _ _ _ _ p' M L' eq_refl eq_refl) as (ds & Hf & Ld & Lm & Sh).
  { intros k Hk. apply in_map_iff in Hk as (q & <- & Hq). apply in_seq in Hq. apply sym_index_lt.
    - apply Nat.div_lt_upper_bound; lia. 
    - apply Nat.mod_upper_bound. lia. }
  rewrite map_length, seq_length in *.
  exists p', ds, (snd r). split; [cbn [pstep]; rewrite Er; cbn [obind]; destruct r; reflexivity|]. split; [reflexivity|].
  split; [apply registered_registers; assumption|]. split; [apply registered_untouched; assumption|]. split; [exact Ld|]. split; [exact Lm|].
  intros i j Hi Hj. assert (LT : i * n + j < n * n) by nia. rewrite (Sh _ LT).
  rewrite (nth_indep (map (fun k => sym_index (k / n) (k mod n)) (seq 0 (n * n))) 0 ((fun k => sym_index (k / n) (k mod n)) 0)) by (rewrite map_length, seq_length; exact LT).
  rewrite (map_nth (fun k => sym_index (k / n) (k mod n))). rewrite seq_nth by exact LT. cbn [Nat.add].
  destruct (row_col n i j Hj) as [-> ->]. reflexivity.
Qed.

Lemma NoDup_map_nth {A B} (f : A -> B) pre l a b x : NoDup (map f (pre ++ l)) -> a < length l -> b < length l -> f (nth a l x) = f (nth b l x) -> a = b.
Proof.
  intros ND Ha Hb E. rewrite (NoDup_nth _ (f x)) in ND.
  assert (length pre + a = length pre + b); [|lia]. apply ND; rewrite ?map_length, ?app_length; try lia.
  rewrite !map_nth, !app_nth2_plus. exact E.
Qed.

Lemma sym_index_inj i j i' j' : sym_index i j = sym_index i' j' -> (i = i' /\ j = j') \/ (i = j' /\ j = i').
Proof.
  unfold sym_index. intros E. fold (tri (Nat.max i j)) in E. fold (tri (Nat.max i' j')) in E. apply tri_inj in E as [E1 E2]; lia.
Qed.

Lemma c32_symmetric2 l sp qs p out n : spec_run l spec_empty = Some (sp, qs) -> prun l (prog_empty R_ops) = Ok (p, out) ->
  exists p' ds ms, pstep (PSymmetric n) p = Ok (p', []) /\ p_user p' = p_user p ++ ms /\ registers p p' ds /\ untouched p p' /\
    length ds = n * (n + 1) / 2 /\ length ms = n * n /\
    (forall i j, i < n -> j < n -> slot_node p' (nth (i * n + j) ms 0) = slot_node p' (nth (sym_index i j) ds 0)) /\
    forall i j i' j', i < n -> j < n -> i' < n -> j' < n ->
      (slot_node p' (nth (i * n + j) ms 0) = slot_node p' (nth (i' * n + j') ms 0) <-> (i = i' /\ j = j') \/ (i = j' /\ j = i')).
Proof.
  intros H Hp. destruct (c32_symmetric l sp qs p out n H Hp) as (p' & ds & ms & H1 & H2 & H3 & H4 & H5 & H6 & H7).
  exists p', ds, ms. repeat (split; [assumption|]). intros i j i' j' Hi Hj Hi' Hj'. rewrite !H7 by assumption. split.
  - intros E. destruct H3 as (Hd & ND & _). rewrite Hd in ND. apply sym_index_inj.
    refine (NoDup_map_nth _ _ _ _ _ _ ND _ _ E); rewrite H5; apply sym_index_lt; assumption.
  - intros [[-> ->]|[-> ->]]; [reflexivity|]. unfold sym_index. rewrite (Nat.max_comm i' j'), (Nat.min_comm i' j'). reflexivity.
Qed.
