(** Proofs for C83: GLOBALLY_INFEASIBLE, and setting up a problem with linear inequalities. *)
From Coq Require Import ZArith Reals List Bool Arith Lia Lra.
From Verif Require Import Base ExprModel GraphSpec GraphProofs VarModel VarReach VarProofs ExprReal ExprXR MathSpec MathProofs VarSpec Faith FaithX HistProofs
  JacModel JacProofs JacReach JacHist JacSame NumModel UtilModel UtilSpec ScaleProofs LinR KktModel KktSpec KktProofs BoundsModel BoundsSpec BoundsProofs ExitModel SolverModel
  XArith FinEval ProblemModel ProblemSpec ProblemInv ProblemProofs ProblemProofs2 ProblemProofs3 ProblemProofs4 ProbSolveModel ProbSolveInv ProbSolveEval ProbSolveSpec ProbSolveProofs ProbSolvePrep
  ProbSolveHist ProbSolveEnd ProbSolveLived ProbSolveFinal ProbSolveFacts DiffSpec SmoothSpec SmoothGraph SmoothUser LagrSpec ProbSolveMade ProbSolveDeriv ProbSolveDims ProbSolveKkt ExprInv LinearX ProbSolveBounds.
Import ListNotations.
Local Open Scope nat_scope.

(** *** Bound detection at a real starting point *)
Definition single (n : nat) (c : constr) : Prop := k_linear c = true -> forall j v, k_row c = [(j, v)] ->
  j < n /\ exists a b, v = Fin a /\ forall y : list R, length y = n -> k_value c (map Fin y) = Fin (a * nth j y 0 + b)%R.
(** The same constraint, affine also where other coordinates are no numbers. *)
Definition copy (n : nat) (c c' : constr) : Prop := k_linear c' = k_linear c /\ k_row c' = k_row c /\
  (forall y : list R, length y = n -> k_value c' (map Fin y) = k_value c (map Fin y)) /\
  (k_linear c = true -> forall j v, k_row c = [(j, v)] -> j < n /\ exists a b, v = Fin a /\ forall x r, length x = n -> nth_error x j = Some (Fin r) -> k_value c' x = Fin (a * r + b)%R).

Lemma copy_self n c : (k_linear c = true -> forall j v, k_row c <> [(j, v)]) -> copy n c c.
Proof. intros H. repeat split; auto; exfalso; eapply H; eauto. Qed.
Lemma copy_ex n c : single n c -> exists c', copy n c c'.
Proof.
  intros H. destruct (k_linear c) eqn:L; [|exists c; apply copy_self; congruence].
  destruct (k_row c) as [|[j v] [|? ?]] eqn:Rw; [exists c; apply copy_self; rewrite Rw; discriminate| |exists c; apply copy_self; rewrite Rw; intros ? ? ? X; discriminate X].
  destruct (H L j v Rw) as (Hj & a & b & -> & V).
  exists (mkC (k_linear c) (k_row c) (fun x => match nth_error x j with Some (Fin r) => Fin (a * r + b)%R | _ => NaN end)).
  repeat split; cbn [k_value].
  - intros y Ly. rewrite (V y Ly). rewrite (map_nth_error Fin j y (d := nth j y 0%R)); [reflexivity|]. apply nth_error_nth'. lia.
  - injection (eq_trans (eq_sym Rw) H1) as <- <-. exact Hj.
  - injection (eq_trans (eq_sym Rw) H1) as <- <-. exists a, b. split; [reflexivity|]. intros x r Lx E. rewrite E. reflexivity.
Qed.
Lemma copies_ex n cs : List.Forall (single n) cs -> exists cs', Forall2 (copy n) cs cs'.
Proof. induction 1 as [|c cs H _ (cs' & IH)]; [exists []; constructor|]. destruct (copy_ex n c H) as (c' & C). exists (c' :: cs'). constructor; assumption. Qed.

Lemma step_copy (y : list R) c c' : copy (length y) c c' -> forall k s, bounds_step (map Fin y) k c' s = bounds_step (map Fin y) k c s.
Proof.
  intros (L & Rw & V & _) k s. unfold bounds_step. rewrite L, Rw. destruct (negb (k_linear c)); [reflexivity|]. destruct (k_row c) as [|[j v] [|? ?]]; try reflexivity.
  replace (constant_of c' (map Fin y) j) with (constant_of c (map Fin y) j); [reflexivity|]. unfold constant_of. destruct (nth_error (map Fin y) j) as [w|]; [|reflexivity].
  rewrite V by reflexivity. rewrite <- (map_lupd Fin y j 0%R). rewrite V by apply upd_length. reflexivity.
Qed.
Lemma loop_copy (y : list R) cs cs' : Forall2 (copy (length y)) cs cs' -> forall k s, bounds_loop (map Fin y) k cs' s = bounds_loop (map Fin y) k cs s.
Proof.
  induction 1 as [|c c' cs cs' C F IH]; intros k s; [reflexivity|]. cbn [bounds_loop]. rewrite (step_copy y c c' C). destruct (bounds_step (map Fin y) k c s) as [s'| | |]; cbn [obind]; auto.
Qed.
Lemma bounds_copy (y : list R) cs cs' : Forall2 (copy (length y)) cs cs' -> get_bounds (map Fin y) cs' = get_bounds (map Fin y) cs.
Proof. intros F. unfold get_bounds. apply loop_copy, F. Qed.

(** Coefficients that passed the assertions are proper. *)
Lemma step_proper (y : list R) c c' k s s' : copy (length y) c c' -> bounds_step (map Fin y) k c s = Ok s' -> proper (length (map Fin y)) c'.
Proof.
  intros (L & Rw & V & A) H Hl. rewrite map_length. rewrite L in Hl. unfold bounds_step in H. rewrite Hl in H. cbn [negb] in H. rewrite Rw.
  destruct (k_row c) as [|[j v] [|? ?]] eqn:Er; [discriminate| |right; cbn; lia]. left.
  destruct (A Hl j v eq_refl) as (Hj & a & b & -> & Va). exists j, a, b. split; [exact Hj|]. split; [congruence|]. split; [|exact Va].
  intros ->. destruct (constant_of c (map Fin y) j); cbn [obind] in H; try discriminate. assert (Z : X_eqb (Fin 0%R) (Fin 0%R) = true). { cbn. unfold R_eqb. destruct (Req_EM_T 0%R 0%R); [reflexivity|lra]. }
  rewrite Z in H. discriminate H.
Qed.
Lemma loop_proper (y : list R) cs cs' : Forall2 (copy (length y)) cs cs' -> forall k s s', bounds_loop (map Fin y) k cs s = Ok s' -> List.Forall (proper (length (map Fin y))) cs'.
Proof.
  induction 1 as [|c c' cs cs' C F IH]; intros k s s' H; [constructor|]. cbn [bounds_loop] in H.
  destruct (bounds_step (map Fin y) k c s) as [s1| | |] eqn:E; cbn [obind] in H; try discriminate. constructor; [eapply step_proper; eauto|eapply IH; eauto].
Qed.

Lemma satisfied_copy n cs cs' y : Forall2 (copy n) cs cs' -> length y = n -> (forall c, In c cs -> satisfied c y) -> forall c', In c' cs' -> satisfied c' y.
Proof.
  intros F Ly H c' Hc. induction F as [|c d cs ds C F IH]; [contradiction|]. destruct Hc as [->|Hc].
  - destruct (H c (or_introl eq_refl)) as (r & E & P). exists r. split; [|exact P]. destruct C as (_ & _ & V & _). rewrite (V y Ly). exact E.
  - apply IH; auto. intros e He. apply H. right. exact He.
Qed.
Lemma conflict_none (x0 : list R) cs b : List.Forall (single (length x0)) cs -> get_bounds (map Fin x0) cs = Ok b -> b_conflicts b <> [] ->
  forall y, length y = length x0 -> ~ (forall c, In c cs -> satisfied c y).
Proof.
  intros F H N y Ly Hy. destruct (copies_ex _ _ F) as (cs' & C). pose proof (loop_proper x0 cs cs' C _ _ _ H) as P. rewrite <- (bounds_copy x0 cs cs' C) in H.
  apply (c37_inf (map Fin x0) cs' b P H N y); [rewrite map_length; exact Ly|]. eapply satisfied_copy; eauto.
Qed.
(** A linear constraint depends on something the Jacobian stores. *)
Lemma bounds_total (x0 : list R) cs : List.Forall (single (length x0)) cs ->
  (forall c, In c cs -> k_linear c = true -> k_row c <> [] /\ forall j v, k_row c = [(j, v)] -> v <> Fin 0%R) -> exists b, get_bounds (map Fin x0) cs = Ok b.
Proof.
  intros F H. destruct (copies_ex _ _ F) as (cs' & C).
  assert (P : List.Forall (proper (length (map Fin x0))) cs').
  { rewrite map_length. clear F. induction C as [|c c' cs cs' Cc C IH]; constructor; [|apply IH; intros; apply H; [right|]; assumption].
    destruct Cc as (L & Rw & V & A). intros Hl. rewrite L in Hl. destruct (H c (or_introl eq_refl) Hl) as (N & Z). rewrite Rw.
    destruct (k_row c) as [|[j v] [|? ?]] eqn:Er; [congruence| |right; cbn; lia]. left. destruct (A Hl j v eq_refl) as (Hj & a & b & -> & Va). exists j, a, b.
    split; [exact Hj|]. split; [congruence|]. split; [|exact Va]. intros ->. exact (Z j _ eq_refl eq_refl). }
  destruct (c37 (map Fin x0) cs' P) as (b & E & _). exists b. rewrite (bounds_copy x0 cs cs' C) in E. exact E.
Qed.

(** *** The user's inequalities *)
Section Reads.
Variables (sp : spec) (p : prog X_ops) (nodes : list nat).
Let n := length (p_dec p).
Hypothesis Ln : length nodes = n.

Lemma reads_single c r : reads sp p nodes c r -> single n c.
Proof.
  intros (_ & H) Hl j v Er. destruct (H Hl) as (cf & b & V & St & Un & _). rewrite Er in St, Un. destruct (St j v (or_introl eq_refl)) as [Hj ->].
  split; [exact Hj|]. exists (cf j), b. split; [reflexivity|]. intros y Ly. rewrite (V y Ly). f_equal. unfold lin. rewrite Ln. f_equal.
  rewrite (sumn_ext n _ (fun i => (cf j * nth j y 0) * (if Nat.eqb i j then 1 else 0))%R).
  - rewrite sumn_scal. assert (U : sumn n (fun i => if Nat.eqb i j then 1 else 0)%R = 1%R); [|rewrite U; ring].
    assert (Hj' : j < n) by exact Hj. clear - Hj'. revert Hj'. generalize n. intros k. induction k as [|k IH]; [intros; lia|]. intros Hj. cbn [sumn]. destruct (Nat.eqb_spec k j) as [->|Ne]; [|rewrite IH by lia; ring].
    rewrite sumn_0; [ring|]. intros i Hi. destruct (Nat.eqb_spec i j); [lia|reflexivity].
  - intros i Hi. destruct (Nat.eqb_spec i j) as [->|Ne]; [ring|]. rewrite (Un i Hi); [ring|]. intros w [X|[]]. injection X as X _. congruence.
Qed.
Lemma reads_moving c r k d : reads sp p nodes c r -> n = length (sp_dec sp) -> In k (sp_dec sp) -> pd k (gap_fn r) (se_val (sp_se sp)) d -> d <> 0%R -> k_linear c = true ->
  k_row c <> [] /\ forall j v, k_row c = [(j, v)] -> v <> Fin 0%R.
Proof.
  intros (_ & H) En Ik Pd Nd Hl. destruct (H Hl) as (cf & b & V & St & Un & Dv). destruct (In_nth_error _ _ Ik) as (j0 & Ej).
  assert (Hj0 : j0 < n) by (rewrite En; apply nth_error_Some; congruence). pose proof (Dv j0 k d Ej Pd) as ->. split.
  - intros E0. apply Nd, Un; [exact Hj0|]. rewrite E0. intros v [].
  - intros j v Er ->. rewrite Er in St, Un. destruct (St j _ (or_introl eq_refl)) as [Hj Q]. injection Q as Q. destruct (Nat.eq_dec j0 j) as [->|Ne]; [congruence|].
    apply Nd, Un; [exact Hj0|]. intros w [X|[]]. injection X as X _. congruence.
Qed.
End Reads.

Lemma holds_satisfied sp p nodes c r y : reads sp p nodes c r -> is_eq (r_cmp r) = false -> length y = length (p_dec p) -> rel_defined (point sp y) r -> rel_holds (point sp y) r -> satisfied c y.
Proof.
  intros (V & _) Hc Ly Hd Hh. pose proof Hh as (a & b & A & B & _).
  set (g := (match r_cmp r with CEq | CGt | CGe => a - b | CLt | CLe => b - a end)%R). assert (G : gap (point sp y) r g) by (exists a, b; split; [exact A|]; split; [exact B|reflexivity]).
  exists g. split; [apply V; assumption|]. apply (gap_holds _ _ _ G) in Hh. destruct (r_cmp r); try exact Hh. discriminate Hc.
Qed.

(** What bound detection was given. *)
Definition with_bounds (rn : ran) : Prop := match rn with RanIpm _ | RanBounds => True | _ => False end.
Lemma bounds_inv sp p rn x p1 : lived sp p -> with_bounds rn -> prepare p = Ok (rn, x, p1) ->
  pinv p1 /\ plink sp p1 /\ exists nodes t q Am cs b, Forall2 (decides (p_env p1) (p_st p1)) (p_dec p1) nodes /\ ready (S := Xn) KIpm p1 nodes t q /\
    jget_mat (S := Xn) (t_Ai t) q = Ok Am /\ constrs_of p1 q Am 0 (p_ineq p1) = Ok cs /\ get_bounds (map Fin (map (se_val (sp_se sp)) (sp_dec sp))) cs = Ok b /\
    (b_conflicts b <> [] <-> rn = RanBounds) /\ (forall i ty, slot_type p i = Ok ty -> slot_type p1 i = Ok ty).
Proof.
  intros Lv Wb H. destruct (lived_ok _ _ Lv) as [Ip Lp]. pose proof H as H0. destruct (prepare_inv sp p _ x p1 Ip Lp H0) as (I1 & L1 & _ & _).
  split; [exact I1|]. split; [exact L1|].
  destruct (read_dec (S := X_ops) (FS := faith_X) sp p Ip Lp) as (e & s & Hr & I1' & L1').
  destruct (i_dec _ Ip) as (nodes' & D' & _). destruct (read_mem _ nodes' (p_env p) (p_st p) _ e s (i_reach _ Ip) D' Hr) as [Kp Np].
  unfold prepare in H. rewrite Hr in H. cbn [obind] in H. set (x' := map inj (map (se_val (sp_se sp)) (sp_dec sp))) in *. set (p' := set_mem p e s) in *.
  destruct (match p_f p' with Some i => slot_type p' i | None => Ok NONE end) as [tf| | |]; cbn [obind] in H; try discriminate.
  destruct (max_type p' (p_eq p')) as [te| | |]; cbn [obind] in H; try discriminate. destruct (max_type p' (p_ineq p')) as [ti| | |]; cbn [obind] in H; try discriminate.
  destruct (_ && _ && _); [injection H as <- _ _; contradiction|].
  destruct (ipm_ready (S := Xn) p' I1') as (nodes & t & q & Hs & D & Rd). assert (Hs' : ipm_setup (S := Xn) p' (e, [], s) = Ok (t, q)) by exact Hs.
  assert (H' : (let* (t, q) := ipm_setup (S := Xn) p' (e, [], s) in
      let* Ai := jget_mat (S := Xn) (t_Ai t) q in
      let* cs := constrs_of p' q Ai 0 (p_ineq p') in
      let* b := get_bounds x' cs in
      match b_conflicts b with
      | _ :: _ => Ok (RanBounds, x', p')
      | [] => let* P := ipm_problem (S := Xn) (length (p_dec p')) t q x' in Ok (RanIpm P, x', p')
      end) = Ok (rn, x, p1)).
  { destruct (p_eq p') as [|d0 ds0]; (destruct (p_ineq p') as [|i0 is0]; [|exact H]).
    - destruct (newton_setup (S := Xn) p' (e, [], s)) as [[? ?]| | |]; cbn [obind] in H; try discriminate. destruct (newton_problem _ _ _ _); cbn [obind] in H; try discriminate. injection H as <- _ _. contradiction.
    - destruct (sqp_setup (S := Xn) p' (e, [], s)) as [[? ?]| | |]; cbn [obind] in H; try discriminate. destruct (sqp_problem _ _ _ _); cbn [obind] in H; try discriminate. injection H as <- _ _. contradiction. }
  clear H. rewrite Hs' in H'. cbn [obind] in H'.
  destruct (jget_mat (S := Xn) (t_Ai t) q) as [Ai0| | |] eqn:HAi0; cbn [obind] in H'; try discriminate.
  destruct (constrs_of p' q Ai0 0 (p_ineq p')) as [cs| | |] eqn:Hcs; cbn [obind] in H'; try discriminate.
  destruct (get_bounds x' cs) as [b| | |] eqn:Hb; cbn [obind] in H'; try discriminate.
  assert (G : (b_conflicts b <> [] <-> rn = RanBounds) /\ p' = p1).
  { destruct (b_conflicts b) as [|cf cfs] eqn:Hcf.
    - destruct (ipm_problem _ _ _ _); cbn [obind] in H'; try discriminate. injection H' as <- _ <-. split; [|reflexivity]. split; [congruence|discriminate].
    - injection H' as <- _ <-. split; [|reflexivity]. split; [reflexivity|discriminate]. }
  destruct G as [G <-]. exists nodes, t, q, Ai0, cs, b. split; [exact D|]. split; [exact Rd|]. split; [exact HAi0|]. split; [exact Hcs|]. split; [exact Hb|]. split; [exact G|].
  intros i ty. apply slot_type_kept; assumption.
Qed.

Lemma infeasible sp p x p1 : lived sp p -> all_smooth (se_val (sp_se sp)) (sp_ineqs sp) -> prepare p = Ok (RanBounds, x, p1) ->
  forall y, length y = length (sp_dec sp) -> ~ (all_defined (point sp y) (sp_ineqs sp) /\ List.Forall (rel_holds (point sp y)) (sp_ineqs sp)).
Proof.
  intros Lv Hs H y Ly (Df & Hh). destruct (bounds_inv sp p RanBounds x p1 Lv I H) as (I1 & L1 & nodes & t & q & Am & cs & b & D & Rd & HA & Hcs & Hb & Nb & _). pose proof (proj2 Nb eq_refl) as Nb'. clear Nb. rename Nb' into Nb.
  assert (Le : length (p_ineq p1) = length (sp_ineqs sp)) by exact (proj2 (k_eqs sp p1 L1)). pose proof (dec_len (S := Xn) sp p1 L1) as Ld.
  assert (F : Forall2 (reads sp p1 nodes) cs (sp_ineqs sp)) by exact (constrs_reads sp p1 nodes t q I1 L1 Rd D Am HA Hs (p_ineq p1) (sp_ineqs sp) 0 cs (fun j i H => H) (fun j r H => H) Le Hcs). assert (Ln : length nodes = length (p_dec p1)) by (symmetry; exact (f2len _ _ _ D)).
  assert (Lx : length (map (se_val (sp_se sp)) (sp_dec sp)) = length (p_dec p1)) by (rewrite map_length; symmetry; exact Ld).
  assert (Fs : List.Forall (single (length (map (se_val (sp_se sp)) (sp_dec sp)))) cs).
  { rewrite Lx. clear - F Ln. induction F as [|c r cs rs Hr F IH]; constructor; [eapply reads_single; eauto|exact IH]. }
  apply (conflict_none _ cs b Fs Hb Nb y); [rewrite map_length; exact Ly|].
  assert (Hc : forall r, In r (sp_ineqs sp) -> is_eq (r_cmp r) = false). { intros r Hr. destruct L1 as (E & dv & _ & T). destruct (In_nth_error _ _ Hr) as (k & Ek). destruct (Forall2_nth_r _ _ _ _ _ (t_ineqs _ _ _ T) Ek) as (? & _ & Q & _). exact Q. }
  unfold all_defined in Df. clear - F Df Hh Hc Ly Ld. induction F as [|c r cs rs Hr F IH]; intros c' Hin; [contradiction|]. inversion Df; subst. inversion Hh; subst. destruct Hin as [<-|Hin].
  - eapply holds_satisfied; eauto; [apply Hc; left; reflexivity|exact (eq_trans Ly (eq_sym Ld))].
  - apply IH; auto. intros r' Hr'. apply Hc. right. exact Hr'.
Qed.

(** Setting up succeeds if every linear inequality really depends on a decision variable. *)
Lemma constrs_total p q Am l : pinv p -> (forall i, In i l -> i < length (p_env p)) -> forall k, exists cs, constrs_of p q Am k l = Ok cs.
Proof.
  intros Ip. induction l as [|i l IH]; intros H k; [exists []; reflexivity|]. cbn [constrs_of]. unfold constr_of at 1. destruct (slot_type_ok p i Ip) as (ty & ->); [apply H; left; reflexivity|]. cbn [obind].
  destruct (IH (fun j Hj => H j (or_intror Hj)) (Datatypes.S k)) as (cs & ->). cbn [obind]. eexists. reflexivity.
Qed.
Lemma constrs_nth p q Am : forall l k cs j c, constrs_of p q Am k l = Ok cs -> nth_error cs j = Some c -> exists i, nth_error l j = Some i /\ constr_of p q Am (k + j) i = Ok c.
Proof.
  induction l as [|i l IH]; intros k cs j c H Hj; cbn [constrs_of] in H; [injection H as <-; destruct j; discriminate|].
  destruct (constr_of p q Am k i) as [c1| | |] eqn:Ec; cbn [obind] in H; try discriminate. destruct (constrs_of p q Am (Datatypes.S k) l) as [cs1| | |] eqn:Es; cbn [obind] in H; try discriminate. injection H as <-.
  destruct j as [|j]; cbn [nth_error] in *; [injection Hj as <-; exists i; split; [reflexivity|]; rewrite Nat.add_0_r; exact Ec|].
  destruct (IH _ _ _ _ Es Hj) as (i' & A & B). exists i'. split; [exact A|]. rewrite <- B. f_equal. lia.
Qed.

Lemma prepare_linear sp p : lived sp p -> all_smooth (se_val (sp_se sp)) (sp_ineqs sp) ->
  (forall k i r, nth_error (p_ineq p) k = Some i -> nth_error (sp_ineqs sp) k = Some r -> slot_type p i = Ok LINEAR -> depends sp r) ->
  exists rn x0 p1, prepare p = Ok (rn, x0, p1).
Proof.
  intros Lv Hs Hd. destruct (lived_ok _ _ Lv) as [Ip Lp].
  destruct (sp_ineqs sp) as [|r0 rs0] eqn:Es; [exact (prepare_total sp p Lv Es)|]. rewrite <- Es in *.
  destruct (read_dec (S := X_ops) (FS := faith_X) sp p Ip Lp) as (e & s & Hr & I1 & L1).
  unfold prepare. rewrite Hr. cbn [obind]. set (x := map inj (map (se_val (sp_se sp)) (sp_dec sp))) in *. set (p' := set_mem p e s) in *.
  assert (Htf : exists tf, cost_type p' = Ok tf).
  { unfold cost_type. destruct (p_f p') as [i|] eqn:Ef; [|eexists; reflexivity]. apply slot_type_ok; [exact I1|]. apply (i_f _ I1), Ef. }
  destruct Htf as (tf & Etf). destruct (max_type_ok p' (p_eq p') I1 (i_eq _ I1)) as (te & Ete). destruct (max_type_ok p' (p_ineq p') I1 (i_ineq _ I1)) as (ti & Eti).
  change (match p_f p' with Some i => slot_type p' i | None => Ok NONE end) with (cost_type p').
  rewrite Etf, Ete, Eti. cbn [obind]. destruct (_ && _ && _); [eexists _, _, _; reflexivity|].
  assert (Lx : length x = length (p_dec p')) by (unfold x; rewrite !map_length; symmetry; exact (dec_len (S := Xn) sp p' L1)).
  destruct (no_rels sp p' L1) as [_ K]. assert (Ni : p_ineq p' <> []) by (rewrite K, Es; discriminate). change (p_dec p) with (p_dec p').
  destruct (ipm_ready (S := Xn) p' I1) as (nodes & t & q & Hsu & D & Rd).
  assert (Hs' : ipm_setup (S := Xn) p' (e, [], s) = Ok (t, q)) by exact Hsu.
  assert (HAi : t_Ai t < length (qobjs q)) by (eapply made_lt; [|apply (rd_Ai _ _ _ _ _ Rd)]; [exact I|reflexivity]).
  assert (HAe : t_Ae t < length (qobjs q)) by (eapply made_lt; [|apply (rd_Ae _ _ _ _ _ Rd)]; [exact I|discriminate]).
  destruct (jget_mat_ok (S := Xn) (t_Ai t) q (rd_reach _ _ _ _ _ Rd) HAi) as (Am & HAm). change (jget_mat (S := Xn) (t_Ai t) q = Ok Am) in HAm.
  destruct (i_dec _ Ip) as (nodes' & D' & _). destruct (read_mem _ nodes' (p_env p) (p_st p) _ e s (i_reach _ Ip) D' Hr) as [Kp Np].
  destruct (constrs_total p' q Am (p_ineq p') I1 (i_ineq _ I1) 0) as (cs & Ecs).
  assert (Le : length (p_ineq p') = length (sp_ineqs sp)) by exact (proj2 (k_eqs sp p' L1)). pose proof (dec_len (S := Xn) sp p' L1) as Ld.
  assert (F : Forall2 (reads sp p' nodes) cs (sp_ineqs sp)) by exact (constrs_reads sp p' nodes t q I1 L1 Rd D Am HAm Hs (p_ineq p') (sp_ineqs sp) 0 cs (fun j i H => H) (fun j r H => H) Le Ecs). assert (Ln : length nodes = length (p_dec p')) by (symmetry; exact (f2len _ _ _ D)).
  assert (Lx' : length (map (se_val (sp_se sp)) (sp_dec sp)) = length (p_dec p')) by (rewrite map_length; symmetry; exact Ld).
  assert (Fs : List.Forall (single (length (map (se_val (sp_se sp)) (sp_dec sp)))) cs).
  { rewrite Lx'. clear - F Ln. induction F as [|c r cs rs Hr F IH]; constructor; [eapply reads_single; eauto|exact IH]. }
  destruct (bounds_total (map (se_val (sp_se sp)) (sp_dec sp)) cs Fs) as (b & Eb).
  { intros c Hc Hl. destruct (In_nth_error _ _ Hc) as (j & Ej). destruct (constrs_nth p' q Am _ _ _ _ _ Ecs Ej) as (i & Ei & Ec). cbn [Nat.add] in Ec.
    assert (Hj : j < length (sp_ineqs sp)). { rewrite <- Le. apply nth_error_Some. congruence. } destruct (nth_some _ _ Hj) as (r & Er).
    assert (Rr : reads sp p' nodes c r). { destruct (Forall2_nth_r _ _ _ _ _ F Er) as (c2 & E2 & Q). rewrite Ej in E2. injection E2 as <-. exact Q. }
    destruct (Hd j i r Ei Er) as (k & d & Ik & Pd & Nd).
    - unfold constr_of in Ec. destruct (slot_type p' i) as [ty| | |] eqn:Ty; cbn [obind] in Ec; try discriminate. injection Ec as <-. cbn [k_linear] in Hl.
      assert (ty = LINEAR) as -> by (destruct ty; try discriminate Hl; reflexivity).
      destruct (slot_type_ok p i Ip) as (ty & E0); [apply (i_ineq _ Ip); eapply nth_error_In; exact Ei|]. pose proof (slot_type_kept p e s i ty Kp Np E0) as E1. change (slot_type p' i = Ok ty) in E1. rewrite Ty in E1. injection E1 as <-. exact E0.
    - eapply reads_moving; eauto. }
  assert (Eb' : get_bounds x cs = Ok b) by exact Eb.
  destruct (g_at_ok (S := Xn) KIpm p' nodes t q Rd D x Lx) as (g & Hg). change (g_at (S := Xn) (length (p_dec p')) t q x = Ok g) in Hg.
  destruct (A_at_ok (S := Xn) KIpm p' nodes t q Rd D (t_Ae t) (length (t_ce t)) x Lx HAe) as (Ae & HA). change (A_at (S := Xn) (length (p_dec p')) t q (t_Ae t) (length (t_ce t)) x = Ok Ae) in HA.
  destruct (A_at_ok (S := Xn) KIpm p' nodes t q Rd D (t_Ai t) (length (t_ci t)) x Lx HAi) as (Ai & HB). change (A_at (S := Xn) (length (p_dec p')) t q (t_Ai t) (length (t_ci t)) x = Ok Ai) in HB.
  assert (G : exists rn, (let* (t, q) := ipm_setup (S := Xn) p' (e, [], s) in let* Ai := jget_mat (S := Xn) (t_Ai t) q in let* cs := constrs_of p' q Ai 0 (p_ineq p') in let* b := get_bounds x cs in
     match b_conflicts b with _ :: _ => Ok (RanBounds, x, p') | [] => let* P := ipm_problem (S := Xn) (length (p_dec p')) t q x in Ok (RanIpm P, x, p') end) = Ok (rn, x, p')).
  { rewrite Hs'. cbn [obind]. rewrite HAm. cbn [obind]. rewrite Ecs. cbn [obind]. rewrite Eb'. cbn [obind]. destruct (b_conflicts b); [|eexists; reflexivity].
    unfold ipm_problem. rewrite Hg. cbn [obind]. rewrite HA. cbn [obind]. rewrite HB. eexists. reflexivity. }
  destruct G as (rn & G). exists rn, x, p'.
  destruct (p_eq p') as [|d0 ds0]; (destruct (p_ineq p') as [|i0 is0] eqn:Ei; [contradiction|]); exact G.
Qed.

Lemma row_one (m : list (@triplet X_ops)) i : stored_row m i 1 <> [] -> exists v, stored_row m i 1 = [(0, v)].
Proof. rewrite stored_row_eq. cbn [seq flat_map]. destruct (stored (S := Xn) m i 0); cbn [app]; [eexists; reflexivity|intros H; contradiction (H eq_refl)]. Qed.
(** Two inequalities in one variable that exclude each other are found. *)
Lemma one_variable sp p k0 rn x p1 : lived sp p -> all_smooth (se_val (sp_se sp)) (sp_ineqs sp) -> sp_dec sp = [k0] -> with_bounds rn -> prepare p = Ok (rn, x, p1) ->
  forall a b i j r r', nth_error (p_ineq p) a = Some i -> nth_error (p_ineq p) b = Some j -> nth_error (sp_ineqs sp) a = Some r -> nth_error (sp_ineqs sp) b = Some r' ->
  slot_type p i = Ok LINEAR -> slot_type p j = Ok LINEAR -> depends sp r -> depends sp r' ->
  (forall y, length y = 1 -> rel_defined (point sp y) r /\ rel_defined (point sp y) r' /\ ~ (rel_holds (point sp y) r /\ rel_holds (point sp y) r')) -> rn = RanBounds.
Proof.
  intros Lv Hs Ed Wb Hp a b i j r r' Ha Hb Hr Hr' Ti Tj Dr Dr' Ex.
  destruct (prepare_inv sp p _ x p1 (proj1 (lived_ok _ _ Lv)) (proj2 (lived_ok _ _ Lv)) Hp) as (_ & _ & _ & (e & s & Ep) & _).
  destruct (bounds_inv sp p rn x p1 Lv Wb Hp) as (I1 & L1 & nodes & t & q & Am & cs & bs & D & Rd & HA & Hcs & Hbs & Nb & Ts).
  apply Nb. assert (Le : length (p_ineq p1) = length (sp_ineqs sp)) by exact (proj2 (k_eqs sp p1 L1)). pose proof (dec_len (S := Xn) sp p1 L1) as Ld.
  assert (F : Forall2 (reads sp p1 nodes) cs (sp_ineqs sp)) by exact (constrs_reads sp p1 nodes t q I1 L1 Rd D Am HA Hs (p_ineq p1) (sp_ineqs sp) 0 cs (fun j i H => H) (fun j r H => H) Le Hcs).
  assert (Ln : length nodes = length (p_dec p1)) by (symmetry; exact (f2len _ _ _ D)).
  assert (Lx : length (map (se_val (sp_se sp)) (sp_dec sp)) = length (p_dec p1)) by (rewrite map_length; symmetry; exact Ld).
  assert (Fs : List.Forall (single (length (map (se_val (sp_se sp)) (sp_dec sp)))) cs).
  { rewrite Lx. clear - F Ln. induction F as [|c w cs rs Hw F IH]; constructor; [eapply reads_single; eauto|exact IH]. }
  assert (L1n : length (p_dec p1) = 1). { refine (eq_trans Ld _). rewrite Ed. reflexivity. }
  assert (Pe : p_ineq p1 = p_ineq p) by (rewrite Ep; reflexivity).
  destruct (copies_ex _ _ Fs) as (cs' & C). pose proof (loop_proper _ cs cs' C _ _ _ Hbs) as P. rewrite <- (bounds_copy _ cs cs' C) in Hbs.
  destruct (c37 _ cs' P) as (bs' & E' & _ & _ & _ & _ & Cf & _). rewrite Hbs in E'. injection E' as <-. apply Cf.
  assert (Get : forall k i0 r0, nth_error (p_ineq p) k = Some i0 -> nth_error (sp_ineqs sp) k = Some r0 -> slot_type p i0 = Ok LINEAR -> depends sp r0 ->
    exists c c', In c' cs' /\ copy 1 c c' /\ reads sp p1 nodes c r0 /\ bound_on c' 0).
  { intros k i0 r0 Hk Hk' Tk (kk & d & Ik & Pd & Nd). destruct (Forall2_nth_r _ _ _ _ _ F Hk') as (c & Ec & Rc).
    destruct (constrs_nth p1 q Am _ _ _ _ _ Hcs Ec) as (i1 & Ei1 & Ec1). rewrite Pe, Hk in Ei1. injection Ei1 as <-.
    assert (Lc : k_linear c = true). { unfold constr_of in Ec1. rewrite (Ts _ _ Tk) in Ec1. cbn [obind] in Ec1. injection Ec1 as <-. reflexivity. }
    destruct (nth_some cs' k) as (c' & Ec'); [rewrite <- (f2len _ _ _ C); apply nth_error_Some; congruence|].
    destruct (Forall2_nth_r _ _ _ _ _ C Ec') as (c2 & Ec2 & Cc). rewrite Ec in Ec2. injection Ec2 as <-.
    exists c, c'. split; [eapply nth_error_In; eauto|]. split; [rewrite Lx, L1n in Cc; exact Cc|]. split; [exact Rc|].
    destruct Cc as (Q1 & Q2 & _ & _). split; [congruence|]. rewrite Q2.
    destruct (reads_moving sp p1 nodes c r0 kk d Rc Ld Ik Pd Nd Lc) as (Nr & _).
    unfold constr_of in Ec1. rewrite (Ts _ _ Tk) in Ec1. cbn [obind] in Ec1. injection Ec1 as <-. cbn [k_row] in *. rewrite L1n in *. apply row_one. exact Nr. }
  destruct (Get a i r Ha Hr Ti Dr) as (c1 & c1' & In1 & Cp1 & R1 & B1). destruct (Get b j r' Hb Hr' Tj Dr') as (c2 & c2' & In2 & Cp2 & R2 & B2).
  exists c1', c2', 0. split; [exact In1|]. split; [exact In2|]. split; [exact B1|]. split; [exact B2|]. intros y Ly (S1 & S2). rewrite map_length, Lx, L1n in Ly.
  destruct (Ex y Ly) as (D1 & D2 & No). apply No. assert (Ly' : length y = length (p_dec p1)) by congruence.
  assert (Hc : forall r, In r (sp_ineqs sp) -> is_eq (r_cmp r) = false). { intros r1 Hr1. destruct L1 as (E & dv & _ & T). destruct (In_nth_error _ _ Hr1) as (k & Ek). destruct (Forall2_nth_r _ _ _ _ _ (t_ineqs _ _ _ T) Ek) as (? & _ & Q & _). exact Q. }
  assert (Back : forall c c' r0, copy 1 c c' -> reads sp p1 nodes c r0 -> rel_defined (point sp y) r0 -> is_eq (r_cmp r0) = false -> satisfied c' y -> rel_holds (point sp y) r0).
  { intros c c' r0 (_ & _ & V & _) (Vr & _) Dy Hq (g0 & E0 & P0). pose proof Dy as [(NP1 & (v1 & X1)) (NP2 & (v2 & X2))].
    set (g := (match r_cmp r0 with CEq | CGt | CGe => v1 - v2 | CLt | CLe => v2 - v1 end)%R). assert (G : gap (point sp y) r0 g) by (exists v1, v2; split; [exact X1|]; split; [exact X2|reflexivity]).
    rewrite (V y Ly), (Vr y g Ly' Dy G) in E0. injection E0 as <-. apply (gap_holds _ _ _ G). destruct (r_cmp r0); try exact P0. discriminate Hq. }
  split; [eapply (Back c1 c1')|eapply (Back c2 c2')]; eauto; apply Hc; eapply nth_error_In; eauto.
Qed.
