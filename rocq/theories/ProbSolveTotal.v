(** Proofs for C82: solve() returns. *)
From Coq Require Import ZArith Reals List Bool Arith Lia Lra.
From Verif Require Import Base ExprModel GraphSpec GraphProofs ExprInv VarModel VarReach VarProofs ExprReal ExprXR MathSpec MathProofs VarSpec Faith FaithX HistProofs
  JacModel JacProofs JacReach JacHist JacSame NumModel UtilModel KktModel ScaleProofs BoundsModel FilterModel ExitModel SolverModel SolverSpec SolverProofs NewtonModel NewtonSpec NewtonProofs NewtonXR SqpModel SqpSpec SqpProofs IpmModel IpmShape IpmSpec IpmProofs RestoreModel RestoreProofs
  XArith PosX PosProofs TermProofs TermFine
  FinEval ProblemModel ProblemSpec ProblemInv ProblemProofs ProblemProofs2 ProblemProofs3 ProblemProofs4 ProbSolveModel ProbSolveInv ProbSolveEval ProbSolveSpec ProbSolveProofs ProbSolvePrep
  ProbSolveHist ProbSolveEnd ProbSolveLived ProbSolveDims.
Import ListNotations.
Local Open Scope nat_scope.

(** *** The cost scale is positive unless the gradient at the start is not finite *)
Lemma fin_mul_any c y : fin (s_mul Xn c y) -> fin y.
Proof.
  destruct c as [c| | |]; [apply fin_mul_l| | |]; destruct y as [y| | |]; intros H; try reflexivity; discriminate H.
Qed.
Lemma Forall_fin (l : list XR) : List.Forall fin l -> exists v, l = map Fin v.
Proof.
  induction 1 as [|a l F _ (v & ->)]; [exists []; reflexivity|]. apply fin_Fin in F as (r & ->). exists (r :: v). reflexivity.
Qed.
Lemma stored_fin c (m : list (@triplet Xn)) js : List.Forall fin (map (scaled (S := Xn) c m 0) js) ->
  List.Forall fin (flat_map (fun j => if stored (S := Xn) m 0 j then [entry (S := Xn) m 0 j] else []) js).
Proof.
  induction js as [|j js IH]; intros H; [constructor|]. cbn [map flat_map] in *. inversion_clear H as [|? ? H1 H2]. apply Forall_app. split; [|apply IH, H2].
  unfold scaled in H1. destruct (stored m 0 j); [|constructor]. constructor; [|constructor]. eapply fin_mul_any, H1.
Qed.
Lemma scale_pos (g : list XR) : List.Forall fin g -> pos (scale_of (S := Xn) (norminf (S := Xn) g)).
Proof. intros F. destruct (Forall_fin g F) as (v & ->). destruct (scale_of_spec v) as (f & -> & (A & _)). apply pos_Fin. lra. Qed.

Lemma ipm_scale (p : prog X_ops) x0 P : ipm_given p x0 P -> length x0 = ip_n P -> all_fin (S := Xn) (ip_g P x0) = true -> pos (sc_f (ip_sc P)).
Proof.
  intros (nodes & t & q & g & Ae & Ai & D & Rd & Hg & _ & _ & ->). set (sc := scaling_ipm _ _ _ _ _). cbn [ipm_prob ip_n ip_g ip_sc]. intros Lx F.
  apply all_fin_Forall in F. destruct (cb_g_ok (S := Xn) KIpm p nodes t q Rd D sc x0 Lx) as (m & Em & Ec).
  assert (Ec' : cb_g (S := Xn) (length (p_dec p)) t q sc x0 = map (scaled (S := Xn) (sc_f sc) m 0) (seq 0 (length (p_dec p)))) by exact Ec.
  rewrite Ec' in F. apply stored_fin in F.
  assert (Eg : g = flat_map (fun j => if stored (S := Xn) m 0 j then [entry (S := Xn) m 0 j] else []) (seq 0 (length (p_dec p)))).
  { unfold g_at in Hg. destruct (at_x (S := Xn) t q x0) as [q1| | |] eqn:E1; cbn [obind] in Hg; try discriminate.
    cbn [obind] in Em. assert (Em' : jget_mat (S := Xn) (t_g t) q1 = Ok m) by exact Em. rewrite Em' in Hg. injection Hg as <-. reflexivity. }
  unfold sc, scaling_ipm. cbn [sc_f]. apply scale_pos. rewrite Eg. exact F.
Qed.

Section Returns.
Context {U : Type}.
Variables (E : env Xn) (o : options Xn).
Hypothesis Hs : solve_ok E.
Hypothesis He : est_ok E.
Hypothesis Ht : pos (o_tol o).

(** [returns] with a fact about what is returned *)
Definition gives {A} (f : nat -> outcome A) (Q : A -> Prop) : Prop := exists N a, (forall n, N <= n -> f n = Ok a) /\ Q a.
Lemma returns_gives {A} (f : nat -> outcome A) (Q : A -> Prop) : returns f -> (forall n a, f n = Ok a -> Q a) -> gives f Q.
Proof. intros (N & a & H) K. exists N, a. split; [exact H|]. apply (K N). apply H. lia. Qed.

Lemma ipm_gives sp (p : prog X_ops) x0 P (cbs : list (callback Xn U)) u clk : pinv p -> plink sp p -> ipm_given p x0 P -> length x0 = ip_n P ->
  gives (fun n => ipm_solve E o n P cbs x0 u clk) (fun r => length (is_x E (snd r)) = ip_n P).
Proof.
  intros Ip Lp G Lx. destruct (ipm_meaning sp p x0 P Ip Lp G) as (Hp & _ & Le & Li & _).
  assert (HH : H_ok P) by (intros x y z A B C; apply (ipm_H_dims p x0 P G Le Li x y z A B C)).
  destruct (all_fin (S := Xn) (ip_g P x0)) eqn:F.
  - pose proof (ipm_scale p x0 P G Lx F) as Hf. apply returns_gives.
    + apply settles_fine; [apply ipm_solve_settles; auto|]. intros n. apply ipm_solve_fine; auto.
    + intros n [s st] H. cbn [snd]. eapply (ipm_solve_fine E o Hs He Ht P cbs n); eauto.
  - set (pt := ipm_init E P false x0 (repeat (s_ofZ Xn 1) (ip_mi P)) (repeat (s_ofZ Xn 0) (ip_me P)) (repeat (s_ofZ Xn 1) (ip_mi P)) (s_mul Xn (lit (S := Xn) 1 1) (sc_f (ip_sc P))) 0%Z u clk).
    assert (K : forall n, ipm_solve E o n P cbs x0 u clk = Ok (if Nat.ltb (ip_n P) (ip_me P) then TOO_FEW_DOFS else NONFINITE_INITIAL_GUESS, pt)).
    { intros n. unfold ipm_solve, ipm, ipm_from. fold pt.
      assert (Da := dims_assert E P Hp false x0 (repeat (s_ofZ Xn 1) (ip_mi P)) (repeat (s_ofZ Xn 0) (ip_me P)) (repeat (s_ofZ Xn 1) (ip_mi P)) (s_mul Xn (lit (S := Xn) 1 1) (sc_f (ip_sc P))) 0%Z u clk HH).
      cbv zeta in Da. fold pt in Da. rewrite Da. 2:{ unfold pt_ok. cbn [pt_x pt_s pt_y pt_z]. rewrite !repeat_length. auto. }
      cbn [oassert]. destruct (Nat.ltb _ _); [reflexivity|]. change (is_g _ pt) with (ip_g P x0). rewrite F. cbn [negb]. rewrite orb_true_r. reflexivity. }
    exists 0. eexists. split; [intros n _; apply K|]. exact Lx.
Qed.

Lemma sqp_gives sp (p : prog X_ops) x0 P (cbs : list (callback Xn U)) u clk : pinv p -> plink sp p -> p_ineq p = [] -> sqp_given p x0 P -> length x0 = sp_n P ->
  gives (fun n => sqp_solve E o n P cbs x0 u clk) (fun r => length (s_x E (snd r)) = sp_n P).
Proof.
  intros Ip Lp Ei G Lx. destruct (sqp_meaning sp p x0 P Ip Lp G) as (Hp & _ & _ & Le & Li & _).
  assert (HH : forall x y, length x = sp_n P -> length y = sp_me P -> mat_dims (S := Xn) (sp_n P) (sp_n P) (sp_H P x y) = true) by (intros x y A B; apply (sqp_H_dims p x0 P Ei G Le Li x y A B)).
  apply returns_gives.
  - apply settles_fine; [apply sqp_solve_settles; auto|]. intros n. apply sqp_solve_fine; auto.
  - intros n [s st] H. cbn [snd]. eapply (sqp_solve_fine E o Hs He Ht P cbs Hp n); eauto.
Qed.

(** *** Newton *)
Lemma nsearch_more (P : nprob Xn) x f g p d : forall n a flt r, newton_search P n x f g p d a flt = Ok r -> forall m, n <= m -> newton_search P m x f g p d a flt = Ok r.
Proof.
  induction n as [|n IH]; intros a flt r H m L; [discriminate|]. destruct m as [|m]; [lia|]. cbn [newton_search] in *. cbv zeta in *.
  destruct (negb _); [destruct (s_ltb Xn _ _); [exact H|apply (IH _ _ _ H); lia]|].
  destruct (try_add _ _ _ _ _) as [flt' ok]. destruct ok; [exact H|]. destruct (s_ltb Xn _ _); [exact H|apply (IH _ _ _ H); lia].
Qed.
Lemma nbody_settles (P : nprob Xn) (cbs : list (callback Xn U)) start st : settles (fun n => newton_body E P cbs o n start st).
Proof.
  unfold newton_body. destruct (diverging _); [apply settles_const; discriminate|]. destruct (run_callbacks _ _ _) as [v stop].
  destruct stop; [apply settles_const; discriminate|]. cbv zeta. apply settles_bind.
  - match goal with |- settles (fun n => newton_search P n ?x ?f ?g ?p ?d ?a ?flt) =>
      destruct (search_total P x f g p d 66 67 a flt) as (r & R) end; [apply small_20; lra|lia|].
    exists 67, (Ok r). split; [discriminate|]. intros n L. apply (nsearch_more _ _ _ _ _ _ 67 _ _ _ R n L).
  - intros r _ _. destruct r; [|apply settles_const; discriminate]. destruct (limits _ _ _ _ _). apply settles_const. discriminate.
Qed.
Lemma step_len (P : nprob Xn) x x' : (forall x, length x = np_n P -> length (np_g P x) = np_n P) -> length x = np_n P -> newton_step E P x x' -> length x' = np_n P.
Proof.
  intros G L (p & (ls & ->) & H). assert (Lp : length (ls_solve (e_lin E) (fst (ls_compute (e_lin E) ls (mkKkt (np_H P x) []))) (map (s_opp Xn) (np_g P x))) = np_n P).
  { rewrite Hs, map_length. apply G, L. }
  destruct H as [(k & flt & flt' & _ & -> & _)|(-> & _)]; (apply vadd_len; [exact L|]); unfold vscale; rewrite map_length; exact Lp.
Qed.
Lemma newton_gives sp (p : prog X_ops) x0 P (cbs : list (callback Xn U)) u clk : pinv p -> plink sp p -> newton_given p x0 P -> length x0 = np_n P ->
  gives (fun n => newton E P cbs o n x0 u clk) (fun r => length (n_x E (snd r)) = np_n P).
Proof.
  intros Ip Lp G Lx. destruct (newton_meaning sp p x0 P Ip Lp G) as (_ & Hg & _). pose proof (newton_H_dims p x0 P G x0 Lx) as HH.
  assert (St : settles (fun n => newton E P cbs o n x0 u clk)).
  { unfold newton. destruct (_ && _); cbn [oassert]; [|apply settles_const; discriminate]. destruct (_ || _); [apply settles_const; discriminate|].
    apply (settles_drive (n_E E) (o_tol o) (fun n => newton_body E P cbs o n (e_clock E clk)) (n_inv E P o x0) (fun st => Z.to_nat (o_max o - n_it _ st))).
    - intros st _. apply nbody_settles.
    - intros n st st' I B. destruct (NewtonProofs.body_next _ _ _ _ _ _ _ _ _ I B) as (A & Ci & Cl). split; auto. lia.
    - unfold n_inv. cbn. repeat (split; [reflexivity|]). exists 0. split; [reflexivity|]. split; [constructor|auto]. }
  apply returns_gives.
  - destruct St as (N & r & Hr & K). exists (N + 67 + Datatypes.S (Z.to_nat (o_max o))).
    destruct (newton_total E P cbs o 66 x0 u clk (N + 67 + Datatypes.S (Z.to_nat (o_max o)))) as (a & Ha); auto; try lia; [apply small_20; lra|].
    exists a. intros n L. rewrite K by lia. rewrite K in Ha by lia. exact Ha.
  - intros n [s st] H. cbn [snd]. apply c50_meaning in H as (_ & k & _ & Pa & _).
    clear - Pa Lx Hg Hs. induction Pa; [exact Lx|]. eapply step_len; [exact Hg|exact (IHPa Lx)|exact H].
Qed.

Lemma write_total sp (p : prog X_ops) x : pinv p -> plink sp p -> length x = length (p_dec p) -> exists p', write_back p x = Ok p'.
Proof.
  intros Ip Lp Lx. destruct (i_dec _ Ip) as (nodes & D & ND).
  destruct (jsets_ok (S := Xn) (p_dec p) nodes x (p_env p, [], p_st p) (i_reach _ Ip) D Lx) as (q' & Hs' & _).
  unfold write_back. assert (Hq : jsets (S := Xn) (p_dec p) x (p_env p, [], p_st p) = Ok q') by exact Hs'. rewrite Hq. cbn [obind]. destruct q' as [[e js] s]. eexists. reflexivity.
Qed.

Lemma solve_returns (cbs pcbs : list (callback Xn U)) sp p u clk rn x0 p1 : lived sp p -> prepare p = Ok (rn, x0, p1) ->
  exists N st p', forall n, N <= n -> solve E o n cbs pcbs p u clk = Ok (st, p').
Proof.
  intros Lv Hp. destruct (lived_ok _ _ Lv) as [Ip Lp]. destruct (prepare_inv sp p rn x0 p1 Ip Lp Hp) as (I1 & L1 & Ex & _ & (tf & te & ti & _ & _ & _ & _ & M)).
  assert (Lx : length x0 = length (p_dec p1)).
  { rewrite Ex, !map_length. symmetry. exact (dec_len (S := Xn) sp p1 L1). }
  unfold solve. rewrite Hp. cbn [obind]. destruct rn as [|P|P|P|].
  - exists 0, SUCCESS, p1. reflexivity.
  - destruct M as (_ & _ & G). assert (En : np_n P = length (p_dec p1)) by (destruct G as (? & ? & ? & ? & _ & _ & _ & ->); reflexivity).
    destruct (newton_gives sp p1 x0 P (cbs ++ pcbs) u clk I1 L1 G) as (N & [st fin] & K & Lf); [exact (eq_trans Lx (eq_sym En))|].
    destruct (write_total sp p1 (n_x E fin) I1 L1) as (p' & W); [exact (eq_trans Lf En)|].
    exists N, st, p'. intros n L. rewrite (K n L). cbn [obind]. rewrite W. reflexivity.
  - destruct M as (_ & Ei & G). assert (En : sp_n P = length (p_dec p1)) by (destruct G as (? & ? & ? & ? & ? & _ & _ & _ & _ & ->); reflexivity).
    destruct (sqp_gives sp p1 x0 P (cbs ++ pcbs) u clk I1 L1 Ei G) as (N & [st fin] & K & Lf); [exact (eq_trans Lx (eq_sym En))|].
    destruct (write_total sp p1 (s_x E fin) I1 L1) as (p' & W); [exact (eq_trans Lf En)|].
    exists N, st, p'. intros n L. rewrite (K n L). cbn [obind]. rewrite W. reflexivity.
  - destruct M as (_ & G). assert (En : ip_n P = length (p_dec p1)) by (destruct G as (? & ? & ? & ? & ? & ? & _ & _ & _ & _ & _ & ->); reflexivity).
    destruct (ipm_gives sp p1 x0 P (cbs ++ pcbs) u clk I1 L1 G) as (N & [st fin] & K & Lf); [exact (eq_trans Lx (eq_sym En))|].
    destruct (write_total sp p1 (is_x E fin) I1 L1) as (p' & W); [exact (eq_trans Lf En)|].
    exists N, st, p'. intros n L. rewrite (K n L). cbn [obind]. rewrite W. reflexivity.
  - exists 0, GLOBALLY_INFEASIBLE, p1. reflexivity.
Qed.
End Returns.
