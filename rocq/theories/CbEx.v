(** Cases for C98: the bowl of C89 with a callback that throws, and with one that reads the decision variables. *)
From Coq Require Import ZArith QArith Reals List Bool Arith Lia Lra.
From Verif Require Import Base XArith XQ ExprModel MathSpec VarModel VarSpec ExprReal ExprXR Faith FaithX HistProofs NumModel UtilModel ExitModel SolverModel SolverSpec NewtonModel IpmShape RestoreModel RestoreProofs SmoothSpec ProblemModel ProblemSpec
  ProbSolveModel ProbSolveSpec ProbSolveHist ProbSolveEnd ProbSolveLived ProbSolvePrep ProbSolveTotal ProbTotalEx LagrSpec ProbSolveKkt2 ProbSolveEx ProbSolveKktEx RunY ProbSolveRun SmoothUser SmoothGraph FiniteUseSpec FiniteUse EarlySpec ProbEarly ConvexSpec LinR QuadSpec QuadProofs QuadUse LdlModel LdlProofs QuadEx DownSpec DownLin DownUse DownEx
  CbModel CbSpec CbProofs CbUse.
Import ListNotations.
Local Open Scope R_scope.

(** The first call throws. *)
Lemma first_throw {S : nops} (E : env S) (o : options S) {U V} P (cbs0 : list (callback S V)) (cb : tcallback S U) cbs left fuel x (v : V) (u u' : U) clk cur fin :
  newton E P cbs0 o fuel x v clk = Ok (SUCCESS, fin) -> n_x E fin <> x -> (forall i, cb i (firstn (np_n P) x) u = (u', AThrow)) ->
  newton_t E o P (cb :: cbs) left fuel x u clk cur = Ok (Thrown u' (firstn (np_n P) x)).
Proof.
  intros H Nx Hc. unfold newton in H. unfold newton_t. cbv zeta in *. unfold newton_init in *. cbn [n_g n_H n_f] in *.
  destruct (_ && _); [|discriminate H]. cbn [oassert] in *. destruct (_ || _); [discriminate H|]. rewrite evals_true by (left; reflexivity).
  destruct fuel as [|fuel]; [discriminate H|]. cbn [drive drive_t n_E] in *. destruct (s_ltb S _ _).
  2:{ injection H as <-. contradiction Nx. reflexivity. }
  unfold newton_body in H. unfold newton_body_t. cbn [n_x] in *. destruct (diverging x); [discriminate H|]. clear H. cbn [run_t].
  rewrite Hc. reflexivity.
Qed.

Definition throwing : tcallback Xn (list (list XR)) := fun _ x u => (x :: u, AThrow).
Definition reading : tcallback Xn (list (list XR)) := fun _ x u => (x :: u, AGo).
Lemma reading_goes : never_throws reading. Proof. intros i x u. discriminate. Qed.

Lemma bowl_threw : exists sp p fuel clk p', spec_run bowl_ops spec_empty = Some (sp, []) /\ lived sp p /\ now sp = [1; 2] /\
  (forall l, solve_t far_env (opts_y 5) l fuel [throwing] [reading] p [] clk = Ok (Raised [map Fin [1; 2]] p')) /\ lived (at_point sp [1; 2]) p'.
Proof.
  destruct (bowl_run_with 40) as (sp & p0 & Hs & _ & Sm & Es & Ei & _ & _ & _ & _ & _ & N & l & H). remember SUCCESS as st eqn:Est. remember (map Fin [0; 0]) as x eqn:Ex.
  destruct H as [p P x0 p1 fuel u clk s fin Lv Hp H]. subst s. fold far_env in H.
  destruct (prepared sp p _ x0 p1 Lv Hp) as (En & I1 & L1). destruct (lived_ok _ _ Lv) as [Ip Lp]. destruct (prepare_inv sp p _ x0 p1 Ip Lp Hp) as (_ & _ & E0 & _).
  assert (N0 : x0 = map Fin [1; 2]) by (rewrite E0; unfold now in N; rewrite N; reflexivity).
  assert (L2 : length (sp_dec sp) = 2%nat) by (rewrite <- (now_len sp), N; reflexivity).
  assert (Ne : n_x far_env fin <> x0).
  { change (n_x far_env fin) with (n_x (with_ldl 40 down_env) fin). rewrite Ex, N0. intros Q. apply (f_equal (fun l => nth 1 l NaN)) in Q. cbn in Q. injection Q as Q. lra. }
  destruct (write_total sp p1 (map Fin [1; 2]) I1 L1) as (p' & W). { pose proof (ProbSolveProofs.dec_len (S := Xn) sp p1 L1) as Dl. rewrite L2 in Dl. exact (eq_sym Dl). }
  assert (R : forall l, solve_t far_env (opts_y 5) l fuel [throwing] [reading] p [] clk = Ok (Raised [map Fin [1; 2]] p')).
  { intros l0. unfold solve_t. rewrite Hp. cbn [obind app].
    rewrite (first_throw far_env (opts_y 5) P _ throwing [reading] (l_newton _ _ l0) fuel x0 _ [] [map Fin [1; 2]] clk x0 fin H Ne).
    - assert (W' : write_back p1 (firstn (np_n P) x0) = Ok p') by (rewrite En, L2, N0; exact W).
      change (obind (write_back p1 (firstn (np_n P) x0)) (fun p => Ok (Raised [map Fin [1; 2]] p)) = Ok (Raised [map Fin [1; 2]] p')). rewrite W'. reflexivity.
    - intros i. unfold throwing. rewrite En, L2, N0. reflexivity. }
  exists sp, p, fuel, clk, p'. split; [exact Hs|]. split; [exact Lv|]. split; [exact N|]. split; [exact R|].
  set (l0 := mkLeft far_env (list (list XR)) (fun _ => []) (fun _ => []) (fun _ => []) (fun _ => [])).
  destruct (c98_threw far_env (opts_y 5) l0 fuel [throwing] [reading] sp p [] clk _ p' Lv (R l0)) as (cb & i & u0 & y & Hin & _ & Ly & Hc & L & _).
  destruct Hin as [<-|[<-|[]]]; [|discriminate Hc]. unfold throwing in Hc. injection Hc as Hy _. assert (Hy' : y = [1; 2]) by (apply map_fin_inj; exact Hy). subst y. exact L.
Qed.
(** Reading callbacks: the log holds the iterates. *)
Lemma bowl_reads : exists sp p fuel clk st p', spec_run bowl_ops spec_empty = Some (sp, []) /\ lived sp p /\
  (forall l, solve_t down_env (opts_y 5) l fuel [reading] [] p [] clk = Ok (Returned st p')).
Proof.
  destruct (bowl_run_with 40) as (sp & p0 & Hs & _ & Sm & Es & Ei & _ & _ & _ & _ & _ & N & l & H). remember SUCCESS as st eqn:Est. remember (map Fin [0; 0]) as x eqn:Ex.
  destruct H as [p P x0 p1 fuel u clk s fin Lv Hp H].
  assert (R : exists N st p', forall n, (N <= n)%nat -> solve (U := list (list XR)) down_env (opts_y 5) n (map (reads_info (length (sp_dec sp))) [reading]) (map (reads_info (length (sp_dec sp))) []) p [] 0 = Ok (st, p')).
  { destruct env_total as (E1 & E2 & E3). exact (solve_returns down_env (opts_y 5) E1 E2 E3 _ _ sp p [] 0 _ x0 p1 Lv Hp). }
  destruct R as (N1 & st1 & p' & R). exists sp, p, N1, 0%nat, st1, p'. split; [exact Hs|]. split; [exact Lv|].
  intros l0. rewrite (c98_reads down_env (opts_y 5) l0 N1 [reading] [] sp p [] 0 Lv (List.Forall_cons _ reading_goes (List.Forall_nil _)) (List.Forall_nil _)).
  rewrite (R N1 (le_n N1)). reflexivity.
Qed.
