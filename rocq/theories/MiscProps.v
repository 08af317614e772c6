(** Properties C57, C65-C68 and C70-C72: multistart, diagnostics, guards, profilers, sparsity recordings. *)
From Coq Require Import ZArith Reals List Bool Permutation Lra Lia.
From Verif Require Import Base ExprModel ExprReal ExprXR NumModel UtilModel ExitModel SpyModel SpySpec SpyProofs
  MultiModel MultiSpec MultiProofs GuardModel GuardSpec GuardProofs DiagModel DiagSpec DiagProofs.
Import ListNotations.
Local Open Scope R_scope.

(** C57, scheduling: whatever the interleaving of the launches, the tasks and the collection, the call never gets stuck,
    ends after three steps per guess, has then solved every guess exactly once and holds the results in the order of
    the guesses (so what it returns does not depend on the schedule). *)
Theorem C57_schedule :
  forall (S : nops) (V : Type) (solve : V -> mresult S V) (gs : list V) n s, msteps solve gs n ms_init s ->
  (n <= 3 * length gs)%nat /\ (collected gs s \/ exists s', mstep solve gs s s') /\
  (collected gs s -> n = (3 * length gs)%nat /\ ms_results s = map solve gs /\ Permutation (ms_calls s) gs).
Proof. exact @c57_schedule. Qed.
Print Assumptions C57_schedule.
(** C57, choice: the promised result is returned when there is a guess and no failed run is cheaper than a successful
    one.  Missing for the full statement: all other outcomes, for which it is false (below). *)
Theorem C57_best_partial :
  forall V (rs : list (mresult Rn V)), rs <> [] -> failures_dearer rs -> exists r, min_element rs = Ok r /\ best rs r.
Proof. exact @c57_best. Qed.
Print Assumptions C57_best_partial.
Example C57_example : let a := mkM (S := Rn) MAX_ITERATIONS_EXCEEDED (7 : R) 1%nat in
  let b := mkM (S := Rn) SUCCESS (5 : R) 2%nat in let c := mkM (S := Rn) SUCCESS (4 : R) 3%nat in
  failures_dearer [a; b; c] /\ msteps (fun v : nat => if Nat.eqb v 0 then a else b) [0; 1]%nat 6 ms_init
    (mkMS [Some a; Some b] [a; b] [1; 0]%nat).
Proof.
  cbn zeta. split.
  - intros x y [<-|[<-|[<-|[]]]] [<-|[<-|[<-|[]]]]; unfold succeeded, cost; cbn; intros; try discriminate; try congruence; lra.
  - eapply msteps_S; [apply mstep_launch; cbn; lia|]. eapply msteps_S; [apply mstep_launch; cbn; lia|]. cbn.
    eapply msteps_S; [apply (mstep_run _ _ _ 1); reflexivity|]. cbn.
    eapply msteps_S; [apply (mstep_run _ _ _ 0); reflexivity|]. cbn.
    eapply msteps_S; [eapply mstep_get; reflexivity|]. cbn.
    eapply msteps_S; [eapply mstep_get; reflexivity|]. cbn. apply msteps_0.
Qed.
(** A cheaper failure listed after a success is returned; listed before it, the success is. *)
Theorem C57_order_refuted :
  exists rs r : mresult Rn unit, let l := [rs; r] in succeeded rs /\
  min_element l = Ok r /\ ~ succeeded r /\ ~ best l r /\ exists r', min_element [r; rs] = Ok r' /\ succeeded r'.
Proof. exact c57_refuted. Qed.
Print Assumptions C57_order_refuted.
(** A success whose cost is NaN is kept over a later one of cost 1. *)
Theorem C57_nan_refuted :
  exists a b : mresult Xn unit, (m_cost a : XR) = NaN /\ m_status b = SUCCESS /\ (m_cost b : XR) = Fin 1 /\
  min_element [a; b] = Ok a.
Proof. exact c57_nan_ex. Qed.
Print Assumptions C57_nan_refuted.
(** No guesses: undefined behaviour. *)
Theorem C57_empty_refuted : exists gs : list unit, forall s : mstate Rn unit, collected gs s -> multistart s = UB.
Proof. exact c57_empty. Qed.
Print Assumptions C57_empty_refuted.

(** C65, inequality constraints: exactly the violated rows are listed, in order. *)
Theorem C65_inequality :
  forall c, lists_rows (fun r => ~ r >= 0) c (print_c_i_local_infeasibility_error (map Fin c)).
Proof. exact c65_inequality. Qed.
Print Assumptions C65_inequality.
(** C65, equality constraints: exactly the negative rows are listed; missing for the full statement: the positive ones,
    which are violated but left out. *)
Theorem C65_equality_partial :
  forall c, lists_rows (fun r => r < 0) c (print_c_e_local_infeasibility_error (map Fin c)).
Proof. exact c65_equality. Qed.
Print Assumptions C65_equality_partial.
Theorem C65_equality_refuted :
  exists c, ~ lists_rows (fun r => r <> 0) c (print_c_e_local_infeasibility_error (map Fin c)).
Proof. exact c65_equality_refuted. Qed.
Print Assumptions C65_equality_refuted.
Example C65_example : In (2%nat, 3%nat, Fin (-1)) (print_c_i_local_infeasibility_error (map Fin [1; -1; 0])).
Proof. apply C65_inequality. exists (-1), 1%nat. cbn. repeat split; lra. Qed.

(** C66: in any history of guards created, moved, released and destroyed, every action runs at most once; it has at most
    one owner at a time and runs exactly when its owner is destroyed. *)
Theorem C66_runs_with_owner :
  forall h s, grun h gs_init = Ok s -> NoDup (gs_log s) /\
  (forall a i j, owner h a i -> owner h a j -> i = j) /\
  forall a, In a (gs_log s) <-> exists h1 i h2, h = h1 ++ GDestroy i :: h2 /\ owner h1 a i.
Proof. exact c66_runs. Qed.
Print Assumptions C66_runs_with_owner.
(** Released by its owner, an action never runs. *)
Theorem C66_released_never_runs :
  forall h1 i h2 a s, grun (h1 ++ GRelease i :: h2) gs_init = Ok s -> owner h1 a i -> ~ In a (gs_log s).
Proof. exact c66_released. Qed.
Print Assumptions C66_released_never_runs.
(** Once every guard is gone, and if none was released, every action has run exactly once. *)
Theorem C66_all_run :
  forall h s, grun h gs_init = Ok s -> (forall i, ~ In (GRelease i) h) ->
  (forall g, In g (gs_guards s) -> g_dead g = true) -> Permutation (gs_log s) (seq 0 (actions h)).
Proof. exact c66_all. Qed.
Print Assumptions C66_all_run.
Example C66_example : exists s, grun [GNew; GMove 0; GDestroy 0; GMove 1; GNew; GDestroy 3; GDestroy 1; GDestroy 2] gs_init = Ok s /\
  gs_log s = [1; 0]%nat /\ (forall g, In g (gs_guards s) -> g_dead g = true).
Proof. eexists. split; [reflexivity|]. split; [reflexivity|]. cbn. intros g H. repeat (destruct H as [<-|H]; [reflexivity|]). destruct H. Qed.

(** C67: count, total and running average agree with the intervals measured so far. *)
Theorem C67_profiler_consistent :
  forall l : list (pop Rn), let p := p_run l in let ds := durations 0 l in
  p_num p = Z.of_nat (length ds) /\ (p_total p : R) = total_of ds /\ (p_average p : R) * IZR (p_num p) = p_total p /\
  match rev ds with d :: _ => (p_current p : R) = d | [] => True end.
Proof. exact c67. Qed.
Print Assumptions C67_profiler_consistent.
Example C67_example : durations 0 [PStart (S := Rn) (1 : R); PStop (S := Rn) (3 : R); PStart (S := Rn) (4 : R); PStop (S := Rn) (5 : R)] = [3 - 1; 5 - 4].
Proof. reflexivity. Qed.

(** C68: the recording read back after a solve gives the titles, the dimensions and for every recorded matrix, in
    order, exactly its stored entries with their signs ... *)
Theorem C68_decodes :
  forall t rl cl rows cols (ms : list (@csc Rn)), string_ok t -> string_ok rl -> string_ok cl -> fits rows -> fits cols ->
  List.Forall matrix_ok ms ->
  exists fs, spy_read (spy_file (S := Rn) t rl cl rows cols ms) = Ok (mkRec t rl cl rows cols fs) /\
    Forall2 (fun (m : @csc Rn) f => recorded 0 (c_cols m) f) ms fs.
Proof. exact c68_whole. Qed.
Print Assumptions C68_decodes.
(** ... and when the program dies after any number n of bytes past the header, exactly the matrices that were completely
    written. *)
Theorem C68_crash_prefix :
  forall t rl cl rows cols (ms : list (@csc Rn)) n, string_ok t -> string_ok rl -> string_ok cl -> fits rows -> fits cols ->
  List.Forall matrix_ok ms -> (length (spy_header t rl cl rows cols) <= n)%nat ->
  exists k fs, spy_read (firstn n (spy_file (S := Rn) t rl cl rows cols ms)) = Ok (mkRec t rl cl rows cols fs) /\
    Forall2 (fun (m : @csc Rn) f => recorded 0 (c_cols m) f) (firstn k ms) fs /\ (k <= length ms)%nat /\
    (length (spy_file (S := Rn) t rl cl rows cols (firstn k ms)) <= n)%nat /\
    (k < length ms -> n < length (spy_file (S := Rn) t rl cl rows cols (firstn (S k) ms)))%nat.
Proof. exact c68. Qed.
Print Assumptions C68_crash_prefix.
(** A matrix's recording is determined by its entries. *)
Theorem C68_recording_unique : forall cols k f f', recorded k cols f -> recorded k cols f' -> f = f'.
Proof. exact recorded_fun. Qed.
Print Assumptions C68_recording_unique.
Example C68_example : string_ok [72; 101]%Z /\ fits 2 /\
  List.Forall matrix_ok [mkCsc (S := Rn) 2 [[(0%nat, (-3 : R))]; [(0%nat, (0 : R)); (1%nat, (2 : R))]]] /\
  recorded 0 [[(0%nat, -3)]; [(0%nat, 0); (1%nat, 2)]] [(0, 0, -1); (0, 1, 0); (1, 1, 1)]%Z.
Proof.
  split; [unfold string_ok, fits; cbn; lia|]. split; [unfold fits; cbn; lia|]. split.
  - apply List.Forall_cons; [|apply List.Forall_nil]. unfold matrix_ok, fits. cbn. split; [lia|]. split; [lia|].
    intros col r v [<-|[<-|[]]] H; cbn in H; [destruct H as [E|[]]|destruct H as [E|[E|[]]]]; injection E as <- <-; lia.
  - apply (rec_entry 0 0 (-3) (-1)); [constructor; lra|]. constructor. cbn.
    apply (rec_entry 1 0 0 0); [constructor|]. apply (rec_entry 1 1 2 1); [constructor; lra|]. repeat constructor.
Qed.

(** C70: in any history of scoped profilers created, moved, stopped and destroyed, every measurement is started once and
    then stopped at most once: exactly when its owner is stopped or destroyed, hence once all are gone. *)
Theorem C70_scoped_profiler :
  forall h s, srun h ss_init = Ok s -> forall a, (a < actions (map as_guard h))%nat ->
  (calls_of a (ss_log s) = [CStart; CStop] <->
     exists h1 i o h2, h = h1 ++ o :: h2 /\ (o = SStop i \/ o = SDestroy i) /\ owner (map as_guard h1) a i) /\
  (calls_of a (ss_log s) = [CStart] \/ calls_of a (ss_log s) = [CStart; CStop]) /\
  ((forall g, In g (ss_guards s) -> g_dead g = true) -> calls_of a (ss_log s) = [CStart; CStop]).
Proof. exact c70. Qed.
Print Assumptions C70_scoped_profiler.
Example C70_example : exists s, srun [SNew; SMove 0; SStop 0; SNew; SStop 1; SStop 1; SDestroy 1; SDestroy 0] ss_init = Ok s /\
  ss_log s = [(0%nat, CStart); (1%nat, CStart); (0%nat, CStop)].
Proof. eexists. split; reflexivity. Qed.

(** C71: the power of ten shown for a positive value brackets it: from below when the value is at least one, from above
    when it is less. *)
Theorem C71_power_of_10 :
  forall v, 0 < v -> exists l e, power_of_10 v = Ok l /\ shown_exponent l = Some e /\
  (1 <= v -> powerRZ 10 e <= v < powerRZ 10 (e + 1)) /\ (v < 1 -> powerRZ 10 (e - 1) < v <= powerRZ 10 e).
Proof. exact c71. Qed.
Print Assumptions C71_power_of_10.
Example C71_example : shown_exponent [Digit 1; Digit 0; SupMinus; Sup 1; Sup 2] = Some (-12)%Z.
Proof. reflexivity. Qed.

(** C72: a histogram of width w is exactly w cells, full ones first, then at most one partial one, then empty ones, and
    shows the value (clamped to [0, 1]) to the eighth of a cell below. *)
Theorem C72_histogram :
  forall width v, (0 < width)%Z -> exists l, histogram width v = Ok l /\ Z.of_nat (length l) = width /\ bar_shape l /\
  eighths l = Int_part (8 * IZR width * Rmax 0 (Rmin 1 v)).
Proof. exact c72. Qed.
Print Assumptions C72_histogram.
Example C72_example : bar_shape [8; 8; 3; 0; 0]%Z /\ eighths [8; 8; 3; 0; 0]%Z = 19%Z.
Proof. split; [exists 2%nat, [3%Z], 2%nat; split; [reflexivity|right; exists 3%Z; split; [reflexivity|lia]]|reflexivity]. Qed.
