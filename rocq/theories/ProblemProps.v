(** Properties C31 and C32. *)
From Coq Require Import ZArith Reals List Bool Arith.
From Verif Require Import Base ExprModel GraphSpec MathSpec VarModel ExprReal ExprXR VarSpec ProblemModel ProblemSpec ProblemProofs4.
Import ListNotations.
Local Open Scope nat_scope.

(** C31: any program of statements on variables, comparisons, bounds(), concatenations, decision variables and problem
    definitions runs; every constraint object holds exactly one elementary constraint per relation the user wrote; and
    converting it to bool tells whether all these relations hold at the current values ([panswers]). *)
Theorem C31_relations :
  forall l sp qs, spec_run l spec_empty = Some (sp, qs) ->
    exists p out, prun l (prog_empty R_ops) = Ok (p, out) /\ Forall2 panswers qs out /\
      Forall2 (fun c sc => fst c = fst sc /\ length (snd c) = length (snd sc)) (p_cons p) (sp_cons sp).
Proof. exact c31. Qed.
Print Assumptions C31_relations.

(** C31: the relations a comparison denotes: one per element, row by row, scalars standing for every element. *)
Theorem C31_one_per_element :
  forall se c a b rs rows cols, rels se c a b = Some rs -> common_shape a b = Some (rows, cols) ->
    length rs = rows * cols /\ forall i j, i < rows -> j < cols -> nth_error rs (i * cols + j) = rel_at se c a b i j.
Proof. exact rels_nth. Qed.
Print Assumptions C31_one_per_element.

(** C31: matrices of different shapes are rejected. *)
Theorem C31_shape_mismatch :
  forall l sp qs p out c a b, spec_run l spec_empty = Some (sp, qs) -> prun l (prog_empty R_ops) = Ok (p, out) ->
    owf (length (se_exp (sp_se sp))) a = true -> owf (length (se_exp (sp_se sp))) b = true -> common_shape a b = None ->
    pstep (PCompare c a b) p = AssertFail.
Proof. exact c31_mismatch. Qed.
Print Assumptions C31_shape_mismatch.

(** C31 fails for infinite values: with x at infinity, every one of x == inf, x <= inf, x >= inf converts to false. *)
Theorem C31_infinite_refuted :
  forall c, exists p, prun (inf_ops c) (prog_empty X_ops) = Ok (p, [PTest false]).
Proof. exact c31_inf. Qed.
Print Assumptions C31_infinite_refuted.

(** C32: decision_variable(rows, cols) registers rows * cols new, distinct variables with value zero after the existing
    ones; entry (i, j) of the matrix shows number i * cols + j of them; nothing that existed changes. *)
Theorem C32_decision_variable :
  forall l sp qs p out rows cols, spec_run l spec_empty = Some (sp, qs) -> prun l (prog_empty R_ops) = Ok (p, out) ->
    exists p' ds ms, pstep (PDecision rows cols) p = Ok (p', []) /\ p_user p' = p_user p ++ ms /\ registers p p' ds /\ untouched p p' /\
      length ds = rows * cols /\ length ms = rows * cols /\
      forall i j, i < rows -> j < cols -> slot_node p' (nth (i * cols + j) ms 0) = slot_node p' (nth (i * cols + j) ds 0).
Proof. exact c32_decision. Qed.
Print Assumptions C32_decision_variable.

(** C32: symmetric_decision_variable(n) registers n (n + 1) / 2; entries (i, j) and (j, i) show the same one, and
    entries of different unordered index pairs different ones ([sym_index] numbers the lower triangle row by row). *)
Theorem C32_symmetric_decision_variable :
  forall l sp qs p out n, spec_run l spec_empty = Some (sp, qs) -> prun l (prog_empty R_ops) = Ok (p, out) ->
    exists p' ds ms, pstep (PSymmetric n) p = Ok (p', []) /\ p_user p' = p_user p ++ ms /\ registers p p' ds /\ untouched p p' /\
      length ds = n * (n + 1) / 2 /\ length ms = n * n /\
      (forall i j, i < n -> j < n -> slot_node p' (nth (i * n + j) ms 0) = slot_node p' (nth (sym_index i j) ds 0)) /\
      forall i j i' j', i < n -> j < n -> i' < n -> j' < n ->
        (slot_node p' (nth (i * n + j) ms 0) = slot_node p' (nth (i' * n + j') ms 0) <-> (i = i' /\ j = j') \/ (i = j' /\ j = i')).
Proof. exact c32_symmetric2. Qed.
Print Assumptions C32_symmetric_decision_variable.

(** A program with both kinds of decision variables, broadcasting, a constraint object and a conversion to bool. *)
Definition ex_prog : list (pop R_ops) :=
  [PDecision 2 2; PSymmetric 2; PH (HSet (S := R_ops) 0 3%R); PCompare CLe (OVars 2 2 [0; 1; 2; 3]) (ONum (S := R_ops) 5%R); PBool 0;
   PBounds (ONum (S := R_ops) 0%R) (OVar 5) (OVar 6); PSubject 0; PMaximize 1; PH (HValue 0)].
Example C31_hypotheses_met : exists sp, exists qs, spec_run ex_prog spec_empty = Some (sp, qs) /\ length qs = 2 /\
  sp_ineqs sp = map (fun k => mkRel CLe (XVar k) (XConst 5)) [0; 1; 2; 3] /\
  map snd (sp_cons sp) = [sp_ineqs sp; [mkRel CLe (XConst 0) (XVar 5); mkRel CLe (XVar 5) (XVar 5)]] /\ sp_dec sp = [0; 1; 2; 3; 4; 5; 6].
Proof. eexists _, _. split; [reflexivity|]. repeat split. Qed.
Example C31_mismatch_met : exists sp, exists qs, spec_run ex_prog spec_empty = Some (sp, qs) /\
  let a := OVars (S := R_ops) 2 2 [0; 1; 2; 3] in let b := OVars (S := R_ops) 1 4 [4; 5; 6; 7] in
  owf (length (se_exp (sp_se sp))) a = true /\ owf (length (se_exp (sp_se sp))) b = true /\ common_shape a b = None.
Proof. eexists _, _. split; [reflexivity|]. repeat split. Qed.
