(** C16-C20: evaluation order, value(), simplification. *)
From Coq Require Import ZArith Reals List Bool Arith Lia Lra.
From Verif Require Import Base ExprModel GraphSpec GraphProofs ExprInv VarModel VarReach VarProofs ExprReal MathSpec
  MathProofs VarSpec HistProofs ExprXR XRProofs ConstProofs GraphPropsAux.
Import ListNotations.
Local Open Scope nat_scope.

(** C16: for every finite acyclic graph and every non-constant root, sorting terminates, lists every
    reachable node exactly once with users before operands, and restores all scratch data. *)
Theorem C16_topological_sort :
  forall (S : sops) (s : st S) (r : nat) (nd : node),
    acyclic_nodes (st_nodes s) -> (forall n, st_scr s n = (-1)%Z) ->
    nth_error (st_nodes s) r = Some nd -> n_type nd <> CONSTANT ->
    exists l s', topological_sort (Some r) s = Ok (l, s') /\ topological (st_nodes s) r l /\
      st_nodes s' = st_nodes s /\ st_val s' = st_val s /\ st_adj s' = st_adj s /\ st_adje s' = st_adje s /\
      (forall n, st_scr s' n = (-1)%Z).
Proof. exact c16_sort. Qed.
Print Assumptions C16_topological_sort.

(** The graphs user programs build meet those hypotheses, at every point of every program. *)
Theorem C16_reachable_graphs :
  forall (S : sops) (e : henv) (s : st S), hreach e s ->
    acyclic_nodes (st_nodes s) /\ (forall n, st_scr s n = (-1)%Z).
Proof. exact c16_reach. Qed.
Print Assumptions C16_reachable_graphs.

Example C16_example : exists e s nd, hreach (S := R_ops) e s /\ nth_error (st_nodes s) 2 = Some nd /\
  n_type nd <> CONSTANT /\ args (st_nodes s) 2 = [1; 0] /\ args (st_nodes s) 1 = [0].
Proof. exact c16_ex. Qed.

(** C17: value() evaluates the expression graph on the stored values of its leaves, for every scalar type. *)
Theorem C17_value_is_evaluation :
  forall (S : sops) (e : henv) (s : st S) i v n, hreach e s -> nth_error e i = Some v -> v_expr v = Some n ->
    exists x v' s', var_value v s = Ok ((x, v'), s') /\ Ev (st_nodes s) (st_val s) n x.
Proof. exact c17_eval. Qed.
Print Assumptions C17_value_is_evaluation.

(** C17/C18 at the level of what the user wrote: along any program, every value() returns the mathematical
    value of the expression at the most recently set point, wherever it is defined.
    Missing from the full claim: expressions containing 0 to the power 0 ([answers] excludes them). *)
Theorem C17_value_of_user_expression_partial :
  forall (l : list (hop R_ops)) se qs, srun l se_empty = Some (se, qs) ->
    exists e s out, hrun l [] (st_empty R_ops) = Ok (e, s, out) /\ Forall2 answers qs out.
Proof. exact c17_user. Qed.
Print Assumptions C17_value_of_user_expression_partial.

(** pow(0, 0) has the value 1; the constant expression has the value 0. *)
Theorem C17_value_of_user_expression_refuted :
  exists (l : list (hop R_ops)) se x rho v0 v, srun l se_empty = Some (se, [(x, rho)]) /\
    XEv rho x v0 /\ observes l [v] /\ v <> v0.
Proof. exact c17_ref. Qed.
Print Assumptions C17_value_of_user_expression_refuted.

(** x = 2, y = 3: sin(x) * y + x * 1, then x = 5. *)
Example C17_example :
  let l : list (hop R_ops) :=
    [HNew; HNew; HUn USin 0; HBin BMul 2 1; HConst (1%R : R_ops); HBin BMul 0 4; HBin BAdd 3 5;
     HSet 0 (2%R : R_ops); HSet 1 (3%R : R_ops); HValue 6; HSet 0 (5%R : R_ops); HValue 6] in
  exists se x rho rho', srun l se_empty = Some (se, [(x, rho); (x, rho')]) /\
    no_pow00 rho x /\ XEv rho x (sin 2 * 3 + 2 * 1)%R /\ XEv rho' x (sin 5 * 3 + 5 * 1)%R.
Proof. exact c17_ex. Qed.

(** C18: whatever statements came before (including set_value on intermediate results and value() calls
    that filled caches), value() evaluates the expression on the values its leaves have now. *)
Theorem C18_value_is_fresh :
  forall (S : sops) (e : henv) (s : st S) i e' s' out,
    hreach e s -> i < length e -> hstep (HValue i) e s = Ok (e', s', out) ->
    exists v n x, nth_error e i = Some v /\ v_expr v = Some n /\ out = [x] /\ Ev (st_nodes s) (st_val s) n x.
Proof. exact c18_fresh. Qed.
Print Assumptions C18_value_is_fresh.

(** The value a leaf has is the one last given by set_value: no other statement changes it. *)
Theorem C18_only_set_value_changes_leaves :
  forall (S : sops) (o : hop S) (e : henv) (s : st S) e' s' out,
    hreach e s -> in_scope (length e) o -> hstep o e s = Ok (e', s', out) ->
    match o with
    | HSet i x => exists v n, nth_error e i = Some v /\ v_expr v = Some n /\ st_nodes s' = st_nodes s /\
                    forall m, st_val s' m = if Nat.eqb m n then x else st_val s m
    | _ => forall n, is_kconst (st_nodes s) n \/ is_kvar (st_nodes s) n -> st_val s' n = st_val s n
    end.
Proof. exact c18_frame. Qed.
Print Assumptions C18_only_set_value_changes_leaves.

(** No statement fails, so these theorems speak about every program. *)
Theorem C18_statements_succeed :
  forall (S : sops) (o : hop S) (e : henv) (s : st S), hreach e s -> in_scope (length e) o ->
    exists e' s' out, hstep o e s = Ok (e', s', out).
Proof. exact c18_total. Qed.
Print Assumptions C18_statements_succeed.

Example C18_example : exists e s v, hreach (S := R_ops) e s /\ nth_error e 1 = Some v /\ v_init v = true /\
  v_graph v = [1; 0] /\ st_val s 0 = 7%R /\ hstep (HValue 1) e s <> UB.
Proof. exact c18_ex. Qed.

(** C19: in any graph a program can build, applying an operator gives a node whose value, for all values of
    the decision variables, is the mathematical result.  Missing: pow at base 0 and exponent 0. *)
Theorem C19_simplify_unary :
  forall (e : henv) (s : st R_ops) u a, hreach e s -> a < length (st_nodes s) ->
    exists p s', e_un u (Some a) s = Ok (Some p, s') /\
      forall lv x v, agrees s' lv -> Ev (st_nodes s) lv a x -> math_un u x v -> Ev (st_nodes s') lv p v.
Proof. exact c19_un. Qed.
Print Assumptions C19_simplify_unary.

Theorem C19_simplify_binary_partial :
  forall (e : henv) (s : st R_ops) b l r, hreach e s -> l < length (st_nodes s) -> r < length (st_nodes s) ->
    exists p s', e_bin b (Some l) (Some r) s = Ok (Some p, s') /\
      forall lv x y v, agrees s' lv -> Ev (st_nodes s) lv l x -> Ev (st_nodes s) lv r y -> math_bin b x y v ->
        ~ (b = BPow /\ x = 0%R /\ y = 0%R) -> Ev (st_nodes s') lv p v.
Proof. exact c19_bin. Qed.
Print Assumptions C19_simplify_binary_partial.

(** ... and pow(0, 0) is wrong even inside larger expressions: pow(0 * x, y) at y = 0. *)
Theorem C19_simplify_binary_refuted :
  exists (l : list (hop R_ops)) se rho x v0 v, srun l se_empty = Some (se, [(x, rho)]) /\
    XEv rho x v0 /\ observes l [v] /\ v <> v0 /\ length (se_exp se) = 5.
Proof. exact c19_ref. Qed.
Print Assumptions C19_simplify_binary_refuted.

Example C19_example : math_un ULog (exp 3) 3 /\ math_bin BPow (-2) 3 (-8) /\ math_bin BDiv 1 4 (1 / 4).
Proof. exact c19_ex. Qed.

(** C20: with IEEE special values, folding an operation on constants gives the floating-point result unless
    the operands are in the listed exceptions (log 0, 0 * inf, 0 * NaN, 0 / 0, 0 / NaN, pow(0, p) for p <= 0). *)
Theorem C20_fold_unary_partial :
  forall u (c : X_ops) e (s : st X_ops), hreach e s -> ~ ((u = ULog \/ u = ULog10) /\ c = Fin 0) ->
    exists e' s', hrun [HConst c; HUn u (length e); HValue (S (length e))] e s
                  = Ok (e', s', [un_value (S := X_ops) u c]).
Proof. exact c20_un. Qed.
Print Assumptions C20_fold_unary_partial.

Theorem C20_fold_binary_partial :
  forall b (c d : X_ops) e (s : st X_ops), hreach e s -> ~ xr_bad b c d ->
    exists e' s', hrun [HConst c; HConst d; HBin b (length e) (S (length e)); HValue (S (S (length e)))] e s
                  = Ok (e', s', [bin_value (S := X_ops) b c d]).
Proof. exact c20_bin. Qed.
Print Assumptions C20_fold_binary_partial.

(** Every listed exception is a real deviation. *)
Theorem C20_fold_refuted :
  (forall u, u = ULog \/ u = ULog10 ->
     observes [HConst (Fin 0 : X_ops); HUn u 0; HValue 1] [Fin 0 : X_ops] /\ un_value (S := X_ops) u (Fin 0) = MInf) /\
  (forall b d, b = BDiv \/ b = BMul \/ b = BPow -> xr_bad b (Fin 0) d ->
     observes [HConst (Fin 0 : X_ops); HConst (d : X_ops); HBin b 0 1; HValue 2] [Fin 0 : X_ops] /\
     bin_value (S := X_ops) b (Fin 0) d <> Fin 0) /\
  (xr_bad BDiv (Fin 0) (Fin 0) /\ xr_bad BMul (Fin 0) PInf /\ xr_bad BPow (Fin 0) (Fin 0) /\ xr_bad BPow (Fin 0) (Fin (-1))).
Proof. exact c20_ref. Qed.
Print Assumptions C20_fold_refuted.

Example C20_example : ~ xr_bad BDiv (Fin 1) (Fin 0) /\ bin_value (S := X_ops) BDiv (Fin 1) (Fin 0) = PInf /\
  ~ xr_bad BMul PInf (Fin (-2)) /\ bin_value (S := X_ops) BMul PInf (Fin (-2)) = MInf.
Proof. exact c20_ex. Qed.
