(** The decision variables while solve() runs, callbacks that read them, and callbacks that throw
    (include/sleipnir/optimization/problem.hpp 281-679 and solver/).

    The functions solve() builds for the solvers assign the point to the decision variables before they evaluate
    (x_ad.set_value(x), problem.hpp 390-657), so a callback that calls value() on a decision variable finds the point of
    the latest evaluation.  [list S] is what the decision variables hold.  Simplification: what the line searches leave in
    them, at the trial points, is any value ([left], a function of the state); a callback does not assign to decision
    variables itself. *)
From Coq Require Import ZArith List Bool.
From Verif Require Import Base ExprModel ExprXR VarModel NumModel UtilModel KktModel FilterModel ExitModel SolverModel NewtonModel SqpModel IpmModel RestoreModel ProblemModel ProbSolveModel.
Import ListNotations.

(** What a call of a callback comes to: it returns false or true, or an exception leaves it. *)
Inductive answer := AGo | AStop | AThrow.
Definition answer_of (b : bool) : answer := if b then AStop else AGo.

Section Cb.
Context {S : nops}.
Notation "0" := (s_ofZ S 0).
Notation "1" := (s_ofZ S 1).
Infix "*" := (s_mul S).
Infix "-" := (s_sub S).
Infix "<?" := (s_ltb S).

(** A callback sees the IterationInfo and the decision variables. *)
Definition tcallback (U : Type) := info S -> list S -> U -> U * answer.
(** newton.hpp 173-178, sqp.hpp 280-285, interior_point.hpp 413-418. *)
Fixpoint run_t {U} (cbs : list (tcallback U)) (i : info S) (cur : list S) (u : U) : U * answer :=
  match cbs with
  | [] => (u, AGo)
  | cb :: cbs => let '(u, a) := cb i cur u in match a with AGo => run_t cbs i cur u | _ => (u, a) end
  end.

(** A computation ends, or an exception leaves it with the decision variables holding [cur]. *)
Inductive res (U A : Type) := Done (a : A) | Thrown (u : U) (cur : list S).
Arguments Done {U A}. Arguments Thrown {U A}.
Definition rbind {U A B} (m : outcome (res U A)) (f : A -> outcome (res U B)) : outcome (res U B) :=
  let* r := m in match r with Done a => f a | Thrown u cur => Ok (Thrown u cur) end.
(** A computation no callback is part of (none of the lines that call back). *)
Definition rdone {U A} (m : outcome A) : outcome (res U A) := let* a := m in Ok (Done a).

(** Evaluations at [x] one after the other: those which go through the user's problem assign its first [n] entries. *)
Definition evals (n : nat) (x : list S) (through : list bool) (cur : list S) : list S :=
  fold_left (fun cur (b : bool) => if b then firstn n x else cur) through cur.
(** Which functions of a problem go through the user's: all for the user's own problem. *)
Record touches := mkTouch { t_n : nat; t_f : bool; t_g : bool; t_H : bool; t_ce : bool; t_Ae : bool; t_ci : bool; t_Ai : bool }.
Definition touch_all (n : nat) : touches := mkTouch n true true true true true true true.
(** feasibility_restoration.hpp 187-302: the cost, its gradient, the bounds and their Jacobian do not. *)
Definition touch_fr_sqp (n : nat) : touches := mkTouch n false false true true true false false.
(** feasibility_restoration.hpp 436-594. *)
Definition touch_fr_ipm (n : nat) : touches := mkTouch n false false true true true true true.

Fixpoint drive_t {U St} (err : St -> S) (tol : S) (body : St -> list S -> outcome (res U (pass (St * list S)))) (fuel : nat) (st : St) (cur : list S)
  : outcome (res U (status * St)) :=
  match fuel with
  | O => OutOfFuel
  | Datatypes.S fuel =>
      if tol <? err st then
        rbind (body st cur) (fun r => match r with Exit s (st, _) => Ok (Done (s, st)) | Next (st, cur) => drive_t err tol body fuel st cur end)
      else Ok (Done (SUCCESS, st))
  end.
(** One pass of a solver loop (newton.hpp 161, sqp.hpp 259, interior_point.hpp 382), with what the decision variables hold. *)
Definition with_cur {St} (p : pass St) (cur : list S) : pass (St * list S) :=
  match p with Exit s st => Exit s (st, cur) | Next st => Next (st, cur) end.

Section Solvers.
Variables (E : env S) (o : options S).

Section Newton.
Context {U : Type}.
Variables (P : nprob S) (cbs : list (tcallback U)) (left : nstate E (U := U) -> list S).
(** newton.hpp 161-287. *)
Definition newton_body_t (fuel : nat) (start : S) (st : nstate E (U := U)) (cur : list S) : outcome (res U (pass (nstate E (U := U) * list S))) :=
  if diverging (n_x E st) then Ok (Done (Exit DIVERGING_ITERATES (st, cur)))
  else
    let '(u, a) := run_t cbs (newton_info E st) cur (n_u E st) in
    match a with
    | AThrow => Ok (Thrown u cur)
    | AStop => Ok (Done (Exit CALLBACK_REQUESTED_STOP (n_set E st (n_flt E st) u (n_ls E st), cur)))
    | AGo =>
      let ls := fst (ls_compute (e_lin E) (n_ls E st) (mkKkt (n_H E st) [])) in
      let p := ls_solve (e_lin E) ls (vneg (n_g E st)) in
      let d := vdot (n_g E st) p in
      let* r := newton_search P fuel (n_x E st) (n_f E st) (n_g E st) p d 1 (n_flt E st) in
      match r with
      | NFail flt => Ok (Done (Exit LINE_SEARCH_FAILED (n_set E st flt u ls, left st)))
      | NStep x f _ flt =>
          let g := np_g P x in
          let it := (n_it E st + 1)%Z in
          let '(l, clk) := limits o (e_clock E) start it (n_clk E st) in
          Ok (Done (with_cur (SolverModel.finish l (mkN E x f g (np_H P x) (unscaled_newton (np_sc P) g) flt it u ls clk)) (evals (np_n P) x [true; true] (left st))))
      end
    end.
(** newton.hpp 50-290. *)
Definition newton_t (fuel : nat) (x : list S) (u : U) (clk : nat) (cur : list S) : outcome (res U (status * nstate E)) :=
  let st := newton_init E P x u clk in
  oassert (vec_dim (np_n P) (n_g E st) && mat_dims (np_n P) (np_n P) (n_H E st))
    (if negb (s_finite S (n_f E st)) || negb (all_fin (n_g E st)) || negb (mat_fin (n_H E st))
     then Ok (Done (NONFINITE_INITIAL_GUESS, st))
     else drive_t (n_E E) (o_tol o) (newton_body_t fuel (e_clock E clk)) fuel st (evals (np_n P) x [true; true; true] cur)).
End Newton.

Section Ipm.
Context {U : Type}.
Variables (P : iprob S) (w : touches) (cbs : list (tcallback U)) (left : istate E (U := U) -> list S).
Variable restore : option (list (tcallback (U * filter S)) -> list S -> list S -> list S -> list S -> S -> Z -> U * filter S -> nat -> list S ->
  outcome (res (U * filter S) (status * irestored S U))).
(** sqp.hpp 518-520, interior_point.hpp 735-737. *)
Definition lift_t (cb : tcallback U) : tcallback (U * filter S) := fun i cur u => let '(v, a) := cb i cur (fst u) in ((v, snd u), a).
(** sqp.hpp 521-535, interior_point.hpp 738-756: the last callback; it evaluates where the decision variables already are. *)
Definition own_t {V} (cb : callback S V) : tcallback V := fun i _ u => let '(v, b) := cb i u in (v, answer_of b).
Definition forget {A} (m : outcome (res (U * filter S) A)) : outcome (res U A) :=
  let* r := m in match r with Done a => Ok (Done a) | Thrown u cur => Ok (Thrown (fst u) cur) end.
(** interior_point.hpp 382-863. *)
Definition ipm_body_t (fuel : nat) (start : S) (st : istate E (U := U)) (cur : list S) : outcome (res U (pass (istate E (U := U) * list S))) :=
  let stay s st := Ok (Done (Exit s (st, cur))) in
  let next x (m : outcome (pass (istate E (U := U)))) := let* p := m in Ok (Done (with_cur p (evals (t_n w) x [t_Ae w; t_Ai w; t_g w; t_H w] (left st)))) in
  if eq_infeasible (ip_n P) (is_Ae E st) (is_ce E st) then stay LOCALLY_INFEASIBLE st
  else if ineq_infeasible (ip_n P) (is_Ai E st) (is_ci E st) then stay LOCALLY_INFEASIBLE st
  else if diverging (is_x E st) || diverging (is_s E st) then stay DIVERGING_ITERATES st
  else
    let '(u, a) := run_t cbs (ipm_info E st) cur (is_u E st) in
    match a with
    | AThrow => Ok (Thrown u cur)
    | AStop => stay CALLBACK_REQUESTED_STOP (i_quit E st (is_flt E st) (is_cnt E st) u (is_ls E st))
    | AGo =>
      let '(ls, ok) := ls_compute (e_lin E) (is_ls E st) (ipm_lhs E P (is_H E st) (ipm_ctx E st (is_ls E st))) in
      if negb ok then stay FACTORIZATION_FAILED (i_quit E st (is_flt E st) (is_cnt E st) u ls)
      else
        let c := ipm_ctx E st ls in
        let d := ipm_step E c (ipm_rhs E P c) (vsub (is_ci E st) (is_s E st)) in
        let amax := ftb (is_s E st) (p_s d) (is_tau E st) in
        let az := ftb (is_z E st) (p_z d) (is_tau E st) in
        let dphi := vdot (is_g E st) (p_x d) - is_mu E st * vdot (vinv (is_s E st)) (p_s d) in
        let* r := ipm_search E P o fuel c d dphi amax az amax (is_flt E st) (is_cnt E st) in
        match (if amax <? amin then None else if_t r) with
        | None =>
            match restore with
            | None => stay FEASIBILITY_RESTORATION_FAILED (i_quit E st (if_flt r) (if_cnt r) u ls)
            | Some restore =>
                let init := fe_ipm (ip_f P (is_x E st)) (is_s E st) (is_ce E st) (is_ci E st) (is_mu E st) in
                let cbs' := map lift_t cbs ++ [own_t (ipm_fr_callback P (U := U) (is_x E st) (is_s E st) (is_g E st) (is_mu E st) init (if_a r))] in
                rbind (forget (restore cbs' (is_x E st) (is_s E st) (is_y E st) (is_z E st) (is_mu E st) (is_it E st) (u, if_flt r) (is_clk E st) (left st)))
                  (fun '(status, q) =>
                if is_success status then
                  next (ir_x q) (ipm_end E P o fuel start (ir_x q) (ir_s q) (ir_y q) (ir_z q) (ip_f P (ir_x q)) (ip_ce P (ir_x q)) (ip_ci P (ir_x q))
                    (is_mu E st) (is_tau E st) (snd (ir_uf q)) (if_cnt r) (ir_it q) (fst (ir_uf q)) ls (ir_clk q))
                else stay status (i_set E st (ir_x q) (ir_s q) (ir_y q) (ir_z q) (snd (ir_uf q)) (if_cnt r) (ir_it q)
                                            (fst (ir_uf q)) ls (ir_clk q)))
            end
        | Some t =>
            let cnt := if s_eqb S (if_a r) amax then 0%Z else if_cnt r in
            let* z := clamp_zs (is_mu E st) (it_s t) (it_z t) in
            next (it_x t) (ipm_end E P o fuel start (it_x t) (it_s t) (it_y t) z (it_f t) (it_ce t) (it_ci t)
              (is_mu E st) (is_tau E st) (if_flt r) cnt (is_it E st) u ls (is_clk E st))
        end
    end.
(** interior_point.hpp 123-866. *)
Definition ipm_from_t (fuel : nat) (infr : bool) (x s y z : list S) (mu : S) (it : Z) (u : U) (clk : nat) (cur : list S) : outcome (res U (status * istate E)) :=
  let st := ipm_init E P infr x s y z mu it u clk in
  oassert (vec_dim (ip_n P) (is_g E st) && mat_dims (ip_n P) (ip_n P) (is_H E st) && vec_dim (ip_me P) (is_ce E st)
           && mat_dims (ip_me P) (ip_n P) (is_Ae E st) && vec_dim (ip_mi P) (is_ci E st) && mat_dims (ip_mi P) (ip_n P) (is_Ai E st))
    (if Nat.ltb (ip_n P) (ip_me P) then Ok (Done (TOO_FEW_DOFS, st))
     else if negb (s_finite S (is_f E st)) || negb (all_fin (is_g E st)) || negb (mat_fin (is_H E st)) || negb (all_fin (is_ce E st))
             || negb (mat_fin (is_Ae E st)) || negb (all_fin (is_ci E st)) || negb (mat_fin (is_Ai E st))
     then Ok (Done (NONFINITE_INITIAL_GUESS, st))
     else drive_t (is_E E) (o_tol o) (ipm_body_t fuel (e_clock E clk)) fuel st
            (evals (t_n w) x [t_f w; t_g w; t_H w; t_ce w; t_Ae w; t_ci w; t_Ai w] cur)).
End Ipm.

(** feasibility_restoration.hpp 347-628. *)
Definition ipm_restore_t {U} (left : istate E (U := U * filter S) -> list S) (fuel : nat) (P : iprob S) (cbs : list (tcallback (U * filter S))) (x s y z : list S) (mu : S) (it : Z)
    (uf : U * filter S) (clk : nat) (cur : list S) : outcome (res (U * filter S) (status * irestored S U)) :=
  let cur := firstn (ip_n P) x in                                                   (* 396-397: c_e(x), c_i(x) *)
  let '(frx, frs, frz, frmu) := fr_ipm_start P x s mu in
  rbind (ipm_from_t (fr_ipm_prob P x (s_sqrt S frmu)) (touch_fr_ipm (ip_n P)) cbs left None fuel true frx frs (repeat 0 (length (ip_ce P x))) frz frmu it uf clk cur)
    (fun '(status, st) =>
  let x := segment (is_x E st) 0 (length x) in
  let s := segment (is_s E st) 0 (length s) in
  let* (y, z) :=
    match status with
    | CALLBACK_REQUESTED_STOP => estimate_ipm (e_est E) (ip_g P x) (ip_Ae P x) (ip_Ai P x) s mu
    | _ => Ok (y, z)
    end in
  Ok (Done (fr_status status, mkIR x s y z (is_it E st) (is_u E st) (is_clk E st)))).

Section Sqp.
Context {U : Type}.
Variables (P : sprob S) (cbs : list (tcallback U)) (left : sstate E (U := U) -> list S).
Variable restore : list (tcallback (U * filter S)) -> list S -> list S -> Z -> U * filter S -> nat -> list S ->
  outcome (res (U * filter S) (status * list S * list S * Z * (U * filter S) * nat)).
(** sqp.hpp 259-593. *)
Definition sqp_body_t (fuel : nat) (start : S) (st : sstate E (U := U)) (cur : list S) : outcome (res U (pass (sstate E (U := U) * list S))) :=
  let stay s st := Ok (Done (Exit s (st, cur))) in
  let next x p := Ok (Done (with_cur p (evals (sp_n P) x [true; true; true] (left st)))) in
  if eq_infeasible (sp_n P) (s_Ae E st) (s_ce E st) then stay LOCALLY_INFEASIBLE st
  else if diverging (s_x E st) then stay DIVERGING_ITERATES st
  else
    let '(u, a) := run_t cbs (sqp_info E st) cur (s_u E st) in
    match a with
    | AThrow => Ok (Thrown u cur)
    | AStop => stay CALLBACK_REQUESTED_STOP (s_set E st (s_x E st) (s_y E st) (s_flt E st) (s_cnt E st) (s_it E st) u (s_ls E st) (s_clk E st))
    | AGo =>
      let '(ls, ok) := ls_compute (e_lin E) (s_ls E st) (mkKkt (s_H E st) (s_Ae E st)) in
      if negb ok then stay FACTORIZATION_FAILED (s_set E st (s_x E st) (s_y E st) (s_flt E st) (s_cnt E st) (s_it E st) u ls (s_clk E st))
      else
        let d := sqp_dir E ls (length (s_x E st)) (sqp_rhs E P st) in
        let* r := sqp_search E P fuel (sqp_ctx E P st ls d) d 1 (s_flt E st) (s_cnt E st) in
        match sf_t r with
        | None =>
            let init := fe_sqp (sp_f P (s_x E st)) (s_ce E st) in
            let cbs' := map lift_t cbs ++ [own_t (sqp_fr_callback P (U := U) (s_x E st) (s_g E st) init (sf_a r))] in
            rbind (forget (restore cbs' (s_x E st) (s_y E st) (s_it E st) (u, sf_flt r) (s_clk E st) (left st)))
              (fun '(((((status, x), y), it), uf), clk) =>
            if is_success status then next x (sqp_end E P o start x y (sp_f P x) (sp_ce P x) (snd uf) (sf_cnt r) it (fst uf) ls clk)
            else stay status (s_set E st x y (snd uf) (sf_cnt r) it (fst uf) ls clk))
        | Some t =>
            let cnt := if s_eqb S (sf_a r) 1 then 0%Z else sf_cnt r in
            next (st_x t) (sqp_end E P o start (st_x t) (st_y t) (st_f t) (st_ce t) (sf_flt r) cnt (s_it E st) u ls (s_clk E st))
        end
    end.
(** sqp.hpp 56-596. *)
Definition sqp_t (fuel : nat) (x : list S) (u : U) (clk : nat) (cur : list S) : outcome (res U (status * sstate E)) :=
  let st := sqp_init E P x (repeat 0 (sp_me P)) u clk in
  oassert (vec_dim (sp_n P) (s_g E st) && mat_dims (sp_n P) (sp_n P) (s_H E st) && vec_dim (sp_me P) (s_ce E st)
           && mat_dims (sp_me P) (sp_n P) (s_Ae E st))
    (if Nat.ltb (sp_n P) (sp_me P) then Ok (Done (TOO_FEW_DOFS, st))
     else if negb (s_finite S (s_f E st)) || negb (all_fin (s_g E st)) || negb (mat_fin (s_H E st)) || negb (all_fin (s_ce E st))
             || negb (mat_fin (s_Ae E st))
     then Ok (Done (NONFINITE_INITIAL_GUESS, st))
     else drive_t (s_E E) (o_tol o) (sqp_body_t fuel (e_clock E clk)) fuel st (evals (sp_n P) x [true; true; true; true; true] cur)).
End Sqp.
(** feasibility_restoration.hpp 118-325. *)
Definition sqp_restore_t {U} (left : istate E (U := U * filter S) -> list S) (fuel : nat) (P : sprob S) (cbs : list (tcallback (U * filter S))) (x y : list S) (it : Z)
    (uf : U * filter S) (clk : nat) (cur : list S) : outcome (res (U * filter S) (status * list S * list S * Z * (U * filter S) * nat)) :=
  let cur := firstn (sp_n P) x in                                                   (* 156: c_e(x) *)
  let '(frx, frz, mu) := fr_sqp_start o P x in
  rbind (ipm_from_t (fr_sqp_prob P x (s_sqrt S mu)) (touch_fr_sqp (sp_n P)) cbs left None fuel true frx (repeat 1 (2 * sp_me P)) (repeat 0 (sp_me P)) frz mu it uf clk cur)
    (fun '(status, st) =>
  let x := segment (is_x E st) 0 (length x) in
  let y := match status with CALLBACK_REQUESTED_STOP => estimate_sqp (e_est E) (sp_g P x) (sp_Ae P x) | _ => y end in
  Ok (Done (fr_status status, x, y, is_it E st, is_u E st, is_clk E st))).

(** What the line searches leave in the decision variables: of Newton's method, SQP, the interior-point method, and the
    interior-point method inside feasibility restoration. *)
Record leaves (U : Type) := mkLeft {
  l_newton : nstate E (U := U) -> list S; l_sqp : sstate E (U := U) -> list S; l_ipm : istate E (U := U) -> list S; l_fr : istate E (U := U * filter S) -> list S }.
Definition sqp_solve_t {U} (l : leaves U) (fuel : nat) (P : sprob S) (cbs : list (tcallback U)) (x : list S) (u : U) (clk : nat) (cur : list S) : outcome (res U (status * sstate E)) :=
  sqp_t P cbs (l_sqp _ l) (sqp_restore_t (l_fr _ l) fuel P) fuel x u clk cur.
(** interior_point.hpp 62-90: the call as Problem::solve() makes it. *)
Definition ipm_solve_t {U} (l : leaves U) (fuel : nat) (P : iprob S) (cbs : list (tcallback U)) (x : list S) (u : U) (clk : nat) (cur : list S) : outcome (res U (status * istate E)) :=
  ipm_from_t P (touch_all (ip_n P)) cbs (l_ipm _ l) (Some (ipm_restore_t (l_fr _ l) fuel P)) fuel false x (repeat 1 (ip_mi P)) (repeat 0 (ip_me P)) (repeat 1 (ip_mi P)) (lit 1 1 * sc_f (ip_sc P)) 0%Z u clk cur.
End Solvers.
End Cb.
Arguments tcallback : clear implicits.
Arguments Done {S U A}. Arguments Thrown {S U A}.
Arguments leaves {S}.

(** How solve() ends: it returns a status, or the exception of a callback leaves it. *)
Inductive solved (U : Type) := Returned (st : status) (p : prog X_ops) | Raised (u : U) (p : prog X_ops).
Arguments Returned {U}. Arguments Raised {U}.
Definition ending {U A} (p : prog X_ops) (x : A -> list XR) (m : outcome (res (S := Xn) U (status * A))) : outcome (solved U) :=
  let* r := m in
  match r with
  | Done (st, fin) => let* p := write_back p (x fin) in Ok (Returned st p)
  | Thrown u cur => let* p := write_back p cur in Ok (Raised u p)
  end.
(** problem.hpp 281-679; 388, 471, 616: x_ad.set_value(x). *)
Definition solve_t {U} (E : env Xn) (o : options Xn) (l : leaves E U) (fuel : nat) (cbs pcbs : list (tcallback Xn U)) (p : prog X_ops) (u : U) (clk : nat) : outcome (solved U) :=
  let* r := prepare p in
  let '(rn, x, p) := r in
  let all := cbs ++ pcbs in
  match rn with
  | RanNone => Ok (Returned SUCCESS p)
  | RanBounds => Ok (Returned GLOBALLY_INFEASIBLE p)
  | RanNewton P => ending p (n_x E) (newton_t E o P all (l_newton E U l) fuel x u clk x)
  | RanSqp P => ending p (s_x E) (sqp_solve_t E o l fuel P all x u clk x)
  | RanIpm P => ending p (is_x E) (ipm_solve_t E o l fuel P all x u clk x)
  end.
