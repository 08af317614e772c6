(** Model of include/sleipnir/optimization/solver/sqp.hpp. *)
From Coq Require Import ZArith List Bool.
From Verif Require Import Base ExprModel NumModel UtilModel KktModel FilterModel ExitModel SolverModel NewtonModel.
Import ListNotations.

Section Sqp.
Context {S : nops}.
Notation "0" := (s_ofZ S 0).
Notation "1" := (s_ofZ S 1).
Infix "*" := (s_mul S).
Infix "/" := (s_div S).
Infix "<?" := (s_ltb S).
Infix "<=?" := (s_leb S).

(** sqp_matrix_callbacks.hpp 18-184. *)
Record sprob := mkSP {
  sp_n : nat; sp_me : nat;
  sp_f : list S -> S; sp_g : list S -> list S;
  sp_H : list S -> list S -> mat (S := S); sp_Hc : list S -> list S -> mat (S := S);
  sp_ce : list S -> list S; sp_Ae : list S -> mat (S := S); sp_sc : scaling S }.

Variables (E : env S) (P : sprob) (o : options S).

(** 238. *)
Definition amin : S := lit 1 7.

(** 327-333: compute_step for a right-hand side. *)
Definition sqp_dir (ls : ls_t (e_lin E)) (nx : nat) (rhs : list S) : list S * list S :=
  let p := ls_solve (e_lin E) ls rhs in (firstn nx p, vneg (skipn nx p)).

(** A trial point: x, y, f(x), c_e(x). *)
Record strial := mkST { st_x : list S; st_y : list S; st_f : S; st_ce : list S }.
Definition sqp_trial (x y : list S) (a : S) (d : list S * list S) : strial :=
  let tx := vstep x a (fst d) in mkST tx (vstep y a (snd d)) (sp_f P tx) (sp_ce P tx).
Definition st_entry (t : strial) : fentry S := fe_sqp (st_f t) (st_ce t).

(** Everything the line search reads: the iterate, its filter entry, the directional derivative, the top of the
    right-hand side. *)
Record sctx := mkSX {
  sx_x : list S; sx_y : list S; sx_g : list S; sx_ce : list S; sx_Ae : mat (S := S);
  sx_cur : fentry S; sx_d : S; sx_ls : ls_t (e_lin E); sx_top : list S }.

(** 390-450: the second-order corrections; [k] of the five rounds are left.  Some trial when one is accepted. *)
Fixpoint sqp_soc (k : nat) (c : sctx) (a a_soc : S) (ce_soc tce : list S) (viol : S) (flt : filter S) : filter S * option strial :=
  match k with
  | O => (flt, None)
  | Datatypes.S k =>
      let ce_soc := vadd (vscale a_soc ce_soc) tce in
      let t := sqp_trial (sx_x c) (sx_y c) a_soc (sqp_dir (sx_ls c) (length (sx_x c)) (sx_top c ++ vneg ce_soc)) in
      let '(flt, ok) := try_add flt (sx_cur c) (st_entry t) (sx_d c) a in
      if ok then (flt, Some t)
      else
        let v := norm1 (st_ce t) in
        if lit 99 2 * viol <? v then (flt, None) else sqp_soc k c a a_soc ce_soc (st_ce t) v flt
  end.

(** What the line search leaves behind: an accepted trial point or nothing (feasibility restoration is to be called),
    the last step size, the filter and the full-step rejection counter. *)
Record sfound := mkSF { sf_t : option strial; sf_a : S; sf_flt : filter S; sf_cnt : Z }.

(** 469-472, interior_point.hpp 677-680. *)
Definition reset_filter (cnt : Z) (cur : fentry S) (flt : filter S) : bool :=
  Z.leb 4 cnt && (fe_viol cur / s_ofZ S 10 <? f_max flt) && f_flag flt.
(** 473-474. *)
Definition shrink_filter (flt : filter S) : filter S :=
  filter_reset (mkF (f_min flt) (f_max flt * lit 1 1) (f_entries flt) (f_flag flt)).

(** 345-505: the line search from step size [a] along [d]. *)
Fixpoint sqp_search (fuel : nat) (c : sctx) (d : list S * list S) (a : S) (flt : filter S) (cnt : Z) : outcome sfound :=
  match fuel with
  | O => OutOfFuel
  | Datatypes.S fuel =>
      let t := sqp_trial (sx_x c) (sx_y c) a d in
      if negb (s_finite S (st_f t)) || negb (all_fin (st_ce t)) then
        let a := halve a in
        if a <? amin then Ok (mkSF None a flt cnt) else sqp_search fuel c d a flt cnt
      else
        let '(flt, ok) := try_add flt (sx_cur c) (st_entry t) (sx_d c) a in
        if ok then Ok (mkSF (Some t) a flt cnt)
        else
          let next := norm1 (st_ce t) in
          let '(flt, soc) :=
            if s_eqb S a 1 && (norm1 (sx_ce c) <=? next) then sqp_soc 5 c a a (sx_ce c) (st_ce t) next flt else (flt, None) in
          match soc with
          | Some t => Ok (mkSF (Some t) a flt cnt)
          | None =>
              let cnt := if s_eqb S a 1 then (cnt + 1)%Z else cnt in
              if reset_filter cnt (sx_cur c) flt then sqp_search fuel c d a (shrink_filter flt) cnt
              else
                let a := halve a in
                if a <? amin then
                  let t := sqp_trial (sx_x c) (sx_y c) 1 d in
                  if kkt1_sqp (sp_n P) (sp_g P (st_x t)) (sp_Ae P (st_x t)) (st_ce t) (st_y t)
                     <=? lit 999 3 * kkt1_sqp (sp_n P) (sx_g c) (sx_Ae c) (sx_ce c) (sx_y c)
                  then Ok (mkSF (Some t) a flt cnt)
                  else Ok (mkSF None a flt cnt)
                else sqp_search fuel c d a flt cnt
          end
  end.

Context {U : Type}.
Variable cbs : list (callback S U).

(** 518-520, interior_point.hpp 735-737: the user's callbacks in the list handed to feasibility restoration; the
    state is the user's and the filter. *)
Definition lift_cb (cb : callback S U) : callback S (U * filter S) :=
  fun i u => let '(v, b) := cb i (fst u) in ((v, snd u), b).
(** 521-535: the callback that ends feasibility restoration. *)
Definition sqp_fr_callback (x g : list S) (init : fentry S) (a : S) : callback S (U * filter S) :=
  fun i u =>
    let tx := firstn (sp_n P) (i_x i) in
    let te := fe_sqp (sp_f P tx) (sp_ce P tx) in
    let d := vdot g (vsub tx x) in
    if fe_viol te <? lit 9 1 * fe_viol init then
      let '(flt, b) := try_add (snd u) init te d a in ((fst u, flt), b)
    else (u, false).

(** feasibility_restoration() for SQP: callbacks, x, y, iterations, their state, clock readings; returns the status
    and the new values. *)
Variable restore : list (callback S (U * filter S)) -> list S -> list S -> Z -> U * filter S -> nat ->
  outcome (status * list S * list S * Z * (U * filter S) * nat).

Record sstate := mkS {
  s_x : list S; s_y : list S; s_f : S; s_g : list S; s_H : mat (S := S); s_ce : list S; s_Ae : mat (S := S); s_E : S;
  s_flt : filter S; s_cnt : Z; s_it : Z; s_u : U; s_ls : ls_t (e_lin E); s_clk : nat }.

(** sqp.hpp 282: what callbacks are shown. *)
Definition sqp_info (st : sstate) : info S := mkInfo (s_it st) (s_x st) [] (s_y st) [] (s_g st) (s_H st) (s_Ae st) [].
(** Assignments to the local variables that survive an iteration. *)
Definition s_set (st : sstate) (x y : list S) (flt : filter S) (cnt it : Z) (u : U) (ls : ls_t (e_lin E)) (clk : nat) : sstate :=
  mkS x y (s_f st) (s_g st) (s_H st) (s_ce st) (s_Ae st) (s_E st) flt cnt it u ls clk.

(** 560-592: the end of an iteration at the new point. *)
Definition sqp_end (start : S) (x y : list S) (f : S) (ce : list S) (flt : filter S) (cnt it : Z) (u : U)
    (ls : ls_t (e_lin E)) (clk : nat) : pass sstate :=
  let Ae := sp_Ae P x in
  let g := sp_g P x in
  let it := (it + 1)%Z in
  let '(l, clk) := limits o (e_clock E) start it clk in
  finish l (mkS x y f g (sp_H P x y) ce Ae (unscaled_sqp (sp_sc P) (sp_n P) g Ae ce y) flt cnt it u ls clk).

(** 290-306, 341-342. *)
Definition sqp_ctx (st : sstate) (ls : ls_t (e_lin E)) (d : list S * list S) : sctx :=
  mkSX (s_x st) (s_y st) (s_g st) (s_ce st) (s_Ae st) (fe_sqp (s_f st) (s_ce st)) (vdot (s_g st) (fst d)) ls
       (vadd (vneg (s_g st)) (mtvec (sp_n P) (s_Ae st) (s_y st))).
Definition sqp_rhs (st : sstate) : list S :=
  vadd (vneg (s_g st)) (mtvec (sp_n P) (s_Ae st) (s_y st)) ++ vneg (s_ce st).

(** 259-593: one iteration. *)
Definition sqp_body (fuel : nat) (start : S) (st : sstate) : outcome (pass sstate) :=
  if eq_infeasible (sp_n P) (s_Ae st) (s_ce st) then Ok (Exit LOCALLY_INFEASIBLE st)
  else if diverging (s_x st) then Ok (Exit DIVERGING_ITERATES st)
  else
    let '(u, stop) := run_callbacks cbs (sqp_info st) (s_u st) in
    if stop then Ok (Exit CALLBACK_REQUESTED_STOP (s_set st (s_x st) (s_y st) (s_flt st) (s_cnt st) (s_it st) u (s_ls st) (s_clk st)))
    else
      let '(ls, ok) := ls_compute (e_lin E) (s_ls st) (mkKkt (s_H st) (s_Ae st)) in
      if negb ok then Ok (Exit FACTORIZATION_FAILED (s_set st (s_x st) (s_y st) (s_flt st) (s_cnt st) (s_it st) u ls (s_clk st)))
      else
        let d := sqp_dir ls (length (s_x st)) (sqp_rhs st) in
        let* r := sqp_search fuel (sqp_ctx st ls d) d 1 (s_flt st) (s_cnt st) in
        match sf_t r with
        | None =>
            let init := fe_sqp (sp_f P (s_x st)) (s_ce st) in
            let cbs' := map lift_cb cbs ++ [sqp_fr_callback (s_x st) (s_g st) init (sf_a r)] in
            let* (((((status, x), y), it), uf), clk) := restore cbs' (s_x st) (s_y st) (s_it st) (u, sf_flt r) (s_clk st) in
            if is_success status then Ok (sqp_end start x y (sp_f P x) (sp_ce P x) (snd uf) (sf_cnt r) it (fst uf) ls clk)
            else Ok (Exit status (s_set st x y (snd uf) (sf_cnt r) it (fst uf) ls clk))
        | Some t =>
            let cnt := if s_eqb S (sf_a r) 1 then 0%Z else sf_cnt r in
            Ok (sqp_end start (st_x t) (st_y t) (st_f t) (st_ce t) (sf_flt r) cnt (s_it st) u ls (s_clk st))
        end.

(** 187-257. *)
Definition sqp_init (x y : list S) (u : U) (clk : nat) : sstate :=
  let g := sp_g P x in
  let ce := sp_ce P x in
  let Ae := sp_Ae P x in
  mkS x y (sp_f P x) g (sp_H P x y) ce Ae (unscaled_sqp (sp_sc P) (sp_n P) g Ae ce y) (filter_new (norm1 ce)) 0%Z 0%Z u
      (ls_new (e_lin E) (sp_n P) (sp_me P) false) (Datatypes.S clk).

(** 91-596. *)
Definition sqp_from (fuel : nat) (x y : list S) (u : U) (clk : nat) : outcome (status * sstate) :=
  let st := sqp_init x y u clk in
  oassert (vec_dim (sp_n P) (s_g st) && mat_dims (sp_n P) (sp_n P) (s_H st) && vec_dim (sp_me P) (s_ce st)
           && mat_dims (sp_me P) (sp_n P) (s_Ae st))
    (if Nat.ltb (sp_n P) (sp_me P) then Ok (TOO_FEW_DOFS, st)
     else if negb (s_finite S (s_f st)) || negb (all_fin (s_g st)) || negb (mat_fin (s_H st)) || negb (all_fin (s_ce st))
             || negb (mat_fin (s_Ae st))
     then Ok (NONFINITE_INITIAL_GUESS, st)
     else drive s_E (o_tol o) (sqp_body fuel (e_clock E clk)) fuel st).

(** 56-66. *)
Definition sqp (fuel : nat) (x : list S) (u : U) (clk : nat) : outcome (status * sstate) :=
  sqp_from fuel x (repeat 0 (sp_me P)) u clk.

End Sqp.
Arguments sprob : clear implicits.
