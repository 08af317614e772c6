(** Model of include/sleipnir/optimization/solver/interior_point.hpp, without SLEIPNIR_ENABLE_BOUND_PROJECTION (off by
    default, CMakeLists.txt 34-38). *)
From Coq Require Import ZArith List Bool.
From Verif Require Import Base ExprModel NumModel UtilModel KktModel FilterModel ExitModel SolverModel NewtonModel SqpModel.
Import ListNotations.

Section Ipm.
Context {S : nops}.
Notation "0" := (s_ofZ S 0).
Notation "1" := (s_ofZ S 1).
Infix "+" := (s_add S).
Infix "-" := (s_sub S).
Infix "*" := (s_mul S).
Infix "/" := (s_div S).
Infix "<?" := (s_ltb S).
Infix "<=?" := (s_leb S).

(** interior_point_matrix_callbacks.hpp 18-250. *)
Record iprob := mkIP {
  ip_n : nat; ip_me : nat; ip_mi : nat;
  ip_f : list S -> S; ip_g : list S -> list S;
  ip_H : list S -> list S -> list S -> mat (S := S); ip_Hc : list S -> list S -> list S -> mat (S := S);
  ip_ce : list S -> list S; ip_Ae : list S -> mat (S := S);
  ip_ci : list S -> list S; ip_Ai : list S -> mat (S := S); ip_sc : scaling S }.

Variables (E : env S) (P : iprob) (o : options S).

(** 432-433: the lower triangle of A_i^T Sigma A_i, for Sigma = diag(sg). *)
Definition gram_lower (n : nat) (A : mat (S := S)) (sg : list S) : mat (S := S) :=
  map (fun j => map (fun k => if Nat.leb k j then vsum (map (fun p => nth j (fst p) 0 * snd p * nth k (fst p) 0) (combine A sg)) else 0)
                    (seq 0 n)) (seq 0 n).
Definition madd (A B : mat (S := S)) : mat (S := S) := map (fun p => vadd (fst p) (snd p)) (combine A B).

(** The iterate and the problem data at it, as seen by the linear system and the line search. *)
Record ictx := mkIX {
  ix_x : list S; ix_s : list S; ix_y : list S; ix_z : list S; ix_f : S; ix_g : list S; ix_ce : list S; ix_Ae : mat (S := S);
  ix_ci : list S; ix_Ai : mat (S := S); ix_mu : S; ix_tau : S; ix_ls : ls_t (e_lin E) }.

(** 426. *)
Definition sigma (s z : list S) : list S := vmul (vinv s) z.
(** 432-440. *)
Definition ipm_lhs (H : mat (S := S)) (c : ictx) : kkt S :=
  mkKkt (madd H (gram_lower (ip_n P) (ix_Ai c) (sigma (ix_s c) (ix_z c)))) (ix_Ae c).
(** 444-448. *)
Definition ipm_rhs (c : ictx) : list S :=
  vadd (vadd (vneg (ix_g c)) (mtvec (ip_n P) (ix_Ae c) (ix_y c)))
       (mtvec (ip_n P) (ix_Ai c)
          (vadd (vadd (vmul (vneg (sigma (ix_s c) (ix_z c))) (ix_ci c)) (vscale (ix_mu c) (vinv (ix_s c)))) (ix_z c)))
  ++ vneg (ix_ce c).
(** 613-616. *)
Definition ipm_rhs_soc (c : ictx) (ce_soc cis_soc : list S) : list S :=
  vadd (vadd (vneg (ix_g c)) (mtvec (ip_n P) (ix_Ae c) (ix_y c)))
       (mtvec (ip_n P) (ix_Ai c) (vsub (vscale (ix_mu c) (vinv (ix_s c))) (vmul (sigma (ix_s c) (ix_z c)) cis_soc)))
  ++ vneg ce_soc.

(** interior_point.hpp 140-150: Step. *)
Record istep := mkStep { p_x : list S; p_s : list S; p_y : list S; p_z : list S }.
(** 470-481. *)
Definition ipm_step (c : ictx) (rhs cis : list S) : istep :=
  let p := ls_solve (e_lin E) (ix_ls c) rhs in
  let px := firstn (length (ix_x c)) p in
  let ps := vadd cis (mvec (ix_Ai c) px) in
  mkStep px ps (vneg (skipn (length (ix_x c)) p))
         (vsub (vsub (vscale (ix_mu c) (vinv (ix_s c))) (ix_z c)) (vmul (sigma (ix_s c) (ix_z c)) ps)).

(** A trial point: x, s, y, z, f(x), c_e(x), c_i(x). *)
Record itrial := mkIT { it_x : list S; it_s : list S; it_y : list S; it_z : list S; it_f : S; it_ce : list S; it_ci : list S }.
(** 626-633, 695-702; [a] for x and s, [az] for y and z. *)
Definition ipm_trial (c : ictx) (d : istep) (a az : S) : itrial :=
  let tx := vstep (ix_x c) a (p_x d) in
  mkIT tx (vstep (ix_s c) a (p_s d)) (vstep (ix_y c) az (p_y d)) (vstep (ix_z c) az (p_z d)) (ip_f P tx) (ip_ce P tx) (ip_ci P tx).
(** 513-528. *)
Definition ipm_trial_main (c : ictx) (d : istep) (a az : S) : itrial :=
  let t := ipm_trial c d a az in
  if o_feasible o && forallb (fun v => 0 <? v) (ix_ci c)
  then mkIT (it_x t) (it_ci t) (it_y t) (it_z t) (it_f t) (it_ce t) (it_ci t) else t.
(** 545, 636, 749: the filter entry of a trial point. *)
Definition it_entry (mu : S) (t : itrial) : fentry S := fe_ipm (it_f t) (it_s t) (it_ce t) (it_ci t) mu.
(** The violation of a trial point, filter.hpp 53-57. *)
Definition it_viol (t : itrial) : S := norm1 (it_ce t) + norm1 (vsub (it_ci t) (it_s t)).
(** 499. *)
Definition ix_cur (c : ictx) : fentry S := fe_ipm (ix_f c) (ix_s c) (ix_ce c) (ix_ci c) (ix_mu c).

(** 574-658: the second-order corrections; [k] of the five rounds are left.  Some (trial, step size) when one is
    accepted. *)
Fixpoint ipm_soc (k : nat) (c : ictx) (dphi a a_soc : S) (ce_soc cis_soc : list S) (t : itrial) (viol : S) (flt : filter S)
    : filter S * option (itrial * S) :=
  match k with
  | O => (flt, None)
  | Datatypes.S k =>
      let ce_soc := vadd (vscale a_soc ce_soc) (it_ce t) in
      let cis_soc := vsub (vadd (vscale a_soc cis_soc) (it_ci t)) (it_s t) in
      let d := ipm_step c (ipm_rhs_soc c ce_soc cis_soc) cis_soc in
      let a_soc := ftb (ix_s c) (p_s d) (ix_tau c) in
      let az_soc := ftb (ix_z c) (p_z d) (ix_tau c) in
      let t := ipm_trial c d a_soc az_soc in
      let '(flt, ok) := try_add flt (ix_cur c) (it_entry (ix_mu c) t) dphi a in
      if ok then (flt, Some (t, a_soc))
      else
        let v := it_viol t in
        if lit 99 2 * viol <? v then (flt, None) else ipm_soc k c dphi a a_soc ce_soc cis_soc t v flt
  end.

(** What the line search leaves behind, as in SqpModel. *)
Record ifound := mkIF { if_t : option itrial; if_a : S; if_flt : filter S; if_cnt : Z }.

Definition ipm_kkt1 (c : ictx) : S :=
  kkt1_ipm (ip_n P) (ix_g c) (ix_Ae c) (ix_ce c) (ix_Ai c) (ix_ci c) (ix_s c) (ix_y c) (ix_z c) (ix_mu c).
(** 704-708: the KKT error of a trial point. *)
Definition ipm_kkt1_trial (mu : S) (t : itrial) : S :=
  kkt1_ipm (ip_n P) (ip_g P (it_x t)) (ip_Ae P (it_x t)) (it_ce t) (ip_Ai P (it_x t)) (it_ci t) (it_s t) (it_y t) (it_z t) mu.

(** 512-717: the line search from step size [a]; [amax] is the step size the fraction-to-the-boundary rule gave. *)
Fixpoint ipm_search (fuel : nat) (c : ictx) (d : istep) (dphi amax az : S) (a : S) (flt : filter S) (cnt : Z) : outcome ifound :=
  match fuel with
  | O => OutOfFuel
  | Datatypes.S fuel =>
      let t := ipm_trial_main c d a az in
      if negb (s_finite S (it_f t)) || negb (all_fin (it_ce t)) || negb (all_fin (it_ci t)) then
        let a := halve a in
        if a <? amin then Ok (mkIF None a flt cnt) else ipm_search fuel c d dphi amax az a flt cnt
      else
        let '(flt, ok) := try_add flt (ix_cur c) (it_entry (ix_mu c) t) dphi a in
        if ok then Ok (mkIF (Some t) a flt cnt)
        else
          let prev := norm1 (ix_ce c) + norm1 (vsub (ix_ci c) (ix_s c)) in
          let next := it_viol t in
          let '(flt, soc) :=
            if s_eqb S a amax && (prev <=? next)
            then ipm_soc 5 c dphi a a (ix_ce c) (vsub (ix_ci c) (ix_s c)) t next flt else (flt, None) in
          match soc with
          | Some (t, a_soc) => Ok (mkIF (Some t) a_soc flt cnt)
          | None =>
              let cnt := if s_eqb S a amax then (cnt + 1)%Z else cnt in
              if reset_filter cnt (ix_cur c) flt then ipm_search fuel c d dphi amax az a (shrink_filter flt) cnt
              else
                let a := halve a in
                if a <? amin then
                  let t := ipm_trial c d amax az in
                  if ipm_kkt1_trial (ix_mu c) t <=? lit 999 3 * ipm_kkt1 c then Ok (mkIF (Some t) a flt cnt)
                  else Ok (mkIF None a flt cnt)
                else ipm_search fuel c d dphi amax az a flt cnt
          end
  end.

(** 294-295. *)
Definition mu_min : S := sc_f (ip_sc P) * o_tol o / s_ofZ S 10.
(** 298. *)
Definition tau_min : S := lit 99 2.
(** 322. *)
Definition next_mu (mu : S) : S := smax mu_min (smin (lit 2 1 * mu) (s_pow S mu (lit 15 1))).
(** 329. *)
Definition tau_of (mu : S) : S := smax tau_min (1 - mu).
(** 825-831: [err mu] is the KKT error for barrier parameter mu. *)
Fixpoint barrier (fuel : nat) (err : S -> S) (mu tau : S) (flt : filter S) : outcome (S * S * filter S) :=
  match fuel with
  | O => OutOfFuel
  | Datatypes.S fuel =>
      if (mu_min <? mu) && (err mu <=? s_ofZ S 10 * mu)
      then barrier fuel err (next_mu mu) (tau_of (next_mu mu)) (filter_reset flt)
      else Ok (mu, tau, flt)
  end.

Context {U : Type}.
Variable cbs : list (callback S U).

(** 738-756: the callback that ends feasibility restoration. *)
Definition ipm_fr_callback (x s g : list S) (mu : S) (init : fentry S) (a : S) : callback S (U * filter S) :=
  fun i u =>
    let tx := firstn (ip_n P) (i_x i) in
    let ts := firstn (ip_mi P) (i_s i) in
    let te := fe_ipm (ip_f P tx) ts (ip_ce P tx) (ip_ci P tx) mu in
    let d := vdot g (vsub tx x) - mu * vdot (vinv s) (vsub ts s) in
    if fe_viol te <? lit 9 1 * fe_viol init then
      let '(flt, b) := try_add (snd u) init te d a in ((fst u, flt), b)
    else (u, false).

(** What feasibility_restoration() returns through its reference parameters. *)
Record irestored := mkIR {
  ir_x : list S; ir_s : list S; ir_y : list S; ir_z : list S; ir_it : Z; ir_uf : U * filter S; ir_clk : nat }.
(** feasibility_restoration() for the interior-point method; [None] when already in it (725-728). *)
Variable restore : option (list (callback S (U * filter S)) -> list S -> list S -> list S -> list S -> S -> Z -> U * filter S -> nat ->
  outcome (status * irestored)).

Record istate := mkI {
  is_x : list S; is_s : list S; is_y : list S; is_z : list S; is_f : S; is_g : list S; is_H : mat (S := S);
  is_ce : list S; is_Ae : mat (S := S); is_ci : list S; is_Ai : mat (S := S); is_E : S; is_mu : S; is_tau : S;
  is_flt : filter S; is_cnt : Z; is_it : Z; is_u : U; is_ls : ls_t (e_lin E); is_clk : nat }.

(** 415: what callbacks are shown. *)
Definition ipm_info (st : istate) : info S :=
  mkInfo (is_it st) (is_x st) (is_s st) (is_y st) (is_z st) (is_g st) (is_H st) (is_Ae st) (is_Ai st).
(** What the rest of the iteration reads. *)
Definition ipm_ctx (st : istate) (ls : ls_t (e_lin E)) : ictx :=
  mkIX (is_x st) (is_s st) (is_y st) (is_z st) (is_f st) (is_g st) (is_ce st) (is_Ae st) (is_ci st) (is_Ai st)
       (is_mu st) (is_tau st) ls.
(** Assignments to the local variables that survive an iteration. *)
Definition i_set (st : istate) (x s y z : list S) (flt : filter S) (cnt it : Z) (u : U) (ls : ls_t (e_lin E)) (clk : nat) : istate :=
  mkI x s y z (is_f st) (is_g st) (is_H st) (is_ce st) (is_Ae st) (is_ci st) (is_Ai st) (is_E st) (is_mu st) (is_tau st)
      flt cnt it u ls clk.
(** The local variables when the loop is left. *)
Definition i_quit (st : istate) (flt : filter S) (cnt : Z) (u : U) (ls : ls_t (e_lin E)) : istate :=
  i_set st (is_x st) (is_s st) (is_y st) (is_z st) flt cnt (is_it st) u ls (is_clk st).

(** 808-862: the end of an iteration at the new point. *)
Definition ipm_end (fuel : nat) (start : S) (x s y z : list S) (f : S) (ce ci : list S) (mu tau : S) (flt : filter S)
    (cnt it : Z) (u : U) (ls : ls_t (e_lin E)) (clk : nat) : outcome (pass istate) :=
  let Ae := ip_Ae P x in
  let Ai := ip_Ai P x in
  let g := ip_g P x in
  let H := ip_H P x y z in
  let e0 := unscaled_ipm (ip_sc P) (ip_n P) g Ae ce Ai ci s y z 0 in
  let* (mu, tau, flt) :=
    if o_tol o <? e0 then barrier fuel (fun mu => kkt_ipm (ip_n P) g Ae ce Ai ci s y z mu) mu tau flt else Ok (mu, tau, flt) in
  let it := (it + 1)%Z in
  let '(l, clk) := limits o (e_clock E) start it clk in
  Ok (finish l (mkI x s y z f g H ce Ae ci Ai e0 mu tau flt cnt it u ls clk)).

(** 382-863: one iteration. *)
Definition ipm_body (fuel : nat) (start : S) (st : istate) : outcome (pass istate) :=
  if eq_infeasible (ip_n P) (is_Ae st) (is_ce st) then Ok (Exit LOCALLY_INFEASIBLE st)
  else if ineq_infeasible (ip_n P) (is_Ai st) (is_ci st) then Ok (Exit LOCALLY_INFEASIBLE st)
  else if diverging (is_x st) || diverging (is_s st) then Ok (Exit DIVERGING_ITERATES st)
  else
    let '(u, stop) := run_callbacks cbs (ipm_info st) (is_u st) in
    if stop then Ok (Exit CALLBACK_REQUESTED_STOP (i_quit st (is_flt st) (is_cnt st) u (is_ls st)))
    else
      let '(ls, ok) := ls_compute (e_lin E) (is_ls st) (ipm_lhs (is_H st) (ipm_ctx st (is_ls st))) in
      if negb ok then Ok (Exit FACTORIZATION_FAILED (i_quit st (is_flt st) (is_cnt st) u ls))
      else
        let c := ipm_ctx st ls in
        let d := ipm_step c (ipm_rhs c) (vsub (is_ci st) (is_s st)) in
        let amax := ftb (is_s st) (p_s d) (is_tau st) in
        let az := ftb (is_z st) (p_z d) (is_tau st) in
        let dphi := vdot (is_g st) (p_x d) - is_mu st * vdot (vinv (is_s st)) (p_s d) in
        let* r := ipm_search fuel c d dphi amax az amax (is_flt st) (is_cnt st) in
        (* 491-494: a tiny maximum step size asks for restoration whatever the line search finds *)
        match (if amax <? amin then None else if_t r) with
        | None =>
            match restore with
            | None => Ok (Exit FEASIBILITY_RESTORATION_FAILED (i_quit st (if_flt r) (if_cnt r) u ls))
            | Some restore =>
                let init := fe_ipm (ip_f P (is_x st)) (is_s st) (is_ce st) (is_ci st) (is_mu st) in
                let cbs' := map lift_cb cbs ++ [ipm_fr_callback (is_x st) (is_s st) (is_g st) (is_mu st) init (if_a r)] in
                let* (status, q) :=
                  restore cbs' (is_x st) (is_s st) (is_y st) (is_z st) (is_mu st) (is_it st) (u, if_flt r) (is_clk st) in
                if is_success status then
                  ipm_end fuel start (ir_x q) (ir_s q) (ir_y q) (ir_z q) (ip_f P (ir_x q)) (ip_ce P (ir_x q)) (ip_ci P (ir_x q))
                    (is_mu st) (is_tau st) (snd (ir_uf q)) (if_cnt r) (ir_it q) (fst (ir_uf q)) ls (ir_clk q)
                else Ok (Exit status (i_set st (ir_x q) (ir_s q) (ir_y q) (ir_z q) (snd (ir_uf q)) (if_cnt r) (ir_it q)
                                            (fst (ir_uf q)) ls (ir_clk q)))
            end
        | Some t =>
            let cnt := if s_eqb S (if_a r) amax then 0%Z else if_cnt r in
            let* z := clamp_zs (is_mu st) (it_s t) (it_z t) in
            ipm_end fuel start (it_x t) (it_s t) (it_y t) z (it_f t) (it_ce t) (it_ci t)
              (is_mu st) (is_tau st) (if_flt r) cnt (is_it st) u ls (is_clk st)
        end.

(** 245-364; [infr] is in_feasibility_restoration. *)
Definition ipm_init (infr : bool) (x s y z : list S) (mu : S) (it : Z) (u : U) (clk : nat) : istate :=
  let g := ip_g P x in
  let ce := ip_ce P x in
  let Ae := ip_Ae P x in
  let ci := ip_ci P x in
  let Ai := ip_Ai P x in
  mkI x s y z (ip_f P x) g (ip_H P x y z) ce Ae ci Ai
      (unscaled_ipm (ip_sc P) (ip_n P) g Ae ce Ai ci s y z 0) mu tau_min
      (filter_new (norm1 ce + norm1 (vsub ci s))) 0%Z it u (ls_new (e_lin E) (ip_n P) (ip_me P) infr) (Datatypes.S clk).

(** 123-866. *)
Definition ipm_from (fuel : nat) (infr : bool) (x s y z : list S) (mu : S) (it : Z) (u : U) (clk : nat) : outcome (status * istate) :=
  let st := ipm_init infr x s y z mu it u clk in
  oassert (vec_dim (ip_n P) (is_g st) && mat_dims (ip_n P) (ip_n P) (is_H st) && vec_dim (ip_me P) (is_ce st)
           && mat_dims (ip_me P) (ip_n P) (is_Ae st) && vec_dim (ip_mi P) (is_ci st) && mat_dims (ip_mi P) (ip_n P) (is_Ai st))
    (if Nat.ltb (ip_n P) (ip_me P) then Ok (TOO_FEW_DOFS, st)
     else if negb (s_finite S (is_f st)) || negb (all_fin (is_g st)) || negb (mat_fin (is_H st)) || negb (all_fin (is_ce st))
             || negb (mat_fin (is_Ae st)) || negb (all_fin (is_ci st)) || negb (mat_fin (is_Ai st))
     then Ok (NONFINITE_INITIAL_GUESS, st)
     else drive is_E (o_tol o) (ipm_body fuel (e_clock E clk)) fuel st).

(** 63-87. *)
Definition ipm (fuel : nat) (x : list S) (u : U) (clk : nat) : outcome (status * istate) :=
  ipm_from fuel false x (repeat 1 (ip_mi P)) (repeat 0 (ip_me P)) (repeat 1 (ip_mi P)) (lit 1 1 * sc_f (ip_sc P)) 0%Z u clk.

End Ipm.
Arguments iprob : clear implicits.
Arguments irestored : clear implicits.
