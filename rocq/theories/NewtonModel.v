(** Model of include/sleipnir/optimization/solver/newton.hpp. *)
From Coq Require Import ZArith List Bool.
From Verif Require Import Base ExprModel NumModel UtilModel KktModel FilterModel ExitModel SolverModel.
Import ListNotations.

Section Newton.
Context {S : nops}.
Notation "0" := (s_ofZ S 0).
Notation "1" := (s_ofZ S 1).
Infix "*" := (s_mul S).
Infix "<?" := (s_ltb S).
Infix "<=?" := (s_leb S).

(** newton_matrix_callbacks.hpp 18-99. *)
Record nprob := mkNP { np_n : nat; np_f : list S -> S; np_g : list S -> list S; np_H : list S -> mat (S := S); np_sc : scaling S }.

Variables (E : env S) (P : nprob).
Context {U : Type}.
Variables (cbs : list (callback S U)) (o : options S).

(** 141-142. *)
Definition n_amin : S := lit 1 20.
Definition halve (a : S) : S := a * lit 5 1.
(** filter.hpp 35-37: FilterEntry{f}. *)
Definition fe_newton (f : S) : fentry S := mkFE f 0.

Inductive nsearch := NStep (x : list S) (f a : S) (flt : filter S) | NFail (flt : filter S).

(** 202-247: the line search from step size [a]. *)
Fixpoint newton_search (fuel : nat) (x : list S) (f : S) (g p : list S) (d : S) (a : S) (flt : filter S) : outcome nsearch :=
  match fuel with
  | O => OutOfFuel
  | Datatypes.S fuel =>
      let tx := vstep x a p in
      let tf := np_f P tx in
      if negb (s_finite S tf) then
        let a := halve a in
        if a <? n_amin then Ok (NFail flt) else newton_search fuel x f g p d a flt
      else
        let '(flt, ok) := try_add flt (fe_newton f) (fe_newton tf) d a in
        if ok then Ok (NStep tx tf a flt)
        else
          let a := halve a in
          if a <? n_amin then
            let tx := vstep x 1 p in
            if kkt1_newton (np_g P tx) <=? lit 999 3 * kkt1_newton g then Ok (NStep tx (np_f P tx) a flt)
            else Ok (NFail flt)
          else newton_search fuel x f g p d a flt
  end.

(** The local variables that survive an iteration, the callbacks' state and the number of clock readings. *)
Record nstate := mkN {
  n_x : list S; n_f : S; n_g : list S; n_H : mat (S := S); n_E : S; n_flt : filter S;
  n_it : Z; n_u : U; n_ls : ls_t (e_lin E); n_clk : nat }.

(** newton.hpp 175: what callbacks are shown. *)
Definition newton_info (st : nstate) : info S := mkInfo (n_it st) (n_x st) [] [] [] (n_g st) (n_H st) [] [].
(** Assignments to the local variables that survive an iteration. *)
Definition n_set (st : nstate) (flt : filter S) (u : U) (ls : ls_t (e_lin E)) : nstate :=
  mkN (n_x st) (n_f st) (n_g st) (n_H st) (n_E st) flt (n_it st) u ls (n_clk st).

(** 161-287: one iteration. *)
Definition newton_body (fuel : nat) (start : S) (st : nstate) : outcome (pass nstate) :=
  if diverging (n_x st) then Ok (Exit DIVERGING_ITERATES st)
  else
    let '(u, stop) := run_callbacks cbs (newton_info st) (n_u st) in
    if stop then Ok (Exit CALLBACK_REQUESTED_STOP (n_set st (n_flt st) u (n_ls st)))
    else
      (* 186: whether compute() succeeded is not looked at *)
      let ls := fst (ls_compute (e_lin E) (n_ls st) (mkKkt (n_H st) [])) in
      let p := ls_solve (e_lin E) ls (vneg (n_g st)) in
      let d := vdot (n_g st) p in
      let* r := newton_search fuel (n_x st) (n_f st) (n_g st) p d 1 (n_flt st) in
      match r with
      | NFail flt => Ok (Exit LINE_SEARCH_FAILED (n_set st flt u ls))
      | NStep x f _ flt =>
          let g := np_g P x in
          let it := (n_it st + 1)%Z in
          let '(l, clk) := limits o (e_clock E) start it (n_clk st) in
          Ok (finish l (mkN x f g (np_H P x) (unscaled_newton (np_sc P) g) flt it u ls clk))
      end.

(** 114-159: the state before the first iteration.  [clk] clock readings have happened before the call. *)
Definition newton_init (x : list S) (u : U) (clk : nat) : nstate :=
  let g := np_g P x in
  mkN x (np_f P x) g (np_H P x) (unscaled_newton (np_sc P) g) (filter_new 0) 0%Z u
      (ls_new (e_lin E) (np_n P) 0 false) (Datatypes.S clk).

(** 50-290. *)
Definition newton (fuel : nat) (x : list S) (u : U) (clk : nat) : outcome (status * nstate) :=
  let st := newton_init x u clk in
  oassert (vec_dim (np_n P) (n_g st) && mat_dims (np_n P) (np_n P) (n_H st))
    (if negb (s_finite S (n_f st)) || negb (all_fin (n_g st)) || negb (mat_fin (n_H st))
     then Ok (NONFINITE_INITIAL_GUESS, st)
     else drive n_E (o_tol o) (newton_body fuel (e_clock E clk)) fuel st).

End Newton.
Arguments nprob : clear implicits.
