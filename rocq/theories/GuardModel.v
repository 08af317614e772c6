(** Models of include/sleipnir/util/scope_exit.hpp and include/sleipnir/util/profiler.hpp. *)
From Coq Require Import ZArith List Bool Arith.
From Verif Require Import Base ExprModel NumModel.
Import ListNotations.

(** A guard object: the action it would run, m_active, and whether its destructor has run. *)
Record guard := mkG { g_action : nat; g_active : bool; g_dead : bool }.

Fixpoint gset (l : list guard) (i : nat) (g : guard) : list guard :=
  match l, i with
  | [], _ => []
  | _ :: l, O => g :: l
  | x :: l, S i => x :: gset l i g
  end.

(** What a program can do with guards, scope_exit.hpp 19-39. *)
Inductive gop :=
| GNew                 (* scope_exit g{f}, with a new action f *)
| GMove (i : nat)      (* scope_exit h{std::move(g_i)} *)
| GRelease (i : nat)   (* g_i.release() *)
| GDestroy (i : nat).  (* the end of g_i's lifetime *)

(** Guards by creation order, number of actions so far, actions run so far. *)
Record gstate := mkGS { gs_guards : list guard; gs_made : nat; gs_log : list nat }.
Definition gs_init : gstate := mkGS [] 0 [].

(** The object, if its lifetime has not ended; using a dead object is undefined behaviour. *)
Definition live (s : gstate) (i : nat) : outcome guard :=
  match nth_error (gs_guards s) i with
  | Some g => if g_dead g then UB else Ok g
  | None => UB
  end.

(** scope_exit.hpp 19, 21-25, 30-33, 39. *)
Definition gstep (o : gop) (s : gstate) : outcome gstate :=
  match o with
  | GNew => Ok (mkGS (gs_guards s ++ [mkG (gs_made s) true false]) (S (gs_made s)) (gs_log s))
  | GMove i =>
      let* g := live s i in
      Ok (mkGS (gset (gs_guards s) i (mkG (g_action g) false false) ++ [mkG (g_action g) (g_active g) false])
            (gs_made s) (gs_log s))
  | GRelease i =>
      let* g := live s i in
      Ok (mkGS (gset (gs_guards s) i (mkG (g_action g) false false)) (gs_made s) (gs_log s))
  | GDestroy i =>
      let* g := live s i in
      Ok (mkGS (gset (gs_guards s) i (mkG (g_action g) (g_active g) true)) (gs_made s)
            (if g_active g then gs_log s ++ [g_action g] else gs_log s))
  end.
(** A program; helper, no counterpart. *)
Fixpoint grun (l : list gop) (s : gstate) : outcome gstate :=
  match l with [] => Ok s | o :: l => let* s := gstep o s in grun l s end.

Section Profiler.
Context {S : nops}.

(** SolveProfiler members, profiler.hpp 121-131; times are seconds (simplification: the clock's ticks and the
    conversion to double are exact). *)
Record profiler := mkP { p_start : S; p_current : S; p_total : S; p_num : Z; p_average : S }.
Definition p_init : profiler := mkP (s_ofZ S 0) (s_ofZ S 0) (s_ofZ S 0) 0 (s_ofZ S 0).

(** 68-72 and 76-89, with the time the clock shows. *)
Definition p_do_start (now : S) (p : profiler) : profiler := mkP now (p_current p) (p_total p) (p_num p) (p_average p).
Definition p_do_stop (now : S) (p : profiler) : profiler :=
  let d := s_sub S now (p_start p) in
  let n := (p_num p + 1)%Z in
  let fn := s_ofZ S n in
  mkP (p_start p) d (s_add S (p_total p) d) n
    (s_add S (s_mul S (s_div S (s_sub S fn (s_ofZ S 1)) fn) (p_average p)) (s_mul S (s_div S (s_ofZ S 1) fn) d)).

(** Calls of start() and stop(), profiler.hpp 68-89, with the time the clock shows. *)
Inductive pop := PStart (now : S) | PStop (now : S).
(** profiler.hpp 68-72 and 76-89. *)
Definition p_step (o : pop) (p : profiler) : profiler :=
  match o with PStart t => p_do_start t p | PStop t => p_do_stop t p end.
(** A sequence of calls on a new profiler. *)
Definition p_run (l : list pop) : profiler := fold_left (fun p o => p_step o p) l p_init.

End Profiler.
Arguments profiler : clear implicits.
Arguments pop : clear implicits.

(** ScopedProfiler, 143-181, on one profiler: the calls it makes. *)
Inductive call := CStart | CStop.
Inductive sop := SNew | SMove (i : nat) | SStop (i : nat) | SDestroy (i : nat).
Record sstate := mkSS { ss_guards : list guard; ss_made : nat; ss_log : list (nat * call) }.
Definition ss_init : sstate := mkSS [] 0 [].
(** Using an object after its destructor has run is undefined behaviour. *)
Definition slive (s : sstate) (i : nat) : outcome guard :=
  match nth_error (ss_guards s) i with
  | Some g => if g_dead g then UB else Ok g
  | None => UB
  end.
(** profiler.hpp 143-145 (constructor), 157-160 (move constructor), 168-173 (stop()), 148-152 (destructor). *)
Definition sstep (o : sop) (s : sstate) : outcome sstate :=
  match o with
  | SNew => Ok (mkSS (ss_guards s ++ [mkG (ss_made s) true false]) (S (ss_made s)) (ss_log s ++ [(ss_made s, CStart)]))
  | SMove i =>
      let* g := slive s i in
      Ok (mkSS (gset (ss_guards s) i (mkG (g_action g) false false) ++ [mkG (g_action g) (g_active g) false])
            (ss_made s) (ss_log s))
  | SStop i =>
      let* g := slive s i in
      if g_active g
      then Ok (mkSS (gset (ss_guards s) i (mkG (g_action g) false false)) (ss_made s) (ss_log s ++ [(g_action g, CStop)]))
      else Ok s
  | SDestroy i =>
      let* g := slive s i in
      Ok (mkSS (gset (ss_guards s) i (mkG (g_action g) (g_active g) true)) (ss_made s)
            (if g_active g then ss_log s ++ [(g_action g, CStop)] else ss_log s))
  end.
(** A program; helper, no counterpart. *)
Fixpoint srun (l : list sop) (s : sstate) : outcome sstate :=
  match l with [] => Ok s | o :: l => let* s := sstep o s in srun l s end.
