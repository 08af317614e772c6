(** Model of include/sleipnir/optimization/multistart.hpp.

    [solve] is the user's function; simplification: it is a function of the guess alone (no data races between the
    concurrent calls, no exceptions). *)
From Coq Require Import List Bool Arith.
From Verif Require Import Base ExprModel NumModel ExitModel.
Import ListNotations.

Section Multi.
Context {S : nops} {V : Type}.

(** MultistartResult, 22-29. *)
Record mresult := mkM { m_status : status; m_cost : S; m_vars : V }.

(** The comparator, 65-73. *)
Definition better (a b : mresult) : bool :=
  if is_success (m_status a) && negb (is_success (m_status b)) then true else s_ltb S (m_cost a) (m_cost b).

(** std::ranges::min_element on a nonempty range: the running minimum changes when a later element is better. *)
Fixpoint min_from (best : mresult) (l : list mresult) : mresult :=
  match l with
  | [] => best
  | r :: l => min_from (if better r best then r else best) l
  end.
(** Dereferencing the end iterator of an empty range is undefined behaviour. *)
Definition min_element (l : list mresult) : outcome mresult :=
  match l with [] => UB | r :: l => Ok (min_from r l) end.

(** The threads: the main thread launches one task per guess (54-56) and then collects the futures in order (61-63);
    each launched task runs once, at any time. *)
Record mstate := mkMS {
  ms_futures : list (option mresult);   (* one per launched task; filled when the task has run *)
  ms_results : list mresult;            (* results, 58 *)
  ms_calls : list V                     (* guesses solve was called with, in order of the calls *)
}.
Definition ms_init : mstate := mkMS [] [] [].

Fixpoint fill (l : list (option mresult)) (i : nat) (r : mresult) : list (option mresult) :=
  match l, i with
  | [], _ => []
  | _ :: l, O => Some r :: l
  | x :: l, Datatypes.S i => x :: fill l i r
  end.

Variable solve : V -> mresult.
Variable guesses : list V.

(** One step of one of the threads: multistart.hpp 55-57 launches, a thread runs solve, 61-63 collects. *)
Inductive mstep : mstate -> mstate -> Prop :=
| mstep_launch s : length (ms_futures s) < length guesses ->
    mstep s (mkMS (ms_futures s ++ [None]) (ms_results s) (ms_calls s))
| mstep_run s i g : nth_error (ms_futures s) i = Some None -> nth_error guesses i = Some g ->
    mstep s (mkMS (fill (ms_futures s) i (solve g)) (ms_results s) (ms_calls s ++ [g]))
| mstep_get s r : length (ms_futures s) = length guesses ->
    nth_error (ms_futures s) (length (ms_results s)) = Some (Some r) ->
    mstep s (mkMS (ms_futures s) (ms_results s ++ [r]) (ms_calls s)).

(** Any number of steps, in any order. *)
Inductive msteps : nat -> mstate -> mstate -> Prop :=
| msteps_0 s : msteps 0 s s
| msteps_S n s s1 s2 : mstep s s1 -> msteps n s1 s2 -> msteps (Datatypes.S n) s s2.

(** All futures collected: the call returns. *)
Definition collected (s : mstate) : Prop :=
  length (ms_futures s) = length guesses /\ length (ms_results s) = length guesses.
Definition multistart (s : mstate) : outcome mresult := min_element (ms_results s).

End Multi.
Arguments mresult : clear implicits.
Arguments mstate : clear implicits.
