(** Properties C13, C14, C15. *)
From Coq Require Import ZArith List Lia.
From Verif Require Import Base RefModel RefSpec RefProofs.
Import ListNotations.
Open Scope Z_scope.

(** C13: at any point of any history the next operation never touches a freed node (that would be
    [UB]) and terminates. *)
Theorem C13_no_use_after_free s o : run s -> op_ok s o -> fits s o -> exists s', rstep s o = Ok s'.
Proof. exact (run_progress s o). Qed.
Print Assumptions C13_no_use_after_free.

(** C13: allocated nodes are the reachable ones (one direction needs acyclicity), and nothing remains
    once no variable holds a node. *)
Theorem C13_alive_iff_reachable s : run s -> (forall n, reach s n -> alive s n) /\
  (acyclic s -> forall n, alive s n -> reach s n) /\
  (acyclic s -> (forall i p, nth_error (s_vars s) i = Some p -> p = None) -> forall n, ~ alive s n).
Proof. exact (run_safe s). Qed.
Print Assumptions C13_alive_iff_reachable.

(** C13: building, copying, moving, assigning and destroying alone never creates a cycle. *)
Theorem C13_plain_acyclic s : run_plain s -> acyclic s.
Proof. exact (plain_acyclic s). Qed.
Print Assumptions C13_plain_acyclic.

Ltac ex_steps :=
  repeat (split; [cbn; first [ intros i H; repeat (destruct H as [<-|H]; [eexists; reflexivity|]); destruct H
                             | unfold var_ok; cbn; lia ]|];
          split; [cbv; reflexivity|]; split; [discriminate|]; cbn);
  reflexivity.

(** Two leaves, a node over both, and a node using it twice; the leaf handles are dropped. *)
Definition ex_ops : list rop := [ONew []; ONew []; ONew [0; 1]%nat; ONew [2; 2]%nat; ODestroy 0; ODestroy 1; ODestroy 2].
Definition ex_state : rstate :=
  mkS [Some (mkR 1 None []); Some (mkR 1 None []); Some (mkR 2 None [0; 1]%nat); Some (mkR 1 None [2; 2]%nat)]
      [None; None; None; Some 3%nat].

Example C13_example : run_plain ex_state /\ run ex_state /\ acyclic ex_state /\ reach ex_state 0%nat.
Proof.
  assert (H : run_plain ex_state).
  { apply (steps_plain ex_ops rinit); [apply rp_init|]. unfold ex_ops. ex_steps. }
  split; [exact H|]. split; [exact (plain_run _ H)|]. split; [exact (plain_acyclic _ H)|].
  eapply (reach_step _ 2%nat); [eapply (reach_step _ 3%nat); [apply (reach_var _ 3%nat); reflexivity|]|].
  - eexists. split; [reflexivity|]. right. left. reflexivity.
  - eexists. split; [reflexivity|]. right. left. reflexivity.
Qed.

(** C14 (full claim is false): p = p->args[0] where p holds the only handle to its node. *)
Theorem C14_handle_assign_refuted : exists s, run s /\ rd s (LArg 1 0) = Ok (Some 0%nat) /\
  rd s (LVar 1) = Ok (Some 1%nat) /\ copy_assign s (LVar 1) (LArg 1 0) = UB.
Proof.
  exists (mkS [Some (mkR 1 None []); Some (mkR 1 None [0%nat])] [None; Some 1%nat]).
  split; [|split; [reflexivity|split; reflexivity]].
  apply plain_run. apply (steps_plain [ONew []; ONew [0%nat]; ODestroy 0] rinit); [apply rp_init|]. ex_steps.
Qed.
Print Assumptions C14_handle_assign_refuted.

(** C14 (part): assigning from another variable is always safe. *)
Theorem C14_assign_from_variable_partial s i j p q : run s -> fits s (OAssign i j) ->
  nth_error (s_vars s) i = Some p -> nth_error (s_vars s) j = Some q ->
  exists s', copy_assign s (LVar i) (LVar j) = Ok s' /\ (forall n, reach s' n -> alive s' n) /\
    s_vars s' = put (s_vars s) i q.
Proof. exact (assign_outer s i j p q). Qed.
Print Assumptions C14_assign_from_variable_partial.

(** C14 (part): assigning from a handle stored inside a node is safe when the node is still reachable
    once the destination's handle is gone. *)
Theorem C14_assign_from_inner_partial s i p m src q : run s -> fits s (ODestroy i) -> acyclic s ->
  nth_error (s_vars s) i = Some p -> (src = LAdj m \/ exists k, src = LArg m k) ->
  rd s src = Ok q -> reach (mkS (s_heap s) (put (s_vars s) i None)) m ->
  exists s', copy_assign s (LVar i) src = Ok s' /\ (forall n, reach s' n -> alive s' n) /\
    rd s' (LVar i) = Ok q /\ rd s' src = Ok q /\
    (forall j, j <> i -> rd s' (LVar j) = rd s (LVar j)).
Proof.
  exact (fun R Hf Ha Hp Hs Hr Hm => match assign_inner s i p m src q R Hf Ha Hp Hs Hr Hm with
    | ex_intro _ s' (conj E (conj HI rest)) =>
        ex_intro _ s' (conj E (conj (fun n => inv_reach_alive s' n HI) rest)) end).
Qed.
Print Assumptions C14_assign_from_inner_partial.

(** Node 3's operand (node 2) assigned to the null variable 0. *)
Example C14_example : fits ex_state (ODestroy 0) /\ nth_error (s_vars ex_state) 0 = Some None /\
  rd ex_state (LArg 3 1) = Ok (Some 2%nat) /\ reach (mkS (s_heap ex_state) (put (s_vars ex_state) 0 None)) 3%nat.
Proof.
  split; [cbv; reflexivity|]. split; [reflexivity|]. split; [reflexivity|].
  apply (reach_var _ 3%nat). reflexivity.
Qed.

(** C15: dropping a handle terminates; afterwards the allocated nodes are exactly those reachable from
    the remaining handles, and those keep their operands. *)
Theorem C15_release_exact s i p : run s -> acyclic s -> fits s (ODestroy i) -> nth_error (s_vars s) i = Some p ->
  exists s', rstep s (ODestroy i) = Ok s' /\ s_vars s' = put (s_vars s) i None /\
    (forall n, alive s' n <-> reach s' n) /\
    (forall n, reach s' n <-> reach (mkS (s_heap s) (put (s_vars s) i None)) n) /\
    (forall n c, points s' n c <-> alive s' n /\ points s n c).
Proof. exact (destroy_exact s i p). Qed.
Print Assumptions C15_release_exact.

(** Dropping the last handle of [ex_state] frees all four nodes. *)
Example C15_example : fits ex_state (ODestroy 3) /\ nth_error (s_vars ex_state) 3 = Some (Some 3%nat) /\
  rstep ex_state (ODestroy 3) = Ok (mkS [None; None; None; None] [None; None; None; None]).
Proof. split; [cbv; reflexivity|]. split; reflexivity. Qed.
