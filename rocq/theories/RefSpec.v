(** Vocabulary for C13-C15: histories, reachability, acyclicity. *)
From Coq Require Import ZArith List.
From Verif Require Import Base RefModel.
Import ListNotations.
Open Scope Z_scope.

(** Node [n] is allocated and holds handles to [cs]. *)
Definition alive (s : rstate) (n : nat) : Prop := exists nd, nth_error (s_heap s) n = Some (Some nd).
Definition points (s : rstate) (n c : nat) : Prop :=
  exists nd, nth_error (s_heap s) n = Some (Some nd) /\ (r_adj nd = Some c \/ In c (r_args nd)).

(** Node reachable from a variable of the program. *)
Inductive reach (s : rstate) : nat -> Prop :=
| reach_var i n : nth_error (s_vars s) i = Some (Some n) -> reach s n
| reach_step n c : reach s n -> points s n c -> reach s c.

(** No handle cycle: some ranking decreases along every handle. *)
Definition acyclic (s : rstate) : Prop :=
  exists rank : nat -> nat, forall n c, points s n c -> (rank c < rank n)%nat.

(** What the caller must provide: existing variables, non-null where they are dereferenced. *)
Definition var_ok (s : rstate) (i : nat) : Prop := (i < length (s_vars s))%nat.
Definition nonnull (s : rstate) (i : nat) : Prop := exists n, nth_error (s_vars s) i = Some (Some n).

Definition op_ok (s : rstate) (o : rop) : Prop :=
  match o with
  | ONew is => forall i, In i is -> nonnull s i
  | OCopy i | OMove i | ODestroy i => var_ok s i
  | OAssign i j | OMoveAssign i j => var_ok s i /\ var_ok s j
  | OSetAdj i j => nonnull s i /\ var_ok s j
  | OClearAdj i | OTakeAdj i => nonnull s i
  end.

(** Number of handles in existence; the reference counts are 32 bits wide, so a program holding 2^32
    handles is out of scope. *)
Definition handles (s : rstate) : nat := (length (s_vars s) + length (heap_refs (s_heap s)))%nat.
Definition op_size (o : rop) : nat := match o with ONew is => S (length is) | _ => 1 end.
Definition fits (s : rstate) (o : rop) : Prop := Z.of_nat (handles s + op_size o) < 2 ^ 32.

(** States reached by some history of the program. *)
Inductive run : rstate -> Prop :=
| run_init : run rinit
| run_step s o s' : run s -> op_ok s o -> fits s o -> rstep s o = Ok s' -> run s'.

(** Histories that never store a handle in a live node. *)
Inductive run_plain : rstate -> Prop :=
| rp_init : run_plain rinit
| rp_step s o s' : run_plain s -> (forall i j, o <> OSetAdj i j) -> op_ok s o -> fits s o ->
    rstep s o = Ok s' -> run_plain s'.
