(** Outcomes shared by all models.

    [Ok a]      the C++ code returns [a];
    [AssertFail] an [slp_assert] fires (include/sleipnir/util/assert.hpp: [assert] in C++ builds,
                exception in Python builds);
    [UB]        the C++ code has undefined behaviour (signed overflow, out-of-bounds access,
                use after free, dereferencing a past-the-end iterator, ...);
    [OutOfFuel] the model's loop bound was exhausted (excluded by termination theorems). *)
From Coq Require Import ZArith List Lia.
Import ListNotations.

Inductive outcome (A : Type) : Type :=
| Ok (a : A)
| AssertFail
| UB
| OutOfFuel.
Arguments Ok {A} a.
Arguments AssertFail {A}.
Arguments UB {A}.
Arguments OutOfFuel {A}.

Definition obind {A B} (m : outcome A) (f : A -> outcome B) : outcome B :=
  match m with
  | Ok a => f a
  | AssertFail => AssertFail
  | UB => UB
  | OutOfFuel => OutOfFuel
  end.

Declare Scope outcome_scope.
Delimit Scope outcome_scope with outcome.
Notation "'let*' x ':=' m 'in' k" := (obind m (fun x => k))
  (at level 200, x pattern, m at level 100, k at level 200, right associativity) : outcome_scope.
Open Scope outcome_scope.

Definition oassert {A} (b : bool) (k : outcome A) : outcome A :=
  if b then k else AssertFail.

Definition is_ok {A} (m : outcome A) : Prop := exists a, m = Ok a.

Lemma obind_ok {A B} (m : outcome A) (f : A -> outcome B) b :
  obind m f = Ok b -> exists a, m = Ok a /\ f a = Ok b.
Proof. destruct m; simpl; intros H; try discriminate. eauto. Qed.

Lemma oassert_ok {A} (b : bool) (k : outcome A) a :
  oassert b k = Ok a -> b = true /\ k = Ok a.
Proof. unfold oassert. destruct b; intros; [auto | discriminate]. Qed.
