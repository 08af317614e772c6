(** Facts about the shared outer loop. *)
From Coq Require Import ZArith List Bool Lia.
From Verif Require Import Base ExprModel NumModel ExitModel SolverModel NewtonModel.
Import ListNotations.

Section Drive.
Context {S : nops} {St : Type}.
Variables (err : St -> S) (tol : S) (body : St -> outcome (pass St)).

(** Where a finished loop stopped. *)
Lemma drive_ok (Inv : St -> Prop) :
  (forall st st', Inv st -> s_ltb S tol (err st) = true -> body st = Ok (Next st') -> Inv st') ->
  forall fuel st s st', Inv st -> drive err tol body fuel st = Ok (s, st') ->
  exists st1, Inv st1 /\
    ((s = SUCCESS /\ st' = st1 /\ s_ltb S tol (err st1) = false) \/ (s_ltb S tol (err st1) = true /\ body st1 = Ok (Exit s st'))).
Proof.
  intros K. induction fuel as [|fuel IH]; intros st s st' I H; [discriminate|]. cbn [drive] in H.
  destruct (s_ltb S tol (err st)) eqn:L.
  - apply obind_ok in H. destruct H as (r & B & H). destruct r as [s1 st1|st1].
    + injection H as <- <-. exists st. auto.
    + eapply IH; [|exact H]. eapply K; eauto.
  - injection H as <- <-. exists st. auto.
Qed.

(** The loop ends when a measure goes down each time round. *)
Lemma drive_total (Inv : St -> Prop) (meas : St -> nat) :
  (forall st st', Inv st -> s_ltb S tol (err st) = true -> body st = Ok (Next st') -> Inv st' /\ (meas st' < meas st)%nat) ->
  (forall st, Inv st -> s_ltb S tol (err st) = true -> exists r, body st = Ok r) ->
  forall fuel st, Inv st -> (meas st < fuel)%nat -> exists r, drive err tol body fuel st = Ok r.
Proof.
  intros K T. induction fuel as [|fuel IH]; intros st I L; [lia|]. cbn [drive].
  destruct (s_ltb S tol (err st)) eqn:C; [|eauto].
  destruct (T st I C) as (r & B). rewrite B. cbn [obind]. destruct r as [s1 st1|st1]; [eauto|].
  destruct (K st st1 I C B). apply IH; auto; lia.
Qed.

(** More fuel changes nothing. *)
Lemma drive_mono fuel fuel' st r : (fuel <= fuel')%nat -> drive err tol body fuel st = Ok r -> drive err tol body fuel' st = Ok r.
Proof.
  revert fuel' st r. induction fuel as [|fuel IH]; intros fuel' st r L H; [discriminate|].
  destruct fuel' as [|fuel']; [lia|]. cbn [drive] in *. destruct (s_ltb S tol (err st)); auto.
  apply obind_ok in H. destruct H as (p & B & H). rewrite B. cbn [obind]. destruct p; auto. apply IH; auto; lia.
Qed.
End Drive.

(** The limits at the end of an iteration. *)
Lemma limits_none {S : nops} (o : options S) clock start it clk clk' :
  limits o clock start it clk = (None, clk') ->
  (it < o_max o)%Z /\ clk' = Datatypes.S clk /\ s_ltb S (o_timeout o) (s_sub S (clock clk) start) = false.
Proof.
  unfold limits. destruct (Z.leb_spec (o_max o) it); [discriminate|].
  destruct (s_ltb S _ _) eqn:T; intros H'; [discriminate|]. injection H' as <-. auto.
Qed.
Lemma limits_some {S : nops} (o : options S) clock start it clk s clk' :
  limits o clock start it clk = (Some s, clk') ->
  (s = MAX_ITERATIONS_EXCEEDED /\ (o_max o <= it)%Z /\ clk' = clk) \/
  (s = TIMEOUT /\ (it < o_max o)%Z /\ s_ltb S (o_timeout o) (s_sub S (clock clk) start) = true /\ clk' = Datatypes.S clk).
Proof.
  unfold limits. destruct (Z.leb_spec (o_max o) it). { intros H'. injection H' as <- <-. auto. }
  destruct (s_ltb S _ _) eqn:T; intros H'; [|discriminate]. injection H' as <- <-. auto.
Qed.

(** Halving a step size k times. *)
Definition halves {S : nops} (k : nat) (a : S) : S := Nat.iter k halve a.
Lemma halves_S {S : nops} k (a : S) : halves k (halve a) = halves (Datatypes.S k) a.
Proof. unfold halves. induction k as [|k IH]; [reflexivity|]. change (halve (Nat.iter k halve (halve a)) = halve (Nat.iter (Datatypes.S k) halve a)). f_equal. exact IH. Qed.
Lemma halves_S' {S : nops} k (a : S) : halves (Datatypes.S k) a = halve (halves k a).
Proof. reflexivity. Qed.
