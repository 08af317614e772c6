(** Witnesses for C37-C39. *)
From Coq Require Import ZArith Reals List Bool Arith Lia Lra.
From Verif Require Import Base ExprModel GraphSpec ExprReal ExprXR NumModel FilterProofs VarModel VarReach JacModel JacReach
  BoundsModel BoundsSpec BoundsProofs.
Import ListNotations.
Local Open Scope R_scope.

Lemma eqb_refl0 r : R_eqb r r = true.
Proof. unfold R_eqb. destruct (Req_EM_T r r); auto. Qed.

(** x - x. *)
Lemma c38_cancel : exists e js s m n nd,
  jruns (S := X_ops) jempty [JH HNew; JH (HBin BSub 0 0); JMake [1%nat] [0%nat]; JValue 0] (e, js, s) [OMat m] /\
  holds e 1 n /\ nth_error (st_nodes s) n = Some nd /\ n_type nd = LINEAR /\
  forall v x0, get_bounds [x0] [mkC true (stored_row m 0 1) v] = AssertFail.
Proof.
  eexists _, _, _, _, _, _. split.
  { eapply (jruns_cons _ _ _ []); [cbn; auto|cbn; reflexivity|].
    eapply (jruns_cons _ _ _ []); [cbn; auto|cbn; reflexivity|].
    eapply (jruns_cons _ _ _ []).
    { cbn. split; [intros i [<-|[]]; lia|]. intros i [<-|[]]. exists 0%nat. eexists. split; [reflexivity|].
      split; [reflexivity|]. eexists. split; reflexivity. }
    { cbn. reflexivity. }
    eapply (jruns_cons _ _ _ [_] _ _ []); [cbn; auto|cbn; reflexivity|constructor]. }
  split; [eexists; split; reflexivity|]. split; [reflexivity|]. split; [reflexivity|].
  intros v x0. unfold get_bounds. cbn -[R_eqb].
  replace (R_eqb _ 0) with true; [reflexivity|]. symmetry. unfold R_eqb. destruct (Req_EM_T _ 0) as [|N]; auto.
  exfalso. apply N. cbn. lra.
Qed.

(** A variable that is no decision variable of the problem. *)
Lemma c38_foreign : exists e js s m n nd,
  jruns (S := X_ops) jempty [JH HNew; JH HNew; JMake [1%nat] [0%nat]; JValue 0] (e, js, s) [OMat m] /\
  holds e 1 n /\ nth_error (st_nodes s) n = Some nd /\ n_type nd = LINEAR /\
  forall v x0, get_bounds [x0] [mkC true (stored_row m 0 1) v] = AssertFail.
Proof.
  eexists _, _, _, _, _, _. split.
  { eapply (jruns_cons _ _ _ []); [cbn; auto|cbn; reflexivity|].
    eapply (jruns_cons _ _ _ []); [cbn; auto|cbn; reflexivity|].
    eapply (jruns_cons _ _ _ []).
    { cbn. split; [intros i [<-|[]]; lia|]. intros i [<-|[]]. exists 0%nat. eexists. split; [reflexivity|].
      split; [reflexivity|]. eexists. split; reflexivity. }
    { cbn. reflexivity. }
    eapply (jruns_cons _ _ _ [_] _ _ []); [cbn; auto|cbn; reflexivity|constructor]. }
  split; [eexists; split; reflexivity|]. split; [reflexivity|]. split; [reflexivity|].
  intros v x0. reflexivity.
Qed.

(** x_0 >= 1 and 2 x_0 <= 8 on two variables, with x_0 + x_1 >= 0 and a nonlinear constraint. *)
Definition at_ (x : list XR) (i : nat) : XR := match nth_error x i with Some v => v | None => NaN end.
Definition ex_cs : list constr :=
  [ mkC true [(0%nat, Fin 1)] (fun x => X_sub (at_ x 0) (Fin 1));
    mkC true [(0%nat, Fin (-2))] (fun x => X_sub (Fin 8) (X_mul (Fin 2) (at_ x 0)));
    mkC true [(0%nat, Fin 1); (1%nat, Fin 1)] (fun x => X_add (at_ x 0) (at_ x 1));
    mkC false [(1%nat, Fin 0)] (fun x => X_mul (at_ x 1) (at_ x 1)) ].
Lemma ex_proper : List.Forall (proper 2) ex_cs.
Proof.
  apply List.Forall_cons; [|apply List.Forall_cons; [|apply List.Forall_cons; [|apply List.Forall_cons; [|constructor]]]].
  - intros _. left. exists 0%nat, 1, (-1). split; [lia|]. split; [reflexivity|]. split; [lra|].
    intros x r L H. cbn. unfold at_. rewrite H. cbn. f_equal. lra.
  - intros _. left. exists 0%nat, (-2), 8. split; [lia|]. split; [reflexivity|]. split; [lra|].
    intros x r L H. cbn. unfold at_. rewrite H. cbn. f_equal. lra.
  - intros _. right. cbn. lia.
  - discriminate.
Qed.
(** ... and with x_0 >= 5 added, a conflict. *)
Definition ex_bad : list constr := ex_cs ++ [mkC true [(0%nat, Fin 1)] (fun x => X_sub (at_ x 0) (Fin 5))].
Lemma ex_bad_proper : List.Forall (proper 2) ex_bad.
Proof.
  apply Forall_app. split; [exact ex_proper|]. apply List.Forall_cons; [|constructor].
  intros _. left. exists 0%nat, 1, (-5). split; [lia|]. split; [reflexivity|]. split; [lra|].
  intros x r L H. cbn. unfold at_. rewrite H. cbn. f_equal. lra.
Qed.
Lemma ex_conflict : exists s, get_bounds [NaN; Fin 3] ex_bad = Ok s /\ b_conflicts s <> [].
Proof.
  destruct (c37 [NaN; Fin 3] ex_bad ex_bad_proper) as (s & E & _ & _ & _ & _ & (_ & C) & _). exists s. split; [exact E|].
  apply C. exists (mkC true [(0%nat, Fin 1)] (fun x => X_sub (at_ x 0) (Fin 5))),
    (mkC true [(0%nat, Fin (-2))] (fun x => X_sub (Fin 8) (X_mul (Fin 2) (at_ x 0)))), 0%nat.
  split; [unfold ex_bad; apply in_or_app; right; left; reflexivity|].
  split; [unfold ex_bad; apply in_or_app; left; right; left; reflexivity|].
  split; [split; [reflexivity|eexists; reflexivity]|]. split; [split; [reflexivity|eexists; reflexivity]|].
  intros [|y0 y] L; [discriminate|]. intros [(r & E1 & H1) (r' & E2 & H2)]. cbn in E1, E2.
  injection E1 as <-. injection E2 as <-. lra.
Qed.
