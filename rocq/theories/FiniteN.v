(** Proofs for C87: Newton's method on numbers stays with numbers. *)
From Coq Require Import ZArith Reals List Bool Lra Lia.
From Verif Require Import Base ExprModel ExprReal ExprXR NumModel UtilModel KktModel FilterModel ExitModel SolverModel SolverSpec SolverProofs
  NewtonModel NewtonProofs IpmModel IpmShape XArith PosX PosProofs FiniteSpec FiniteI.
Import ListNotations.
Local Open Scope R_scope.

Section Newton.
Variables (E : env Xn) (P : nprob Xn) (o : options Xn).
Context {U : Type}.
Variable cbs : list (callback Xn U).
Hypothesis Fp : fin_newton P.
Hypothesis Hl : lin_fin_any E.
Hypothesis Hs : solve_ok E.
Hypothesis Hg : forall x, length x = np_n P -> length (np_g P x) = np_n P.
Variable V : U -> Prop.
Hypothesis Hv : forall i u, shownf i -> V u -> V (fst (run_callbacks cbs i u)).

Lemma nsearch_fin (x : list XR) f g p d : vfin x -> length x = np_n P -> vfin p -> length p = np_n P -> forall fuel a flt x' f' a' flt', (exists b, a = Fin b) ->
  newton_search P fuel x f g p d a flt = Ok (NStep x' f' a' flt') -> vfin x' /\ length x' = np_n P.
Proof.
  intros Fx Lx Fq Lq. induction fuel as [|fuel IH]; intros a flt x' f' a' flt' (b & ->) H; cbn [newton_search] in H; [discriminate|]. cbv zeta in H.
  assert (K : forall c, vfin (vstep (S := Xn) x (Fin c) p) /\ length (vstep (S := Xn) x (Fin c) p) = np_n P) by (intros c; split; [apply f_step; auto|apply (vstep_len (S := Xn)); auto]).
  destruct (negb _). { destruct (s_ltb Xn _ _); [discriminate|]. eapply IH; [|exact H]. exists (b / 2). apply xhalve. }
  destruct (try_add _ _ _ _ _) as [flt1 ok]. destruct ok; [injection H as <- _ _ _; apply K|].
  destruct (s_ltb Xn _ _); [|eapply IH; [|exact H]; exists (b / 2); apply xhalve].
  destruct (s_leb Xn _ _); [|discriminate]. injection H as <- _ _ _. apply (K 1).
Qed.

Definition nf_inv (st : nstate E (U := U)) : Prop := vfin (n_x _ st) /\ length (n_x _ st) = np_n P /\ n_g _ st = np_g P (n_x _ st) /\ n_H _ st = np_H P (n_x _ st) /\ V (n_u _ st).
Lemma nbody_fin fuel start st r : nf_inv st -> newton_body E P cbs o fuel start st = Ok r -> nf_inv (match r with Next st => st | Exit _ st => st end).
Proof.
  intros (Fx & Lx & Eg & EH & Vu) H. unfold newton_body in H. destruct (diverging _). { injection H as <-. split; [|split; [|split; [|split]]]; assumption. }
  assert (Sh : shownf (newton_info E st)) by (split; [exact Fx|]; split; [constructor|]; split; constructor).
  pose proof (Hv _ _ Sh Vu) as Vc. destruct (run_callbacks _ _ _) as [u stop]. cbn [fst] in Vc. destruct stop. { injection H as <-. split; [|split; [|split; [|split]]]; assumption. }
  cbv zeta in H. apply obind_ok in H. destruct H as (rs & Se & H). destruct (Fp _ Lx Fx) as [F1 F2].
  destruct rs as [x f a flt|flt]; [|injection H as <-; split; [|split; [|split; [|split]]]; assumption].
  apply nsearch_fin in Se; auto; [| | |exists 1; reflexivity].
  - destruct Se as [S1 S2]. destruct (limits _ _ _ _ _) as [l clk]. injection H as <-. destruct l; (split; [exact S1|]; split; [exact S2|]; split; [reflexivity|]; split; [reflexivity|exact Vc]).
  - apply Hl; cbn [k_tl k_bl]; [rewrite EH; exact F2|constructor|]. apply f_neg. rewrite Eg. exact F1.
  - etransitivity; [apply Hs|]. etransitivity; [apply (vneg_len (S := Xn)); reflexivity|]. rewrite Eg. apply Hg, Lx.
Qed.
Lemma newton_fin fuel x (u : U) clk0 st fin : length x = np_n P -> vfin x -> V u -> newton E P cbs o fuel x u clk0 = Ok (st, fin) -> V (n_u _ fin) /\ vfin (n_x _ fin).
Proof.
  intros Lx Fx Vu H. unfold newton in H. apply oassert_ok in H. destruct H as [_ H]. destruct (_ || _) in H. { injection H as <- <-. split; assumption. }
  apply (drive_ok _ _ _ nf_inv) in H.
  - destruct H as (st1 & I & [(-> & -> & L)|(L & B)]); [split; apply I|]. pose proof (nbody_fin _ _ _ _ I B) as K. split; apply K.
  - intros st1 st2 I _ B. exact (nbody_fin _ _ _ _ I B).
  - split; [exact Fx|]. split; [exact Lx|]. split; [reflexivity|]. split; [reflexivity|exact Vu].
Qed.
End Newton.
