(** Statements of JacUserProps.v at the two scalar types, and the example. *)
From Coq Require Import ZArith Reals List Bool Arith Lia Lra.
From Coquelicot Require Import Coquelicot.
From Verif Require Import Base ExprModel ExprReal ExprXR FaithX MathSpec DiffSpec OpDeriv VarModel VarSpec Faith JacModel JacReach SmoothSpec SmoothGraph SmoothUser JacUserSpec JacUser.
Import ListNotations.
Local Open Scope nat_scope.

Lemma jinj_R (l : list (jop R_ops)) : map (jinj (K := R_ops)) l = l.
Proof. induction l as [|o l IH]; cbn [map]; [reflexivity|]. rewrite IH. destruct o; cbn [jinj]; rewrite ?hinj_R; reflexivity. Qed.

Lemma c29_programs (l : list (jop R_ops)) u qs : urun l uempty = Some (u, qs) ->
  exists q out, jruns (S := R_ops) jempty l q out /\ Forall2 (right_out (K := R_ops) (fun x => x)) qs out.
Proof. intros H. rewrite <- (jinj_R l). exact (user_derivatives (K := R_ops) l u qs H). Qed.

Lemma c29_programs_X (l : list (jop R_ops)) u qs : urun l uempty = Some (u, qs) ->
  exists q out, jruns (S := X_ops) jempty (map jinj l) q out /\ Forall2 (right_out (K := X_ops) Fin) qs out.
Proof. exact (user_derivatives (K := X_ops) l u qs). Qed.

Lemma c29_programs_ex : exists u qs,
  urun [JH HNew; JH HNew; JH (HBin BMul 0 1); JH (HUn USin 2); JHess 3 [0; 1] false; JHess 3 [1; 0] true;
        JH (HSet (S := R_ops) 0 2%R); JH (HSet (S := R_ops) 1 3%R); JValue 0; JValue 1; JMake [3; 2] [1]; JValue 2; JH (HValue 3)] uempty = Some (u, qs) /\
  (exists rho, qs = [QObj (UHess (XUn USin (XBin BMul (XVar 0) (XVar 1))) [0; 1] false) rho;
                     QObj (UHess (XUn USin (XBin BMul (XVar 0) (XVar 1))) [1; 0] true) rho;
                     QObj (UJac [XUn USin (XBin BMul (XVar 0) (XVar 1)); XBin BMul (XVar 0) (XVar 1)] [1]) rho;
                     QExp (XUn USin (XBin BMul (XVar 0) (XVar 1))) rho] /\
     rho 0 = 2%R /\ rho 1 = 3%R /\
     XSm rho (XUn USin (XBin BMul (XVar 0) (XVar 1))) (sin (2 * 3)) /\
     pd 1 (pd 0 (fn (XUn USin (XBin BMul (XVar 0) (XVar 1))))) rho (cos (2 * 3) - 2 * 3 * sin (2 * 3))%R).
Proof.
  do 2 eexists. split; [vm_compute; reflexivity|]. eexists. split; [reflexivity|]. split; [reflexivity|]. split; [reflexivity|].
  match goal with |- XSm ?r _ _ /\ _ => set (rho := r) end.
  assert (Ev : forall r a b, r 0 = a -> r 1 = b -> XSm r (XUn USin (XBin BMul (XVar 0) (XVar 1))) (sin (a * b))).
  { intros r a b <- <-. econstructor; [econstructor; [constructor|constructor|constructor|left; exact I|intros []]|constructor|exact I|intros []]. }
  split; [apply Ev; reflexivity|].
  exists (fun t => (cos (2 * t) * t)%R). split.
  - apply (filter_forall (F := locally (rho 1))). intros t. exists (fun z => sin (z * t)). split.
    + apply (filter_forall (F := locally (upd rho 1 t 0))). intros z. apply XSm_XEv, Ev; reflexivity.
    + change (upd rho 1 t 0) with 2%R. auto_derive; [exact I|]. ring.
  - change (rho 1) with 3%R. auto_derive; [exact I|]. ring.
Qed.
