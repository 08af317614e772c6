(** Assembly of the theorems about the restoration subproblem, and concrete cases. *)
From Coq Require Import ZArith Reals List Bool Lia Lra.
From Coquelicot Require Import Coquelicot.
From Verif Require Import Base ExprModel ExprReal ExprXR NumModel LinR UtilModel KktModel FilterModel ExitModel SolverModel NewtonModel SqpModel IpmModel RestoreModel
  XArith FinEval RestoreSpec FrProofs FrProofs2 FrProofs3 FrProofs4 FrProofs5.
Import ListNotations.
Local Open Scope R_scope.

Lemma c49_functions : forall (P : iprob Xn) (xr : list R) (zeta : R), length xr = ip_n P ->
  jacobian_of (ip_n P) (ip_me P) (ip_ce P) (ip_Ae P) -> jacobian_of (ip_n P) (ip_mi P) (ip_ci P) (ip_Ai P) ->
  let Q := fr_ipm_prob P (fv xr) (Fin zeta) in let k := (2 * ip_me P + 2 * ip_mi P)%nat in
  ip_n Q = (ip_n P + k)%nat /\ ip_me Q = ip_me P /\ ip_mi Q = (ip_mi P + k)%nat /\
  jacobian_of (ip_n Q) (ip_me Q) (ip_ce Q) (ip_Ae Q) /\ jacobian_of (ip_n Q) (ip_mi Q) (ip_ci Q) (ip_Ai Q) /\
  gradient_of (ip_n Q) (ip_f Q) (ip_g Q) /\
  (forall v, length v = ip_n Q -> ip_f Q (fv v) = Fin (restoration_cost (ip_n P) k xr zeta v)).
Proof.
  intros P xr zeta Hxr He Hi. cbv zeta. split; [reflexivity|]. split; [reflexivity|]. split; [reflexivity|].
  split; [exact (jac_e P xr zeta He)|]. split; [exact (jac_i P xr zeta Hi)|]. split; [exact (fr_gradient (ip_n P) _ xr zeta Hxr)|].
  intros v Hv. exact (fr_cost_fin (ip_n P) _ xr zeta Hxr v Hv).
Qed.
Lemma c49_functions_sqp : forall (P : sprob Xn) (xr : list R) (zeta : R), length xr = sp_n P ->
  jacobian_of (sp_n P) (sp_me P) (sp_ce P) (sp_Ae P) ->
  let Q := fr_sqp_prob P (fv xr) (Fin zeta) in let k := (2 * sp_me P)%nat in
  ip_n Q = (sp_n P + k)%nat /\ ip_me Q = sp_me P /\ ip_mi Q = k /\
  jacobian_of (ip_n Q) (ip_me Q) (ip_ce Q) (ip_Ae Q) /\ jacobian_of (ip_n Q) (ip_mi Q) (ip_ci Q) (ip_Ai Q) /\
  gradient_of (ip_n Q) (ip_f Q) (ip_g Q) /\
  (forall v, length v = ip_n Q -> ip_f Q (fv v) = Fin (restoration_cost (sp_n P) k xr zeta v)).
Proof.
  intros P xr zeta Hxr He. cbv zeta. rewrite sqp_as_ipm. replace (2 * sp_me P)%nat with (2 * ip_me (as_ipm P) + 2 * ip_mi (as_ipm P))%nat by (cbn; lia).
  apply (c49_functions (as_ipm P) xr zeta Hxr He). intros x Hx. cbn. repeat split; try (intros r []); lia.
Qed.
Lemma c49_zero : forall (P : iprob Xn) (xr x : list XR) (zeta : XR),
  length x = ip_n P -> length (ip_ce P x) = ip_me P -> length (ip_ci P x) = ip_mi P ->
  let Q := fr_ipm_prob P xr zeta in let w := x ++ repeat (Fin 0) (2 * ip_me P + 2 * ip_mi P) in
  satisfied (ip_ce Q w) (ip_ci Q w) <-> satisfied (ip_ce P x) (ip_ci P x).
Proof. intros P xr x zeta. exact (zero_satisfied P xr zeta x). Qed.
Lemma c49_zero_sqp : forall (P : sprob Xn) (xr x : list XR) (zeta : XR), length x = sp_n P -> length (sp_ce P x) = sp_me P ->
  let Q := fr_sqp_prob P xr zeta in let w := x ++ repeat (Fin 0) (2 * sp_me P) in
  satisfied (ip_ce Q w) (ip_ci Q w) <-> satisfied (sp_ce P x) [].
Proof.
  intros P xr x zeta Hx He. cbv zeta. rewrite sqp_as_ipm. replace (2 * sp_me P)%nat with (2 * ip_me (as_ipm P) + 2 * ip_mi (as_ipm P))%nat by (cbn; lia).
  exact (zero_satisfied (as_ipm P) xr zeta x Hx He eq_refl).
Qed.
Lemma c49_cheapest : forall (P : iprob Xn) (xr x e i : list R) (zeta : R),
  length x = ip_n P -> length e = ip_me P -> length i = ip_mi P -> ip_ce P (fv x) = fv e -> ip_ci P (fv x) = fv i ->
  let Q := fr_ipm_prob P (fv xr) (Fin zeta) in let k := (2 * ip_me P + 2 * ip_mi P)%nat in
  let relaxed w := satisfied (ip_ce Q (fv (x ++ w))) (ip_ci Q (fv (x ++ w))) in
  (forall w, length w = k -> relaxed w -> violation e i <= sumn k (fun j => nth j w 0)) /\
  (exists w, length w = k /\ relaxed w /\ sumn k (fun j => nth j w 0) = violation e i).
Proof. intros P xr x e i zeta Hx Le Li He Hi. exact (c49_violation P xr zeta x e i Hx He Hi Le Li). Qed.
Lemma c49_cheapest_sqp : forall (P : sprob Xn) (xr x e : list R) (zeta : R),
  length x = sp_n P -> length e = sp_me P -> sp_ce P (fv x) = fv e ->
  let Q := fr_sqp_prob P (fv xr) (Fin zeta) in let k := (2 * sp_me P)%nat in
  let relaxed w := satisfied (ip_ce Q (fv (x ++ w))) (ip_ci Q (fv (x ++ w))) in
  (forall w, length w = k -> relaxed w -> violation e [] <= sumn k (fun j => nth j w 0)) /\
  (exists w, length w = k /\ relaxed w /\ sumn k (fun j => nth j w 0) = violation e []).
Proof.
  intros P xr x e zeta Hx Le He. cbv zeta. rewrite sqp_as_ipm. replace (2 * sp_me P)%nat with (2 * ip_me (as_ipm P) + 2 * ip_mi (as_ipm P))%nat by (cbn; lia).
  exact (c49_violation (as_ipm P) xr zeta x e [] Hx He eq_refl Le eq_refl).
Qed.
Lemma c49_hess : forall (P : iprob Xn) (xr : list R) (zeta : R) (A0 B0 : list (list R)), length xr = ip_n P ->
  wf (ip_me P) (ip_n P) A0 -> wf (ip_mi P) (ip_n P) B0 ->
  (forall x, length x = ip_n P -> ip_Ae P (fv x) = fm A0) -> (forall x, length x = ip_n P -> ip_Ai P (fv x) = fm B0) ->
  let Q := fr_ipm_prob P (fv xr) (Fin zeta) in
  hessian_of (ip_n Q) (ip_me Q) (ip_mi Q) (ip_g Q) (ip_Ae Q) (ip_Ai Q) (ip_H Q).
Proof. intros P xr zeta A0 B0 Hxr WA WB HA HB. exact (fr_hessian P xr zeta A0 B0 Hxr WA WB HA HB). Qed.
Lemma c49_hess_refuted : exists P : sprob Xn,
  jacobian_of (sp_n P) (sp_me P) (sp_ce P) (sp_Ae P) /\
  hessian_of (sp_n P) (sp_me P) 0 (sp_g P) (sp_Ae P) (fun _ => []) (fun x y _ => sp_H P x y) /\ sp_Hc P = sp_H P /\ sp_g P = (fun _ => [Fin 0]) /\
  forall (xr : list R) (zeta : R), length xr = sp_n P -> let Q := fr_sqp_prob P (fv xr) (Fin zeta) in
    ~ hessian_of (ip_n Q) (ip_me Q) (ip_mi Q) (ip_g Q) (ip_Ae Q) (ip_Ai Q) (ip_H Q).
Proof.
  exists square. split; [exact square_jac|]. split; [exact square_hess|]. split; [reflexivity|]. split; [reflexivity|]. intros xr zeta H. exact (square_refuted xr zeta H).
Qed.

(** x^2 = 0 and x >= 1 *)
Definition square_ge : iprob Xn :=
  mkIP (S := Xn) 1 1 1 (fun _ => Fin 0) (fun _ => [Fin 0]) (fun x y _ => square_Hc x y) (fun x y _ => square_Hc x y) square_ce square_Ae
    (fun w => match w with [a] => [X_sub a (Fin 1)] | _ => [NaN] end) (fun _ => [[Fin 1]]) (mkSc (S := Xn) (Fin 1) [Fin 1] [Fin 1]).
Lemma c49_ex : jacobian_of 1 1 (ip_ce square_ge) (ip_Ae square_ge) /\ jacobian_of 1 1 (ip_ci square_ge) (ip_Ai square_ge) /\
  ip_ce square_ge (fv [-2]) = fv [4] /\ ip_ci square_ge (fv [-2]) = fv [-3] /\ violation [4] [-3] = 7 /\
  satisfied (ip_ce (fr_ipm_prob square_ge (fv [0]) (Fin 1)) (fv [-2; 4; 0; 0; 3])) (ip_ci (fr_ipm_prob square_ge (fv [0]) (Fin 1)) (fv [-2; 4; 0; 0; 3])).
Proof.
  split; [exact square_jac|]. split.
  { intros x Hx. destruct x as [|a [|]]; try discriminate. cbn. split; [reflexivity|]. split; [reflexivity|]. split; [intros r [<-|[]]; reflexivity|].
    intros i Hi. destruct i; [|lia]. split; [eexists; reflexivity|]. intros j Hj. destruct j; [|lia].
    eexists (fun t => t - 1), _. split; [reflexivity|]. split; [|reflexivity]. cbn. auto_derive; trivial; ring. }
  split; [cbn; do 2 f_equal; ring|]. split; [cbn; do 2 f_equal; ring|]. split.
  { unfold violation. cbn. unfold Rabs. destruct Rcase_abs; [lra|]. unfold Rmax. destruct Rle_dec; lra. }
  split; cbn; repeat constructor; cbn; try lra; f_equal; ring.
Qed.
Lemma c49_hess_ex : let P := as_ipm (mkSP (S := Xn) 1 1 (fun _ => Fin 0) (fun _ => [Fin 0]) (fun _ _ => [[Fin 0]]) (fun _ _ => [[Fin 0]])
      (fun w => match w with [a] => [X_mul (Fin 3) a] | _ => [NaN] end) (fun _ => [[Fin 3]]) (mkSc (S := Xn) (Fin 1) [Fin 1] [])) in
  wf (ip_me P) (ip_n P) [[3]] /\ wf (ip_mi P) (ip_n P) [] /\ (forall x, length x = ip_n P -> ip_Ae P (fv x) = fm [[3]]) /\ (forall x, length x = ip_n P -> ip_Ai P (fv x) = fm []).
Proof. cbn. split; [split; [reflexivity|intros r [<-|[]]; reflexivity]|]. split; [split; [reflexivity|intros r []]|]. auto. Qed.

Lemma c73_refuted_ex : exists (P : iprob Rn) (x s : list R) (mu : R),
  length x = ip_n P /\ length s = ip_mi P /\ @length R (ip_ce P x) = ip_me P /\ @length R (ip_ci P x) = ip_mi P /\ List.Forall (fun v => 0 < v) s /\ 0 < mu /\
  let '(frx, frs, frz, m) := fr_ipm_start (S := Rn) P x s mu in
  exists r, (r < ip_mi P + (2 * ip_me P + 2 * ip_mi P))%nat /\ (frs : list R).[r] * (frz : list R).[r] <> m.
Proof.
  exists linear1, [0], [], 1. do 4 (split; [reflexivity|]). split; [constructor|]. split; [lra|].
  assert (K : forall t : list R * list R * list R * R,
    (let '(frx, frs, frz, m) := t in m = 1 /\ frs = [1; 1] /\ frz.[0%nat] = 1000 /\ frz.[1%nat] = 1000) ->
    let '(frx, frs, frz, m) := t in exists r, (r < 2)%nat /\ frs.[r] * frz.[r] <> m).
  { intros [[[frx frs] frz] m] (-> & -> & H & _). exists 0%nat. split; [lia|]. rewrite H. cbn. lra. }
  exact (K (fr_ipm_start (S := Rn) linear1 [0] [] 1) c73_refuted).
Qed.
