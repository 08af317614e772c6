(** Callbacks of which one throws at the first call, and runs which no exception left. *)
From Coq Require Import ZArith List Bool Lia.
From Verif Require Import Base ExprModel ExprXR VarModel NumModel UtilModel KktModel FilterModel ExitModel SolverModel SolverProofs NewtonModel SqpModel IpmModel RestoreModel CbModel CbSpec CbProofs PySigModel PySigSpec.
Import ListNotations.

Section Sig.
Context {S : nops}.

Lemma run_app {U} (a b : list (tcallback S U)) i x u :
  run_t (a ++ b) i x u = let '(v, r) := run_t a i x u in match r with AGo => run_t b i x v | _ => (v, r) end.
Proof. revert u. induction a as [|cb a IH]; intros u; [reflexivity|]. cbn [app run_t]. destruct (cb i x u) as [v []]; auto. Qed.
Lemma run_lift {U} (a : list (tcallback S U)) i x u : run_t (map lift_t a) i x u = let '(v, r) := run_t a i x (fst u) in ((v, snd u), r).
Proof.
  revert u. induction a as [|cb a IH]; intros [u f]; [reflexivity|]. cbn [map run_t fst snd]. unfold lift_t at 1. cbn [fst snd]. destruct (cb i x u) as [v []]; cbn [fst snd]; auto.
  rewrite IH. reflexivity.
Qed.

(** ** No call of the callbacks lets the solver go on *)
Definition stuck {U} (stop : Prop) (held : U -> Prop) (cbs : list (tcallback S U)) : Prop := forall i x u, held u ->
  match snd (run_t cbs i x u) with AGo => False | AStop => stop | AThrow => True end.
Definition early (stop : Prop) (s : status) : Prop := before_a_step s /\ (s = CALLBACK_REQUESTED_STOP -> stop).
Definition stays {U St} (stop : Prop) (xs : St -> list S) (x : list S) (cur : list S) (r : res (S := S) U (status * St)) : Prop :=
  match r with Done (s, st) => xs st = x /\ early stop s | Thrown _ c => c = cur end.
Lemma drive_stuck {U St} stop (xs : St -> list S) err tol body fuel (st : St) cur :
  match body st cur with Ok (Done (Exit s (st', _))) => xs st' = xs st /\ early stop s | Ok (Thrown _ c) => c = cur | _ => False end ->
  exists r, drive_t (U := U) err tol body (Datatypes.S fuel) st cur = Ok r /\ stays stop xs (xs st) cur r.
Proof.
  intros H. cbn [drive_t]. destruct (s_ltb S _ _); [|eexists; split; [reflexivity|split; [reflexivity|split; [exact I|discriminate]]]].
  destruct (body st cur) as [[[s [st' c]|]|u c]| | |]; try contradiction; cbn [rbind obind]; eexists; (split; [reflexivity|exact H]).
Qed.

Variables (E : env S) (o : options S).
Lemma newton_stuck {U} P cbs left fuel x (u : U) clk cur held stop : stuck stop held cbs -> held u ->
  vec_dim (np_n P) (np_g P x) && mat_dims (np_n P) (np_n P) (np_H P x) = true ->
  exists r, newton_t E o P cbs left (Datatypes.S fuel) x u clk cur = Ok r /\ stays stop (n_x E) x (firstn (np_n P) x) r.
Proof.
  intros K Hu D. unfold newton_t, newton_init. cbv zeta. cbn [n_g n_H n_f]. rewrite D. cbn [oassert]. destruct (_ || _); [eexists; split; [reflexivity|split; [reflexivity|split; [exact I|discriminate]]]|].
  rewrite evals_true by (left; reflexivity). match goal with |- context [drive_t _ _ _ _ ?st _] => apply (drive_stuck stop (n_x E) _ _ _ fuel st) end.
  unfold newton_body_t. cbn [n_x n_u]. destruct (diverging x); [split; [reflexivity|split; [exact I|discriminate]]|].
  match goal with |- context [run_t cbs ?i ?c u] => pose proof (K i c u Hu) as Q; destruct (run_t cbs i c u) as [v []] end; [contradiction Q|split; [reflexivity|split; [exact I|intros _; exact Q]]|reflexivity].
Qed.
Lemma sqp_stuck {U} P cbs left restore fuel x (u : U) clk cur held stop : stuck stop held cbs -> held u ->
  (let y := repeat (s_ofZ S 0) (sp_me P) in vec_dim (sp_n P) (sp_g P x) && mat_dims (sp_n P) (sp_n P) (sp_H P x y) && vec_dim (sp_me P) (sp_ce P x) && mat_dims (sp_me P) (sp_n P) (sp_Ae P x)) = true ->
  exists r, sqp_t E o P cbs left restore (Datatypes.S fuel) x u clk cur = Ok r /\ stays stop (s_x E) x (firstn (sp_n P) x) r.
Proof.
  intros K Hu D. unfold sqp_t, sqp_init. cbv zeta in *. cbn [s_g s_H s_f s_ce s_Ae]. rewrite D. cbn [oassert]. destruct (Nat.ltb _ _); [eexists; split; [reflexivity|split; [reflexivity|split; [exact I|discriminate]]]|].
  destruct (_ || _); [eexists; split; [reflexivity|split; [reflexivity|split; [exact I|discriminate]]]|].
  rewrite evals_true by (left; reflexivity). match goal with |- context [drive_t _ _ _ _ ?st _] => apply (drive_stuck stop (s_x E) _ _ _ fuel st) end.
  unfold sqp_body_t. cbv zeta. cbn [s_x s_u s_Ae s_ce]. destruct (eq_infeasible _ _ _); [split; [reflexivity|split; [exact I|discriminate]]|]. destruct (diverging x); [split; [reflexivity|split; [exact I|discriminate]]|].
  match goal with |- context [run_t cbs ?i ?c u] => pose proof (K i c u Hu) as Q; destruct (run_t cbs i c u) as [v []] end; [contradiction Q|split; [reflexivity|split; [exact I|intros _; exact Q]]|reflexivity].
Qed.
Lemma ipm_stuck {U} P cbs left restore fuel infr x s y z mu it (u : U) clk cur held stop : stuck stop held cbs -> held u ->
  (let st := ipm_init E P infr x s y z mu it u clk in vec_dim (ip_n P) (is_g E st) && mat_dims (ip_n P) (ip_n P) (is_H E st) && vec_dim (ip_me P) (is_ce E st)
           && mat_dims (ip_me P) (ip_n P) (is_Ae E st) && vec_dim (ip_mi P) (is_ci E st) && mat_dims (ip_mi P) (ip_n P) (is_Ai E st)) = true ->
  exists r, ipm_from_t E o P (touch_all (ip_n P)) cbs left restore (Datatypes.S fuel) infr x s y z mu it u clk cur = Ok r /\ stays stop (is_x E) x (firstn (ip_n P) x) r.
Proof.
  intros K Hu D. unfold ipm_from_t. cbv zeta in *. rewrite D. cbn [oassert]. clear D. destruct (Nat.ltb _ _); [eexists; split; [reflexivity|split; [reflexivity|split; [exact I|discriminate]]]|].
  destruct (_ || _); [eexists; split; [reflexivity|split; [reflexivity|split; [exact I|discriminate]]]|].
  cbn [touch_all t_f t_g t_H t_ce t_Ae t_ci t_Ai t_n]. rewrite evals_true by (left; reflexivity).
  match goal with |- context [drive_t _ _ _ _ ?st _] => apply (drive_stuck stop (is_x E) _ _ _ fuel st) end.
  unfold ipm_body_t. cbv zeta. destruct (eq_infeasible _ _ _); [split; [reflexivity|split; [exact I|discriminate]]|]. destruct (ineq_infeasible _ _ _); [split; [reflexivity|split; [exact I|discriminate]]|]. destruct (_ || _); [split; [reflexivity|split; [exact I|discriminate]]|].
  match goal with |- context [run_t cbs ?i ?c ?v] => pose proof (K i c v Hu) as Q; destruct (run_t cbs i c v) as [w []] end; [contradiction Q|split; [reflexivity|split; [exact I|intros _; exact Q]]|reflexivity].
Qed.

(** ** Runs that end do the same with callbacks that throw less *)
Definition upto {U A} (m m' : outcome (res (S := S) U A)) : Prop := forall a, m = Ok (Done a) -> m' = Ok (Done a).
Definition calmer {U} (cbs cbs' : list (tcallback S U)) : Prop := forall i x u, snd (run_t cbs i x u) <> AThrow -> run_t cbs' i x u = run_t cbs i x u.
Lemma upto_refl {U A} (m : outcome (res U A)) : upto m m. Proof. intros a H. exact H. Qed.
Lemma upto_bind {U A B} (m m' : outcome (res U A)) (f f' : A -> outcome (res U B)) : upto m m' -> (forall a, upto (f a) (f' a)) -> upto (rbind m f) (rbind m' f').
Proof. intros H K b Hb. destruct m as [[a|]| | |]; try discriminate Hb. rewrite (H a eq_refl). exact (K a b Hb). Qed.
Lemma upto_forget {U A} (m m' : outcome (res (U * filter S) A)) : upto m m' -> upto (forget m) (forget m').
Proof. intros H b Hb. destruct m as [[a|]| | |]; try discriminate Hb. rewrite (H a eq_refl). exact Hb. Qed.
Lemma upto_obind {U A B} (m : outcome A) (f f' : A -> outcome (res U B)) : (forall a, upto (f a) (f' a)) -> upto (obind m f) (obind m f').
Proof. intros H. destruct m; cbn [obind]; [apply H|apply upto_refl..]. Qed.
Lemma calmer_lift {U} (cbs cbs' : list (tcallback S U)) own : calmer cbs cbs' -> calmer (map lift_t cbs ++ [own]) (map lift_t cbs' ++ [own]).
Proof.
  intros C i x u. rewrite !run_app, !run_lift. specialize (C i x (fst u)). destruct (run_t cbs i x (fst u)) as [v r]. cbn [snd] in C. intros H.
  rewrite C; [reflexivity|]. intros ->. apply H. reflexivity.
Qed.
Lemma drive_upto {U St} err tol body body' fuel : (forall (st : St) cur, upto (U := U) (body st cur) (body' st cur)) ->
  forall st cur, upto (drive_t err tol body fuel st cur) (drive_t err tol body' fuel st cur).
Proof.
  intros H. induction fuel as [|fuel IH]; intros st cur; [apply upto_refl|]. cbn [drive_t]. destruct (s_ltb S _ _); [|apply upto_refl].
  apply upto_bind; [apply H|]. intros [s [st1 c]|[st1 c]]; [apply upto_refl|apply IH].
Qed.
Lemma upto_assert {U A} b (m m' : outcome (res U A)) : upto m m' -> upto (oassert b m) (oassert b m').
Proof. intros H. destruct b; [exact H|apply upto_refl]. Qed.

Lemma newton_upto {U} P (cbs cbs' : list (tcallback S U)) left fuel x u clk cur : calmer cbs cbs' -> upto (newton_t E o P cbs left fuel x u clk cur) (newton_t E o P cbs' left fuel x u clk cur).
Proof.
  intros C. unfold newton_t. cbv zeta. apply upto_assert. destruct (_ || _); [apply upto_refl|]. apply drive_upto. clear cur. intros st cur. unfold newton_body_t.
  destruct (diverging _); [apply upto_refl|]. specialize (C (newton_info E st) cur (n_u E st)). destruct (run_t cbs _ _ _) as [v []]; cbn [snd] in C.
  - rewrite C by discriminate. apply upto_refl.
  - rewrite C by discriminate. apply upto_refl.
  - intros a H. discriminate H.
Qed.
Section Ipm.
Context {U : Type}.
Notation trestorer := (list (tcallback S (U * filter S)) -> list S -> list S -> list S -> list S -> S -> Z -> U * filter S -> nat -> list S ->
  outcome (res (S := S) (U * filter S) (status * irestored S U))).
Lemma ipm_upto P w (cbs cbs' : list (tcallback S U)) left (restore restore' : option trestorer) fuel infr x s y z mu it u clk cur : calmer cbs cbs' ->
  match restore, restore' with
  | None, None => True
  | Some r, Some r' => forall cs cs' a1 a2 a3 a4 a5 a6 a7 a8 a9, calmer cs cs' -> upto (r cs a1 a2 a3 a4 a5 a6 a7 a8 a9) (r' cs' a1 a2 a3 a4 a5 a6 a7 a8 a9)
  | _, _ => False
  end ->
  upto (ipm_from_t E o P w cbs left restore fuel infr x s y z mu it u clk cur) (ipm_from_t E o P w cbs' left restore' fuel infr x s y z mu it u clk cur).
Proof.
  intros C R. unfold ipm_from_t. cbv zeta. apply upto_assert. destruct (Nat.ltb _ _); [apply upto_refl|]. destruct (_ || _); [apply upto_refl|]. apply drive_upto. clear cur. intros st cur. unfold ipm_body_t. cbv zeta.
  destruct (eq_infeasible _ _ _); [apply upto_refl|]. destruct (ineq_infeasible _ _ _); [apply upto_refl|]. destruct (_ || _); [apply upto_refl|].
  pose proof (C (ipm_info E st) cur (is_u E st)) as C1. destruct (run_t cbs _ _ _) as [v []]; cbn [snd] in C1; [|rewrite C1 by discriminate; apply upto_refl|intros a H; discriminate H].
  rewrite C1 by discriminate. destruct (ls_compute _ _ _) as [ls []]; cbn [negb]; [|apply upto_refl].
  apply upto_obind. intros r. destruct (if s_ltb S _ _ then None else if_t r) as [t|]; [apply upto_refl|].
  destruct restore as [rst|], restore' as [rst'|]; try contradiction; [|apply upto_refl].
  apply upto_bind; [|intros a; apply upto_refl]. apply upto_forget. apply R. apply calmer_lift. exact C.
Qed.
End Ipm.
Lemma ipm_restore_upto {U} left fuel P cs cs' x s y z mu it (uf : U * filter S) clk cur : calmer cs cs' ->
  upto (ipm_restore_t E o left fuel P cs x s y z mu it uf clk cur) (ipm_restore_t E o left fuel P cs' x s y z mu it uf clk cur).
Proof.
  intros C. unfold ipm_restore_t. cbv zeta. destruct (fr_ipm_start P x s mu) as [[[frx frs] frz] frmu]. apply upto_bind; [|intros a; apply upto_refl].
  apply ipm_upto; [exact C|exact I].
Qed.
Lemma ipm_solve_upto {U} (l : leaves E U) fuel P cbs cbs' x u clk cur : calmer cbs cbs' -> upto (ipm_solve_t E o l fuel P cbs x u clk cur) (ipm_solve_t E o l fuel P cbs' x u clk cur).
Proof. intros C. unfold ipm_solve_t. apply ipm_upto; [exact C|]. intros. apply ipm_restore_upto. assumption. Qed.
Lemma sqp_restore_upto {U} left fuel P cs cs' x y it (uf : U * filter S) clk cur : calmer cs cs' ->
  upto (sqp_restore_t E o left fuel P cs x y it uf clk cur) (sqp_restore_t E o left fuel P cs' x y it uf clk cur).
Proof.
  intros C. unfold sqp_restore_t. cbv zeta. destruct (fr_sqp_start o P x) as [[frx frz] mu]. apply upto_bind; [|intros a; apply upto_refl].
  apply ipm_upto; [exact C|exact I].
Qed.
Lemma sqp_solve_upto {U} (l : leaves E U) fuel P cbs cbs' x u clk cur : calmer cbs cbs' -> upto (sqp_solve_t E o l fuel P cbs x u clk cur) (sqp_solve_t E o l fuel P cbs' x u clk cur).
Proof.
  intros C. unfold sqp_solve_t, sqp_t. cbv zeta. apply upto_assert. destruct (Nat.ltb _ _); [apply upto_refl|]. destruct (_ || _); [apply upto_refl|]. apply drive_upto. clear cur. intros st cur. unfold sqp_body_t. cbv zeta.
  destruct (eq_infeasible _ _ _); [apply upto_refl|]. destruct (diverging _); [apply upto_refl|].
  pose proof (C (sqp_info E st) cur (s_u E st)) as C1. destruct (run_t cbs _ _ _) as [v []]; cbn [snd] in C1; [|rewrite C1 by discriminate; apply upto_refl|intros a H; discriminate H].
  rewrite C1 by discriminate. destruct (ls_compute _ _ _) as [ls []]; cbn [negb]; [|apply upto_refl].
  apply upto_obind. intros r. destruct (sf_t r) as [t|]; [apply upto_refl|].
  apply upto_bind; [|intros a; apply upto_refl]. apply upto_forget. apply sqp_restore_upto. apply calmer_lift. exact C.
Qed.
End Sig.
