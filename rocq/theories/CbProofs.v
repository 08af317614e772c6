(** Callbacks that read the decision variables find info.x; exceptions. *)
From Coq Require Import ZArith List Bool Lia.
From Verif Require Import Base ExprModel ExprXR VarModel NumModel UtilModel KktModel FilterModel ExitModel SolverModel SolverProofs NewtonModel SqpModel IpmModel RestoreModel CbModel CbSpec.
Import ListNotations.

Section Cb.
Context {S : nops}.

Lemma evals_true n (x : list S) l cur : In true l -> evals n x l cur = firstn n x.
Proof.
  unfold evals. revert cur. induction l as [|b l IH]; intros cur [].
  - subst b. cbn [fold_left]. clear IH. induction l as [|[] l IH]; cbn [fold_left]; auto.
  - cbn [fold_left]. apply IH. assumption.
Qed.

Lemma run_same {U} n (cbs cbs' : list (tcallback S U)) i u : Forall2 (agree n) cbs cbs' -> run_t cbs i (firstn n (i_x i)) u = run_t cbs' i (firstn n (i_x i)) u.
Proof.
  intros F. revert u. induction F as [|cb cb' cbs cbs' A F IH]; intros u; [reflexivity|]. cbn [run_t]. rewrite A.
  destruct (cb' i _ u) as [v []]; auto.
Qed.
Lemma lift_same {U} n (cb cb' : tcallback S U) : agree n cb cb' -> agree n (lift_t cb) (lift_t cb').
Proof. intros A i u. unfold lift_t. rewrite A. reflexivity. Qed.
Lemma lifts_same {U} n (cbs cbs' : list (tcallback S U)) own : Forall2 (agree n) cbs cbs' -> Forall2 (agree n) (map lift_t cbs ++ [own]) (map lift_t cbs' ++ [own]).
Proof.
  intros F. apply Forall2_app; [|constructor; [intros i u; reflexivity|constructor]].
  induction F; cbn [map]; constructor; auto. apply lift_same. assumption.
Qed.

(** Passes which differ at most in what a finished run leaves in the decision variables. *)
Inductive same_pass {U St : Type} (I : St -> list S -> Prop) : outcome (res (S := S) U (pass (St * list S))) -> outcome (res (S := S) U (pass (St * list S))) -> Prop :=
| sp_next st cur : I st cur -> same_pass I (Ok (Done (Next (st, cur)))) (Ok (Done (Next (st, cur))))
| sp_exit s st c c' : same_pass I (Ok (Done (Exit s (st, c)))) (Ok (Done (Exit s (st, c'))))
| sp_thrown u cur : same_pass I (Ok (Thrown u cur)) (Ok (Thrown u cur))
| sp_bad m : (forall r, m <> Ok r) -> same_pass I m m.
Lemma drive_t_eq {U St} (I : St -> list S -> Prop) err tol body body' fuel : (forall st cur, I st cur -> same_pass (U := U) I (body st cur) (body' st cur)) ->
  forall (st : St) cur, I st cur -> drive_t err tol body fuel st cur = drive_t err tol body' fuel st cur.
Proof.
  intros H. induction fuel as [|fuel IH]; intros st cur Hi; [reflexivity|]. cbn [drive_t]. destruct (s_ltb S _ _); [|reflexivity].
  destruct (H st cur Hi) as [st1 cur1 I1|s st1 c c'|u c|m Hm]; cbn [rbind obind]; auto.
  destruct m; try reflexivity. exfalso. exact (Hm _ eq_refl).
Qed.
(** The same with the decision variables holding anything, for runs that do not read them. *)
Lemma drive_t_own {U St} err tol (body : St -> list S -> outcome (res U (pass (St * list S)))) (pure : St -> outcome (pass St)) fuel :
  (forall st cur, exists c, body st cur = let* p := pure st in Ok (Done (with_cur p (c p)))) ->
  forall (st : St) cur, drive_t err tol body fuel st cur = rdone (drive err tol pure fuel st).
Proof.
  intros H. induction fuel as [|fuel IH]; intros st cur; [reflexivity|]. cbn [drive_t drive]. destruct (s_ltb S _ _); [|reflexivity].
  destruct (H st cur) as (c & ->). destruct (pure st) as [[s st1|st1]| | |]; cbn [obind rbind rdone with_cur]; auto.
Qed.

Definition at_x {St} (n : nat) (x : St -> list S) (st : St) (cur : list S) : Prop := cur = firstn n (x st).

Variables (E : env S) (o : options S).

(** ** Newton's method *)
Section Newton.
Context {U : Type}.
Variables (P : nprob S) (cbs cbs' : list (tcallback S U)) (left left' : nstate E (U := U) -> list S).
Hypothesis F : Forall2 (agree (np_n P)) cbs cbs'.
Lemma newton_body_same fuel start st cur : at_x (np_n P) (n_x E) st cur ->
  same_pass (at_x (np_n P) (n_x E)) (newton_body_t E o P cbs left fuel start st cur) (newton_body_t E o P cbs' left' fuel start st cur).
Proof.
  unfold at_x. intros ->. unfold newton_body_t. destruct (diverging _); [constructor|].
  pose proof (run_same _ _ _ (newton_info E st) (n_u E st) F) as Q. change (i_x (newton_info E st)) with (n_x E st) in Q. rewrite Q. clear Q.
  destruct (run_t _ _ _ _) as [u []]; [|constructor|constructor]. cbv zeta.
  destruct (newton_search _ _ _ _ _ _ _ _ _) as [[x f a flt|flt]| | |]; cbn [obind]; [|apply sp_exit|apply sp_bad; discriminate..].
  destruct (limits _ _ _ _ _) as [[l|] clk]; cbn [SolverModel.finish with_cur]; rewrite !evals_true by (left; reflexivity); constructor; reflexivity.
Qed.
Lemma newton_same fuel x u clk cur cur' : newton_t E o P cbs left fuel x u clk cur = newton_t E o P cbs' left' fuel x u clk cur'.
Proof.
  unfold newton_t. cbv zeta. f_equal. destruct (_ || _); [reflexivity|]. rewrite !evals_true by (left; reflexivity).
  apply (drive_t_eq (at_x (np_n P) (n_x E))); [|reflexivity]. intros st c Hc. apply newton_body_same, Hc.
Qed.
End Newton.

(** ** The interior-point method *)
Section Ipm.
Context {U : Type}.
Notation trestorer := (list (tcallback S (U * filter S)) -> list S -> list S -> list S -> list S -> S -> Z -> U * filter S -> nat -> list S ->
  outcome (res (S := S) (U * filter S) (status * irestored S U))).
Variables (P : iprob S) (w : touches) (cbs cbs' : list (tcallback S U)) (left left' : istate E (U := U) -> list S) (restore restore' : option trestorer).
Hypothesis F : Forall2 (agree (t_n w)) cbs cbs'.
Hypothesis Tw : In true [t_Ae w; t_Ai w; t_g w; t_H w].
Definition rst_same (n : nat) (r r' : trestorer) : Prop := forall cbs cbs' x s y z mu it uf clk cur cur', Forall2 (agree n) cbs cbs' ->
  r cbs x s y z mu it uf clk cur = r' cbs' x s y z mu it uf clk cur'.
Hypothesis R : match restore, restore' with None, None => True | Some r, Some r' => rst_same (t_n w) r r' | _, _ => False end.
Lemma ipm_next_same (m : outcome (pass (istate E (U := U)))) (x : list S) l l' : (forall p, m = Ok p -> match p with Next st => is_x E st = x | _ => True end) ->
  same_pass (U := U) (at_x (t_n w) (is_x E)) (let* p := m in Ok (Done (with_cur p (evals (t_n w) x [t_Ae w; t_Ai w; t_g w; t_H w] l))))
    (let* p := m in Ok (Done (with_cur p (evals (t_n w) x [t_Ae w; t_Ai w; t_g w; t_H w] l')))).
Proof.
  intros H. destruct m as [[s st|st]| | |]; cbn [obind with_cur]; try (apply sp_bad; discriminate); rewrite !evals_true by exact Tw; constructor.
  unfold at_x. rewrite (H _ eq_refl). reflexivity.
Qed.
Lemma end_x fuel start x s y z f ce ci mu tau flt cnt it (u : U) ls clk p :
  ipm_end E P o fuel start x s y z f ce ci mu tau flt cnt it u ls clk = Ok p -> match p with Next st => is_x E st = x | _ => True end.
Proof.
  unfold ipm_end. cbv zeta. intros H. apply obind_ok in H. destruct H as ([[mu' tau'] flt'] & _ & H).
  destruct (limits _ _ _ _ _) as [[l|] clk']; injection H as <-; cbn [SolverModel.finish]; auto.
Qed.
Lemma ipm_body_same fuel start st cur : at_x (t_n w) (is_x E) st cur ->
  same_pass (at_x (t_n w) (is_x E)) (ipm_body_t E o P w cbs left restore fuel start st cur) (ipm_body_t E o P w cbs' left' restore' fuel start st cur).
Proof.
  unfold at_x at 1. intros ->. unfold ipm_body_t. cbv zeta. destruct (eq_infeasible _ _ _); [constructor|]. destruct (ineq_infeasible _ _ _); [constructor|].
  destruct (_ || _); [constructor|].
  pose proof (run_same _ _ _ (ipm_info E st) (is_u E st) F) as Q. change (i_x (ipm_info E st)) with (is_x E st) in Q. rewrite Q. clear Q.
  destruct (run_t _ _ _ _) as [u []]; [|constructor|constructor].
  destruct (ls_compute _ _ _) as [ls []]; cbn [negb]; [|constructor].
  destruct (ipm_search _ _ _ _ _ _ _ _ _ _ _ _) as [r| | |]; cbn [obind]; try (apply sp_bad; discriminate).
  destruct (if s_ltb S _ _ then None else if_t r) as [t|].
  - destruct (clamp_zs _ _ _) as [z| | |]; cbn [obind]; try (apply sp_bad; discriminate). apply ipm_next_same. intros p. apply end_x.
  - destruct restore as [rst|], restore' as [rst'|]; try contradiction; [|constructor].
    rewrite (R _ _ _ _ _ _ _ _ _ _ _ (left' st) (lifts_same _ _ _ _ F)). destruct (rst' _ _ _ _ _ _ _ _ _ _) as [[[status q]|[v flt] c]| | |]; cbn [forget rbind obind fst]; try (apply sp_bad; discriminate); [|constructor].
    destruct (is_success status); [|constructor]. apply ipm_next_same. intros p. apply end_x.
Qed.
Lemma ipm_same fuel infr x s y z mu it u clk cur cur' :
  ipm_from_t E o P w cbs left restore fuel infr x s y z mu it u clk cur = ipm_from_t E o P w cbs' left' restore' fuel infr x s y z mu it u clk cur'.
Proof.
  unfold ipm_from_t. cbv zeta. f_equal. destruct (Nat.ltb _ _); [reflexivity|]. destruct (_ || _); [reflexivity|].
  assert (T7 : In true [t_f w; t_g w; t_H w; t_ce w; t_Ae w; t_ci w; t_Ai w]) by (cbn in *; tauto).
  rewrite !evals_true by exact T7. apply (drive_t_eq (at_x (t_n w) (is_x E))); [|reflexivity]. intros st c Hc. apply ipm_body_same, Hc.
Qed.
End Ipm.
Lemma ipm_restore_same {U} (left left' : istate E (U := U * filter S) -> list S) fuel P : rst_same (U := U) (ip_n P) (ipm_restore_t E o left fuel P) (ipm_restore_t E o left' fuel P).
Proof.
  intros cbs cbs' x s y z mu it uf clk cur cur' F. unfold ipm_restore_t. cbv zeta. destruct (fr_ipm_start P x s mu) as [[[frx frs] frz] frmu].
  rewrite (ipm_same (fr_ipm_prob P x (s_sqrt S frmu)) (touch_fr_ipm (ip_n P)) cbs cbs' left left' None None F (or_introl eq_refl) I fuel true frx frs
    (repeat (s_ofZ S 0) (length (ip_ce P x))) frz frmu it uf clk (firstn (ip_n P) x) (firstn (ip_n P) x)). reflexivity.
Qed.
Lemma ipm_solve_same {U} (l l' : leaves E U) fuel P cbs cbs' x u clk cur cur' : Forall2 (agree (ip_n P)) cbs cbs' ->
  ipm_solve_t E o l fuel P cbs x u clk cur = ipm_solve_t E o l' fuel P cbs' x u clk cur'.
Proof. intros F. unfold ipm_solve_t. apply ipm_same; [exact F|left; reflexivity|apply ipm_restore_same]. Qed.

(** ** SQP *)
Section Sqp.
Context {U : Type}.
Notation strestorer := (list (tcallback S (U * filter S)) -> list S -> list S -> Z -> U * filter S -> nat -> list S ->
  outcome (res (S := S) (U * filter S) (status * list S * list S * Z * (U * filter S) * nat))).
Variables (P : sprob S) (cbs cbs' : list (tcallback S U)) (left left' : sstate E (U := U) -> list S) (restore restore' : strestorer).
Hypothesis F : Forall2 (agree (sp_n P)) cbs cbs'.
Definition srst_same (n : nat) (r r' : strestorer) : Prop := forall cbs cbs' x y it uf clk cur cur', Forall2 (agree n) cbs cbs' -> r cbs x y it uf clk cur = r' cbs' x y it uf clk cur'.
Hypothesis R : srst_same (sp_n P) restore restore'.
Lemma sqp_next_same start x y f ce flt cnt it (u : U) ls clk l l' : let p := sqp_end E P o start x y f ce flt cnt it u ls clk in
  same_pass (U := U) (at_x (sp_n P) (s_x E)) (Ok (Done (with_cur p (evals (sp_n P) x [true; true; true] l)))) (Ok (Done (with_cur p (evals (sp_n P) x [true; true; true] l')))).
Proof.
  cbv zeta. rewrite !evals_true by (left; reflexivity). unfold sqp_end. cbv zeta.
  destruct (limits _ _ _ _ _) as [[s|] clk']; cbn [SolverModel.finish with_cur]; constructor; reflexivity.
Qed.
Lemma sqp_body_same fuel start st cur : at_x (sp_n P) (s_x E) st cur ->
  same_pass (at_x (sp_n P) (s_x E)) (sqp_body_t E o P cbs left restore fuel start st cur) (sqp_body_t E o P cbs' left' restore' fuel start st cur).
Proof.
  unfold at_x at 1. intros ->. unfold sqp_body_t. cbv zeta. destruct (eq_infeasible _ _ _); [constructor|]. destruct (diverging _); [constructor|].
  pose proof (run_same _ _ _ (sqp_info E st) (s_u E st) F) as Q. change (i_x (sqp_info E st)) with (s_x E st) in Q. rewrite Q. clear Q.
  destruct (run_t _ _ _ _) as [u []]; [|constructor|constructor].
  destruct (ls_compute _ _ _) as [ls []]; cbn [negb]; [|constructor].
  destruct (sqp_search _ _ _ _ _ _ _ _) as [r| | |]; cbn [obind]; try (apply sp_bad; discriminate).
  destruct (sf_t r) as [t|]; [apply sqp_next_same|].
  rewrite (R _ _ _ _ _ _ _ _ (left' st) (lifts_same _ _ _ _ F)). destruct (restore' _ _ _ _ _ _ _) as [[[[[[[status x] y] it] uf] clk]|[v flt] c]| | |]; cbn [forget rbind obind fst]; try (apply sp_bad; discriminate); [|constructor].
  destruct (is_success status); [|constructor]. apply sqp_next_same.
Qed.
Lemma sqp_same fuel x u clk cur cur' : sqp_t E o P cbs left restore fuel x u clk cur = sqp_t E o P cbs' left' restore' fuel x u clk cur'.
Proof.
  unfold sqp_t. cbv zeta. f_equal. destruct (Nat.ltb _ _); [reflexivity|]. destruct (_ || _); [reflexivity|]. rewrite !evals_true by (left; reflexivity).
  apply (drive_t_eq (at_x (sp_n P) (s_x E))); [|reflexivity]. intros st c Hc. apply sqp_body_same, Hc.
Qed.
End Sqp.
Lemma sqp_solve_same {U} (l l' : leaves E U) fuel P cbs cbs' x u clk cur cur' : Forall2 (agree (sp_n P)) cbs cbs' ->
  sqp_solve_t E o l fuel P cbs x u clk cur = sqp_solve_t E o l' fuel P cbs' x u clk cur'.
Proof.
  intros F. unfold sqp_solve_t. apply sqp_same; [exact F|]. clear. intros cbs cbs' x y it uf clk cur cur' F. unfold sqp_restore_t. cbv zeta.
  destruct (fr_sqp_start o P x) as [[frx frz] mu].
  rewrite (ipm_same (fr_sqp_prob P x (s_sqrt S mu)) (touch_fr_sqp (sp_n P)) cbs cbs' (l_fr E U l) (l_fr E U l') None None F (or_introl eq_refl) I fuel true frx
    (repeat (s_ofZ S 1) (2 * sp_me P)) (repeat (s_ofZ S 0) (sp_me P)) frz mu it uf clk (firstn (sp_n P) x) (firstn (sp_n P) x)). reflexivity.
Qed.

(** ** Callbacks that do not read the decision variables *)
Lemma run_own {U} (cbs : list (callback S U)) i cur u : run_t (map own_t cbs) i cur u = let '(v, b) := run_callbacks cbs i u in (v, answer_of b).
Proof.
  revert u. induction cbs as [|cb cbs IH]; intros u; [reflexivity|]. cbn [map run_t run_callbacks]. unfold own_t at 1.
  destruct (cb i u) as [v []]; cbn [answer_of]; auto.
Qed.
Lemma lift_own {U} n (cbs : list (callback S U)) own : Forall2 (agree n) (map lift_t (map own_t cbs) ++ [own_t own]) (map own_t (map lift_cb cbs ++ [own])).
Proof.
  rewrite map_app. apply Forall2_app; [|constructor; [intros i u; reflexivity|constructor]].
  induction cbs as [|cb cbs IH]; cbn [map]; constructor; [|exact IH]. intros i u. unfold lift_t, own_t, lift_cb. destruct (cb i (fst u)) as [v b]. reflexivity.
Qed.

Lemma newton_own {U} P (cbs : list (callback S U)) left fuel x u clk cur : newton_t E o P (map own_t cbs) left fuel x u clk cur = rdone (newton E P cbs o fuel x u clk).
Proof.
  unfold newton_t, newton. cbv zeta. destruct (_ && _); [|reflexivity]. cbn [oassert]. destruct (_ || _); [reflexivity|].
  apply drive_t_own. clear. intros st cur. unfold newton_body_t, newton_body. destruct (diverging _); [exists (fun _ => cur); reflexivity|].
  rewrite run_own. destruct (run_callbacks _ _ _) as [v []]; cbn [answer_of]; [exists (fun _ => cur); reflexivity|]. cbv zeta.
  destruct (newton_search _ _ _ _ _ _ _ _ _) as [[x1 f a flt|flt]| | |]; cbn [obind]; try (exists (fun _ => cur); reflexivity).
  - destruct (limits _ _ _ _ _) as [l clk']. eexists (fun _ => _). reflexivity.
  - exists (fun _ => left st). reflexivity.
Qed.
Section OwnIpm.
Context {U : Type}.
Variables (P : iprob S) (w : touches) (cbs : list (callback S U)) (left : istate E (U := U) -> list S).
Notation trestorer := (list (tcallback S (U * filter S)) -> list S -> list S -> list S -> list S -> S -> Z -> U * filter S -> nat -> list S ->
  outcome (res (S := S) (U * filter S) (status * irestored S U))).
Notation prestorer := (list (callback S (U * filter S)) -> list S -> list S -> list S -> list S -> S -> Z -> U * filter S -> nat -> outcome (status * irestored S U)).
Variables (rt : option trestorer) (rp : option prestorer).
Definition rst_own (n : nat) (r : trestorer) (r' : prestorer) : Prop := forall cbs cbs' x s y z mu it uf clk cur, Forall2 (agree n) cbs (map own_t cbs') ->
  r cbs x s y z mu it uf clk cur = rdone (r' cbs' x s y z mu it uf clk).
Hypothesis R : match rt, rp with None, None => True | Some r, Some r' => rst_own (t_n w) r r' | _, _ => False end.
Lemma ipm_own fuel infr x s y z mu it u clk cur :
  ipm_from_t E o P w (map own_t cbs) left rt fuel infr x s y z mu it u clk cur = rdone (ipm_from E P o cbs rp fuel infr x s y z mu it u clk).
Proof.
  unfold ipm_from_t, ipm_from. cbv zeta. destruct (_ && _); [|reflexivity]. cbn [oassert]. destruct (Nat.ltb _ _); [reflexivity|]. destruct (_ || _); [reflexivity|].
  apply drive_t_own. clear cur. intros st cur. unfold ipm_body_t, ipm_body. cbv zeta. destruct (eq_infeasible _ _ _); [exists (fun _ => cur); reflexivity|].
  destruct (ineq_infeasible _ _ _); [exists (fun _ => cur); reflexivity|]. destruct (_ || _); [exists (fun _ => cur); reflexivity|].
  rewrite run_own. destruct (run_callbacks _ _ _) as [v []]; cbn [answer_of]; [exists (fun _ => cur); reflexivity|].
  destruct (ls_compute _ _ _) as [ls []]; cbn [negb]; [|exists (fun _ => cur); reflexivity].
  destruct (ipm_search _ _ _ _ _ _ _ _ _ _ _ _) as [r| | |]; cbn [obind]; try (exists (fun _ => cur); reflexivity).
  destruct (if s_ltb S _ _ then None else if_t r) as [t|].
  - destruct (clamp_zs _ _ _) as [z1| | |]; cbn [obind]; try (exists (fun _ => cur); reflexivity). eexists (fun _ => _). reflexivity.
  - destruct rt as [rst|], rp as [rst'|]; try contradiction; [|exists (fun _ => cur); reflexivity].
    erewrite R by apply lift_own. destruct (rst' _ _ _ _ _ _ _ _ _) as [[status q]| | |]; cbn [rdone forget rbind obind]; try (exists (fun _ => cur); reflexivity).
    destruct (is_success status); [eexists (fun _ => _); reflexivity|exists (fun _ => cur); reflexivity].
Qed.
End OwnIpm.
Lemma ipm_restore_own {U} (left : istate E (U := U * filter S) -> list S) fuel P : rst_own (U := U) (ip_n P) (ipm_restore_t E o left fuel P) (ipm_restore E o fuel P).
Proof.
  intros cbs cbs' x s y z mu it uf clk cur F. rewrite (ipm_restore_same left left fuel P cbs (map own_t cbs') x s y z mu it uf clk cur cur F).
  unfold ipm_restore_t, ipm_restore. cbv zeta. destruct (fr_ipm_start P x s mu) as [[[frx frs] frz] frmu].
  rewrite (ipm_own (fr_ipm_prob P x (s_sqrt S frmu)) (touch_fr_ipm (ip_n P)) cbs' left None None I).
  destruct (ipm_from _ _ _ _ _ _ _ _ _ _ _ _ _ _ _) as [[st fin]| | |]; cbn [rdone rbind obind]; try reflexivity.
  destruct (match st with CALLBACK_REQUESTED_STOP => _ | _ => _ end) as [[y1 z1]| | |]; reflexivity.
Qed.
Lemma ipm_solve_own {U} (l : leaves E U) fuel P cbs x u clk cur : ipm_solve_t E o l fuel P (map own_t cbs) x u clk cur = rdone (ipm_solve E o fuel P cbs x u clk).
Proof. unfold ipm_solve_t, ipm_solve, ipm. apply ipm_own. apply ipm_restore_own. Qed.
Lemma sqp_restore_own {U} (left : istate E (U := U * filter S) -> list S) fuel P cbs cbs' x y it (uf : U * filter S) clk cur : Forall2 (agree (sp_n P)) cbs (map own_t cbs') ->
  sqp_restore_t E o left fuel P cbs x y it uf clk cur = rdone (sqp_restore E o fuel P cbs' x y it uf clk).
Proof.
  intros F. unfold sqp_restore_t, sqp_restore. cbv zeta. destruct (fr_sqp_start o P x) as [[frx frz] mu].
  rewrite (ipm_same (fr_sqp_prob P x (s_sqrt S mu)) (touch_fr_sqp (sp_n P)) cbs (map own_t cbs') left left None None F (or_introl eq_refl) I fuel true frx
    (repeat (s_ofZ S 1) (2 * sp_me P)) (repeat (s_ofZ S 0) (sp_me P)) frz mu it uf clk (firstn (sp_n P) x) (firstn (sp_n P) x)).
  rewrite (ipm_own (fr_sqp_prob P x (s_sqrt S mu)) (touch_fr_sqp (sp_n P)) cbs' left None None I).
  destruct (ipm_from _ _ _ _ _ _ _ _ _ _ _ _ _ _ _) as [[st fin]| | |]; reflexivity.
Qed.
Lemma sqp_solve_own {U} (l : leaves E U) fuel P cbs x u clk cur : sqp_solve_t E o l fuel P (map own_t cbs) x u clk cur = rdone (sqp_solve E o fuel P cbs x u clk).
Proof.
  unfold sqp_solve_t, sqp_t, sqp_solve, sqp, sqp_from. cbv zeta. destruct (_ && _); [|reflexivity]. cbn [oassert]. destruct (Nat.ltb _ _); [reflexivity|]. destruct (_ || _); [reflexivity|].
  apply drive_t_own. clear cur. intros st cur. unfold sqp_body_t, sqp_body. cbv zeta. destruct (eq_infeasible _ _ _); [exists (fun _ => cur); reflexivity|].
  destruct (diverging _); [exists (fun _ => cur); reflexivity|].
  rewrite run_own. destruct (run_callbacks _ _ _) as [v []]; cbn [answer_of]; [exists (fun _ => cur); reflexivity|].
  destruct (ls_compute _ _ _) as [ls []]; cbn [negb]; [|exists (fun _ => cur); reflexivity].
  destruct (sqp_search _ _ _ _ _ _ _ _) as [r| | |]; cbn [obind]; try (exists (fun _ => cur); reflexivity).
  destruct (sf_t r) as [t|]; [eexists (fun _ => _); reflexivity|].
  erewrite sqp_restore_own by apply lift_own. destruct (sqp_restore _ _ _ _ _ _ _ _ _ _) as [[[[[[status x1] y1] it1] uf1] clk1]| | |]; cbn [rdone forget rbind obind]; try (exists (fun _ => cur); reflexivity).
  destruct (is_success status); [eexists (fun _ => _); reflexivity|exists (fun _ => cur); reflexivity].
Qed.

(** ** Exceptions *)
Definition threw {U} (n : nat) (cbs : list (tcallback S U)) (u : U) (cur : list S) : Prop :=
  exists cb i u0, In cb cbs /\ cur = firstn n (i_x i) /\ diverging (i_x i) = false /\ cb i cur u0 = (u, AThrow).
Lemma run_threw {U} (cbs : list (tcallback S U)) i cur u v : run_t cbs i cur u = (v, AThrow) -> exists cb u0, In cb cbs /\ cb i cur u0 = (v, AThrow).
Proof.
  revert u. induction cbs as [|cb cbs IH]; intros u H; [discriminate|]. cbn [run_t] in H. destruct (cb i cur u) as [w a] eqn:Q. destruct a.
  - destruct (IH _ H) as (cb' & u0 & I1 & I2). exists cb', u0. split; [right|]; assumption.
  - discriminate.
  - injection H as <-. exists cb, u. split; [left; reflexivity|exact Q].
Qed.
Lemma drive_threw {U St} (I : St -> list S -> Prop) (Q : U -> list S -> Prop) err tol (body : St -> list S -> outcome (res U (pass (St * list S)))) fuel :
  (forall st cur, I st cur -> match body st cur with Ok (Done (Next (st', cur'))) => I st' cur' | Ok (Thrown u c) => Q u c | _ => True end) ->
  forall st cur u c, I st cur -> drive_t err tol body fuel st cur = Ok (Thrown u c) -> Q u c.
Proof.
  intros H. induction fuel as [|fuel IH]; intros st cur u c Hi D; [discriminate|]. cbn [drive_t] in D. destruct (s_ltb S _ _); [|discriminate].
  specialize (H st cur Hi). destruct (body st cur) as [[[s [st1 c1]|[st1 c1]]|u1 c1]| | |]; cbn [rbind obind] in D; try discriminate.
  - exact (IH _ _ _ _ H D).
  - injection D as <- <-. exact H.
Qed.
Lemma rdone_threw {U A} (m : outcome A) (u : U) (c : list S) : rdone m = Ok (Thrown u c) -> False.
Proof. destruct m; discriminate. Qed.
Lemma newton_threw {U} P (cbs : list (tcallback S U)) left fuel x u0 clk cur u c : newton_t E o P cbs left fuel x u0 clk cur = Ok (Thrown u c) -> threw (np_n P) cbs u c.
Proof.
  unfold newton_t. cbv zeta. destruct (_ && _); [|discriminate]. cbn [oassert]. destruct (_ || _); [discriminate|]. rewrite evals_true by (left; reflexivity).
  apply (drive_threw (at_x (np_n P) (n_x E))); [|reflexivity]. clear. intros st cur Hc. unfold newton_body_t. destruct (diverging _) eqn:D; [exact I|].
  destruct (run_t _ _ _ _) as [v a] eqn:Q. destruct a; [|exact I|].
  - cbv zeta. destruct (newton_search _ _ _ _ _ _ _ _ _) as [[x1 f a flt|flt]| | |]; cbn [obind]; auto.
    destruct (limits _ _ _ _ _) as [[l|] clk']; cbn [SolverModel.finish with_cur]; auto. rewrite evals_true by (left; reflexivity). reflexivity.
  - apply run_threw in Q. destruct Q as (cb & v0 & I1 & I2). exists cb, (newton_info E st), v0. repeat split; auto.
Qed.
Lemma lift_threw {U} n (cbs : list (tcallback S U)) (own : callback S (U * filter S)) uf c : threw n (map lift_t cbs ++ [own_t own]) uf c -> threw n cbs (fst uf) c.
Proof.
  intros (cb & i & u0 & Hin & Hc & D & H). apply in_app_or in Hin. destruct Hin as [Hin|[<-|[]]].
  - apply in_map_iff in Hin. destruct Hin as (cb1 & <- & Hin). unfold lift_t in H. destruct (cb1 i c (fst u0)) as [v a] eqn:Q. injection H as <- ->.
    exists cb1, i, (fst u0). cbn [fst]. auto.
  - unfold own_t in H. destruct (own i u0) as [v []]; discriminate.
Qed.
Section ThrewIpm.
Context {U : Type}.
Notation trestorer := (list (tcallback S (U * filter S)) -> list S -> list S -> list S -> list S -> S -> Z -> U * filter S -> nat -> list S ->
  outcome (res (S := S) (U * filter S) (status * irestored S U))).
Variables (P : iprob S) (w : touches) (cbs : list (tcallback S U)) (left : istate E (U := U) -> list S) (restore : option trestorer).
Hypothesis Tw : In true [t_Ae w; t_Ai w; t_g w; t_H w].
Hypothesis R : forall r, restore = Some r -> forall cbs x s y z mu it uf clk cur u c, r cbs x s y z mu it uf clk cur = Ok (Thrown u c) -> threw (t_n w) cbs u c.
Lemma ipm_next_at (m : outcome (pass (istate E (U := U)))) (x : list S) l : (forall p, m = Ok p -> match p with Next st => is_x E st = x | _ => True end) ->
  match (let* p := m in Ok (Done (U := U) (with_cur p (evals (t_n w) x [t_Ae w; t_Ai w; t_g w; t_H w] l)))) with
  | Ok (Done (Next (st', cur'))) => at_x (t_n w) (is_x E) st' cur' | Ok (Thrown u c) => threw (t_n w) cbs u c | _ => True end.
Proof.
  intros H. destruct m as [[s st|st]| | |]; cbn [obind with_cur]; auto. rewrite evals_true by exact Tw. unfold at_x. rewrite (H _ eq_refl). reflexivity.
Qed.
Lemma ipm_threw fuel infr x s y z mu it u0 clk cur u c : ipm_from_t E o P w cbs left restore fuel infr x s y z mu it u0 clk cur = Ok (Thrown u c) -> threw (t_n w) cbs u c.
Proof.
  unfold ipm_from_t. cbv zeta. destruct (_ && _); [|discriminate]. cbn [oassert]. destruct (Nat.ltb _ _); [discriminate|]. destruct (_ || _); [discriminate|].
  assert (T7 : In true [t_f w; t_g w; t_H w; t_ce w; t_Ae w; t_ci w; t_Ai w]) by (cbn in *; tauto). rewrite evals_true by exact T7.
  apply (drive_threw (at_x (t_n w) (is_x E))); [|reflexivity]. clear cur. intros st cur Hc. unfold ipm_body_t. cbv zeta. destruct (eq_infeasible _ _ _); [exact I|].
  destruct (ineq_infeasible _ _ _); [exact I|]. destruct (_ || _) eqn:D; [exact I|]. apply orb_false_iff in D. destruct D as [D _].
  destruct (run_t _ _ _ _) as [v a] eqn:Q. destruct a; [|exact I|].
  2:{ apply run_threw in Q. destruct Q as (cb & v0 & I1 & I2). exists cb, (ipm_info E st), v0. repeat split; auto. }
  destruct (ls_compute _ _ _) as [ls []]; cbn [negb]; [|exact I].
  destruct (ipm_search _ _ _ _ _ _ _ _ _ _ _ _) as [r| | |]; cbn [obind]; auto.
  destruct (if s_ltb S _ _ then None else if_t r) as [t|].
  - destruct (clamp_zs _ _ _) as [z1| | |]; cbn [obind]; auto. apply ipm_next_at. intros p. apply end_x.
  - destruct restore as [rst|] eqn:Er; [|exact I]. specialize (R _ eq_refl). match goal with |- context [rst ?cs ?a1 ?a2 ?a3 ?a4 ?a5 ?a6 ?a7 ?a8 ?a9] => pose proof (R cs a1 a2 a3 a4 a5 a6 a7 a8 a9) as R'; destruct (rst cs a1 a2 a3 a4 a5 a6 a7 a8 a9) as [[[status q]|uf c1]| | |] end; cbn [forget rbind obind]; auto.
    + destruct (is_success status); [|exact I]. apply ipm_next_at. intros p. apply end_x.
    + eapply lift_threw. apply R'. reflexivity.
Qed.
End ThrewIpm.
Lemma ipm_restore_threw {U} left fuel P cbs x s y z mu it (uf : U * filter S) clk cur u c : ipm_restore_t E o left fuel P cbs x s y z mu it uf clk cur = Ok (Thrown u c) -> threw (ip_n P) cbs u c.
Proof.
  unfold ipm_restore_t. cbv zeta. destruct (fr_ipm_start P x s mu) as [[[frx frs] frz] frmu].
  destruct (ipm_from_t _ _ _ _ _ _ _ _ _ _ _ _ _ _ _ _ _ _) as [[[st fin]|u1 c1]| | |] eqn:Q; cbn [rbind obind]; try discriminate.
  - destruct (match st with CALLBACK_REQUESTED_STOP => _ | _ => _ end) as [[y1 z1]| | |]; discriminate.
  - intros H. injection H as <- <-. apply ipm_threw in Q; [exact Q|left; reflexivity|discriminate].
Qed.
Lemma ipm_solve_threw {U} (l : leaves E U) fuel P cbs x u0 clk cur u c : ipm_solve_t E o l fuel P cbs x u0 clk cur = Ok (Thrown u c) -> threw (ip_n P) cbs u c.
Proof.
  unfold ipm_solve_t. intros H. apply ipm_threw in H; [exact H|left; reflexivity|]. intros r Er. injection Er as <-. intros. eapply ipm_restore_threw. eassumption.
Qed.
Lemma sqp_restore_threw {U} left fuel P cbs x y it (uf : U * filter S) clk cur u c : sqp_restore_t E o left fuel P cbs x y it uf clk cur = Ok (Thrown u c) -> threw (sp_n P) cbs u c.
Proof.
  unfold sqp_restore_t. cbv zeta. destruct (fr_sqp_start o P x) as [[frx frz] mu].
  destruct (ipm_from_t _ _ _ _ _ _ _ _ _ _ _ _ _ _ _ _ _ _) as [[[st fin]|u1 c1]| | |] eqn:Q; cbn [rbind obind]; try discriminate.
  intros H. injection H as <- <-. apply ipm_threw in Q; [exact Q|left; reflexivity|discriminate].
Qed.
Lemma sqp_solve_threw {U} (l : leaves E U) fuel P cbs x u0 clk cur u c : sqp_solve_t E o l fuel P cbs x u0 clk cur = Ok (Thrown u c) -> threw (sp_n P) cbs u c.
Proof.
  unfold sqp_solve_t, sqp_t. cbv zeta. destruct (_ && _); [|discriminate]. cbn [oassert]. destruct (Nat.ltb _ _); [discriminate|]. destruct (_ || _); [discriminate|].
  rewrite evals_true by (left; reflexivity). apply (drive_threw (at_x (sp_n P) (s_x E))); [|reflexivity]. clear cur. intros st cur Hc. unfold sqp_body_t. cbv zeta.
  destruct (eq_infeasible _ _ _); [exact I|]. destruct (diverging _) eqn:D; [exact I|].
  destruct (run_t _ _ _ _) as [v a] eqn:Q. destruct a; [|exact I|].
  2:{ apply run_threw in Q. destruct Q as (cb & v0 & I1 & I2). exists cb, (sqp_info E st), v0. repeat split; auto. }
  destruct (ls_compute _ _ _) as [ls []]; cbn [negb]; [|exact I].
  destruct (sqp_search _ _ _ _ _ _ _ _) as [r| | |]; cbn [obind]; auto.
  destruct (sf_t r) as [t|].
  - rewrite evals_true by (left; reflexivity). unfold sqp_end. cbv zeta. destruct (limits _ _ _ _ _) as [[s|] clk']; cbn [SolverModel.finish with_cur]; auto. reflexivity.
  - match goal with |- context [sqp_restore_t E o ?l0 fuel P ?cs ?a1 ?a2 ?a3 ?a4 ?a5 ?a6] => pose proof (fun u c => sqp_restore_threw l0 fuel P cs a1 a2 a3 a4 a5 a6 u c) as R'; destruct (sqp_restore_t E o l0 fuel P cs a1 a2 a3 a4 a5 a6) as [[[[[[[status x1] y1] it1] uf] clk1]|uf c1]| | |] end; cbn [forget rbind obind]; auto.
    + destruct (is_success status); [|exact I]. rewrite evals_true by (left; reflexivity). unfold sqp_end. cbv zeta. destruct (limits _ _ _ _ _) as [[s|] clk']; cbn [SolverModel.finish with_cur]; auto. reflexivity.
    + eapply lift_threw. apply R'. reflexivity.
Qed.
End Cb.
