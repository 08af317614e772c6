(** Proofs for C49: the Hessian handed to the subproblem's solver, and problems without inequality constraints. *)
From Coq Require Import ZArith Reals List Bool Lia Lra FunctionalExtensionality.
From Coquelicot Require Import Coquelicot.
From Verif Require Import Base ExprModel ExprReal ExprXR NumModel UtilModel KktModel FilterModel ExitModel SolverModel NewtonModel SqpModel IpmModel RestoreModel
  LinR XArith FinEval EstProofs SystemProofs IpmShape RestoreProofs RestoreSpec FrProofs FrProofs2 FrProofs3.
Import ListNotations.
Local Open Scope R_scope.

Lemma unit_row_f m r v : unit_row (S := Xn) m r (Fin v) = fv (unit_row (S := Rn) m r v).
Proof. unfold unit_row, fv. rewrite map_map. apply map_ext. intros j. destruct (Nat.eqb j r); reflexivity. Qed.
Lemma fv_app a b : fv (a ++ b) = fv a ++ fv b. Proof. apply map_app. Qed.
Lemma map_combine_fm (f : nat * list XR -> list XR) (g : nat * list R -> list R) (l : list nat) (A : list (list R)) :
  (forall i r, f (i, fv r) = fv (g (i, r))) -> map f (combine l (fm A)) = fm (map g (combine l A)).
Proof. intros H. revert l. induction A as [|a A IH]; intros [|i l]; try reflexivity. cbn [fm map combine]. rewrite H. f_equal. apply IH. Qed.
Lemma unit_row_len_R m r v : length (unit_row (S := Rn) m r v) = m. Proof. unfold unit_row. rewrite map_length. apply seq_length. Qed.

Section Hess.
Variables (P : iprob Xn) (xr : list R) (zeta : R) (A0 B0 : list (list R)).
Notation n := (ip_n P).
Notation me := (ip_me P).
Notation mi := (ip_mi P).
Notation k := (2 * ip_me P + 2 * ip_mi P)%nat.
Notation N := (ip_n P + (2 * ip_me P + 2 * ip_mi P))%nat.
Notation Q := (fr_ipm_prob P (fv xr) (Fin zeta)).
Hypothesis Hxr : length xr = n.
Hypothesis WA : wf me n A0.
Hypothesis WB : wf mi n B0.
Hypothesis HA : forall x, length x = n -> ip_Ae P (fv x) = fm A0.
Hypothesis HB : forall x, length x = n -> ip_Ai P (fv x) = fm B0.

Definition MA : list (list R) :=
  map (fun p => snd p ++ unit_row (S := Rn) me (fst p) (-1) ++ unit_row (S := Rn) me (fst p) 1 ++ repeat 0 (2 * mi)) (combine (seq 0 me) A0).
Definition MB : list (list R) :=
  map (fun p => snd p ++ repeat 0 (2 * me) ++ unit_row (S := Rn) mi (fst p) (-1) ++ unit_row (S := Rn) mi (fst p) 1) (combine (seq 0 mi) B0)
  ++ map (fun i => repeat 0 n ++ unit_row (S := Rn) k i 1) (seq 0 k).
Lemma MA_wf : wf me N MA.
Proof.
  destruct WA as [L W]. split. { unfold MA. rewrite map_length, combine_length, seq_length. lia. }
  intros r Hr. unfold MA in Hr. apply in_map_iff in Hr. destruct Hr as ((i, a) & <- & Hin). apply in_combine_r in Hin.
  cbn [fst snd]. rewrite !app_length. change (car (nbase Rn)) with R. rewrite !unit_row_len_R, repeat_length. rewrite (W _ Hin). lia.
Qed.
Lemma MB_wf : wf (mi + k) N MB.
Proof.
  destruct WB as [L W]. split. { unfold MB. rewrite app_length, !map_length, combine_length, !seq_length. lia. }
  intros r Hr. unfold MB in Hr. apply in_app_iff in Hr. destruct Hr as [Hr|Hr]; apply in_map_iff in Hr.
  - destruct Hr as ((i, a) & <- & Hin). apply in_combine_r in Hin. cbn [fst snd]. rewrite !app_length. change (car (nbase Rn)) with R. rewrite !unit_row_len_R, repeat_length, (W _ Hin). lia.
  - destruct Hr as (i & <- & _). rewrite app_length. change (car (nbase Rn)) with R. rewrite unit_row_len_R, repeat_length. reflexivity.
Qed.
Lemma Q_Ae v : length v = N -> ip_Ae Q (fv v) = fm MA.
Proof.
  intros Hv. cbn [fr_ipm_prob ip_Ae]. unfold fr_Ae. rewrite seg_fv. cbn [skipn]. rewrite HA by (rewrite firstn_length; lia).
  apply map_combine_fm. intros i r. cbn [fst snd]. rewrite !fv_app. change (s_opp Xn (s_ofZ Xn 1)) with (Fin (-1)). change (s_ofZ Xn 1) with (Fin 1). rewrite !unit_row_f.
  change (s_ofZ Xn 0) with (Fin 0). rewrite repeat_f. reflexivity.
Qed.
Lemma Q_Ai v : length v = N -> ip_Ai Q (fv v) = fm MB.
Proof.
  intros Hv. cbn [fr_ipm_prob ip_Ai]. unfold fr_Ai, MB. rewrite seg_fv. cbn [skipn]. rewrite HB by (rewrite firstn_length; lia). unfold fm. rewrite map_app. f_equal.
  - apply (map_combine_fm _ (fun p => snd p ++ repeat 0 (2 * me) ++ unit_row (S := Rn) mi (fst p) (-1) ++ unit_row (S := Rn) mi (fst p) 1)). intros i r. cbn [fst snd]. rewrite !fv_app.
    change (s_opp Xn (s_ofZ Xn 1)) with (Fin (-1)). change (s_ofZ Xn 1) with (Fin 1). rewrite !unit_row_f.
    change (s_ofZ Xn 0) with (Fin 0). rewrite repeat_f. reflexivity.
  - unfold fr_bounds. rewrite map_map. apply map_ext. intros i. rewrite fv_app. change (s_ofZ Xn 1) with (Fin 1). rewrite unit_row_f.
    change (s_ofZ Xn 0) with (Fin 0). rewrite repeat_f. reflexivity.
Qed.
Lemma Q_H v y z i j : (i < N)%nat -> (j < N)%nat ->
  nth j (nth i (ip_H Q v y z) []) NaN = Fin (if Nat.ltb i n && Nat.eqb j i then zeta * nearness (nth i xr 0) else 0).
Proof.
  intros Hi Hj. cbn [fr_ipm_prob ip_H]. rewrite fr_D_fin, vscale_f. unfold madd, sparse_resize, zeros, diag_in.
  rewrite (nth_map_lt _ _ _ ([], [])). 2: { rewrite combine_length, map_length, seq_length, repeat_length. lia. }
  rewrite combine_nth by (rewrite map_length, seq_length, repeat_length; reflexivity). cbn [fst snd].
  rewrite (nth_map_lt _ _ _ 0%nat) by (rewrite seq_length; exact Hi). rewrite seq_nth by exact Hi. cbn [Nat.add].
  rewrite (nth_indep (repeat _ N) [] (repeat (s_ofZ Xn 0) N)) by (rewrite repeat_length; exact Hi). rewrite nth_repeat.
  nx. rewrite fv_len. assert (L : @length R (vscale (S := Rn) zeta (map nearness xr)) = n).
  { eapply eq_trans; [apply (vscale_length (S := Rn))|]. rewrite map_length. exact Hxr. }
  change (car (nbase Rn)) with R. rewrite L.
  assert (Z : forall (l : list XR) , length l = N -> nth j (vadd (S := Xn) l (repeat (s_ofZ Xn 0) N)) NaN = nth j l NaN).
  { intros l Hl. unfold vadd. rewrite vmap2_x; [|nx; rewrite ?repeat_length; lia|nx; rewrite ?repeat_length; lia].
    nx. rewrite (nth_indep (repeat _ N) NaN (s_ofZ Xn 0)) by (rewrite repeat_length; exact Hj). rewrite nth_repeat. apply X_add_0. }
  destruct (Nat.ltb_spec i n) as [Li|Li].
  - rewrite Z by (unfold unit_row; rewrite map_length; apply seq_length). unfold unit_row. rewrite (nth_map_lt _ _ _ 0%nat) by (rewrite seq_length; exact Hj). rewrite seq_nth by exact Hj. cbn [Nat.add andb].
    destruct (Nat.eqb_spec j i) as [Eq|Eq]; [|reflexivity]. change (s_ofZ Xn 0) with (Fin 0). rewrite (nth_indep (fv _) (Fin 0) NaN) by (rewrite fv_len, L; exact Li).
    rewrite fv_nth by (rewrite L; exact Li). f_equal. rewrite vscale_nth by (rewrite map_length; lia). rewrite (nth_map_lt _ _ _ 0) by lia. reflexivity.
  - rewrite Z by apply repeat_length. rewrite (nth_indep (repeat _ N) NaN (s_ofZ Xn 0)) by (rewrite repeat_length; exact Hj). rewrite nth_repeat. reflexivity.
Qed.
Lemma fr_hessian : hessian_of N me (mi + k) (ip_g Q) (ip_Ae Q) (ip_Ai Q) (ip_H Q).
Proof.
  intros x y z Hx Hy Hz i j Hi Hj. rewrite Q_H by assumption.
  set (c1 := nth i (mtvec (S := Rn) N MA y) 0). set (c2 := nth i (mtvec (S := Rn) N MB z) 0).
  assert (G : forall v, length v = N -> lag_grad N (ip_g Q) (ip_Ae Q) (ip_Ai Q) y z i (fv v) =
    Fin ((if Nat.ltb i n then zeta * nearness (nth i xr 0) * (nth i v 0 - nth i xr 0) else 1000) - c1 - c2)).
  { intros v Hv. unfold lag_grad. rewrite Q_Ae, Q_Ai by exact Hv. rewrite !mtvec_f.
    pose proof (fr_grad_fin n k xr zeta Hxr v Hv) as EG. change (ip_g Q (fv v)) with (fr_grad (S := Xn) n k (fv xr) (fr_D (S := Xn) (fv xr)) (Fin zeta) (fv v)). rewrite EG. rewrite !vsub_f.
    pose proof (wf_mtvec_length _ _ _ y MA_wf Hy) as L1. pose proof (wf_mtvec_length _ _ _ z MB_wf Hz) as L2.
    match goal with |- nth i (fv (vsub (S := Rn) (vsub (S := Rn) ?g _) _)) _ = _ => assert (L0 : @length R g = N) by (rewrite app_length, map_length, seq_length, repeat_length; reflexivity);
      set (g0 := g) in *; assert (L3 : @length R (vsub (S := Rn) g0 (mtvec (S := Rn) N MA y)) = N) by (unfold vsub; rewrite vmap2_length_R; change (car (nbase Rn)) with R in *; lia) end.
    rewrite fv_nth. 2: { unfold vsub at 1. change (car (nbase Rn)) with R in *. rewrite vmap2_length_R. lia. }
    f_equal. change (car (nbase Rn)) with R in *. rewrite vsub_nth by lia. rewrite vsub_nth by lia. unfold c1, c2. f_equal. f_equal. unfold g0.
    destruct (Nat.ltb_spec i n) as [Li|Li].
    - rewrite app_nth1 by (rewrite map_length, seq_length; exact Li). rewrite (nth_map_lt _ _ _ 0%nat) by (rewrite seq_length; exact Li). rewrite seq_nth by exact Li. reflexivity.
    - rewrite app_nth2 by (rewrite map_length, seq_length; exact Li). rewrite map_length, seq_length. rewrite (nth_indep _ 0 1000) by (rewrite repeat_length; lia). apply nth_repeat. }
  eexists (fun t => (if Nat.ltb i n then zeta * nearness (nth i xr 0) * (nth i (put x j t) 0 - nth i xr 0) else 1000) - c1 - c2), _. split; [|split; [|reflexivity]].
  { intros t. apply G. rewrite put_len; lia. }
  destruct (Nat.ltb_spec i n) as [Li|Li]; cbn [andb].
  - apply (is_derive_ext (fun t => zeta * nearness (nth i xr 0) * ((if Nat.eqb i j then t else nth i x 0) - nth i xr 0) - c1 - c2)).
    { intros t. rewrite put_nth by lia. reflexivity. }
    rewrite (Nat.eqb_sym j i). destruct (Nat.eqb i j); auto_derive; trivial; ring.
  - auto_derive; trivial; ring.
Qed.
End Hess.

(** Without inequality constraints: the same problem, relaxed the same way. *)
Definition as_ipm (P : sprob Xn) : iprob Xn :=
  mkIP (sp_n P) (sp_me P) 0 (sp_f P) (sp_g P) (fun x y _ => sp_H P x y) (fun x y _ => sp_Hc P x y) (sp_ce P) (sp_Ae P) (fun _ => []) (fun _ => [])
    (mkSc (sc_f (sp_sc P)) (sc_e (sp_sc P)) []).
Lemma sqp_as_ipm P xr zeta : fr_sqp_prob P xr zeta = fr_ipm_prob (as_ipm P) xr zeta.
Proof.
  unfold fr_sqp_prob, fr_ipm_prob, as_ipm. cbn [ip_n ip_me ip_mi ip_ce ip_Ae ip_ci ip_Ai ip_Hc ip_sc sc_e sc_i]. replace (2 * sp_me P + 2 * 0)%nat with (2 * sp_me P)%nat by lia.
  f_equal.
  - apply functional_extensionality. intros xp. unfold fr_ci. replace (2 * sp_me P + 2 * 0)%nat with (2 * sp_me P)%nat by lia. reflexivity.
  - apply functional_extensionality. intros xp. unfold fr_Ai. replace (2 * sp_me P + 2 * 0)%nat with (2 * sp_me P)%nat by lia. reflexivity.
Qed.

(** ** A problem whose restoration is handed a wrong Hessian: one constraint x^2 = 0 *)
Definition square_ce (w : list XR) : list XR := match w with [a] => [X_mul a a] | _ => [NaN] end.
Definition square_Ae (w : list XR) : list (list XR) := match w with [a] => [[X_mul (Fin 2) a]] | _ => [[NaN]] end.
Definition square_Hc (w y : list XR) : list (list XR) := match y with [b] => [[X_mul (Fin (-2)) b]] | _ => [[NaN]] end.
Definition square : sprob Xn :=
  mkSP (S := Xn) 1 1 (fun _ => Fin 0) (fun _ => [Fin 0]) square_Hc square_Hc square_ce square_Ae (mkSc (S := Xn) (Fin 1) [Fin 1] []).
Lemma square_jac : jacobian_of 1 1 (sp_ce square) (sp_Ae square).
Proof.
  intros x Hx. destruct x as [|a [|]]; try discriminate. cbn. split; [reflexivity|]. split; [reflexivity|]. split; [intros r [<-|[]]; reflexivity|].
  intros i Hi. destruct i; [|lia]. split; [eexists; reflexivity|]. intros j Hj. destruct j; [|lia].
  eexists (fun t => t * t), _. split; [reflexivity|]. split; [|reflexivity]. cbn. auto_derive; trivial. ring.
Qed.
Lemma square_hess : hessian_of 1 1 0 (sp_g square) (sp_Ae square) (fun _ => []) (fun x y _ => sp_H square x y).
Proof.
  intros x y z Hx Hy Hz i j Hi Hj. destruct x as [|a [|]], y as [|b [|]], z; try discriminate. destruct i, j; try lia.
  eexists (fun t => 0 - (0 + b * (2 * t)) - 0), _. split; [reflexivity|]. split; [|reflexivity]. cbn. auto_derive; trivial. ring.
Qed.
Lemma square_refuted xr zeta : length xr = 1%nat -> let Q := fr_sqp_prob square (fv xr) (Fin zeta) in
  ~ hessian_of 3 1 2 (ip_g Q) (ip_Ae Q) (ip_Ai Q) (ip_H Q).
Proof.
  intros Hxr. cbv zeta. rewrite sqp_as_ipm. set (Q := fr_ipm_prob (as_ipm square) (fv xr) (Fin zeta)). intros H.
  specialize (H [0; 0; 0] [1] [0; 0] eq_refl eq_refl eq_refl 0%nat 0%nat ltac:(lia) ltac:(lia)). unfold Q in H.
  rewrite (Q_H (as_ipm square) xr zeta Hxr) in H by (cbn; lia). cbn in H. fold Q in H. destruct H as (F & r & H1 & H2 & H3). injection H3 as H3.
  assert (G : forall t, F t = zeta * nearness (nth 0 xr 0) * (t - nth 0 xr 0) - 2 * t).
  { intros t. specialize (H1 t). unfold put in H1. cbn [firstn skipn app] in H1. unfold lag_grad in H1.
    change (ip_g Q (fv [t; 0; 0])) with (fr_grad (S := Xn) 1 2 (fv xr) (fr_D (S := Xn) (fv xr)) (Fin zeta) (fv [t; 0; 0])) in H1.
    rewrite (fr_grad_fin 1 2 xr zeta Hxr) in H1 by reflexivity. cbn in H1. injection H1 as H1. rewrite <- H1. ring. }
  assert (D : is_derive F (nth 0 [0; 0; 0] 0) (zeta * nearness (nth 0 xr 0) - 2)).
  { apply (is_derive_ext (fun t => zeta * nearness (nth 0 xr 0) * (t - nth 0 xr 0) - 2 * t)); [intros t; symmetry; apply G|]. auto_derive; trivial. ring. }
  apply is_derive_unique in D. apply is_derive_unique in H2. lra.
Qed.
