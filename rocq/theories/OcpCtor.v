(** Proofs for C58-C62: the layout of an OCP's variables, and the two methods that add constraints. *)
From Coq Require Import Reals List Bool Arith Lia Lra.
From Verif Require Import Base ExprModel MathSpec VarModel ExprReal VarSpec HistProofs ProblemModel ProblemSpec ProblemProofs ProblemProofs4 OcpModel OcpSpec OcpProofs OcpRk4 OcpLoop OcpBody OcpMake.
Import ListNotations.
Local Open Scope nat_scope.

(** Matrix [m] is made of the plain variables b, b+1, ... row by row. *)
Definition plain (sp : spec) (m : vmat) (r c b : nat) : Prop :=
  vars_of sp m r c /\ forall j, j < r * c -> exists h, nth_error (v_at m) j = Some h /\ nth_error (se_exp (sp_se sp)) h = Some (XVar (b + j)).
Definition dt_like (sp : spec) (m : vmat) (tm : timestep) (dt : R) (N b : nat) : Prop :=
  vars_of sp m 1 (N + 1) /\ forall k, k <= N -> exists h, nth_error (v_at m) k = Some h /\ nth_error (se_exp (sp_se sp)) h = Some (dt_exp tm dt b k).

Definition first_dt (sp : spec) (ni N : nat) : nat := se_n (sp_se sp) + ni * (N + 1).
Definition first_x (sp : spec) (ni N : nat) (tm : timestep) : nat := first_dt sp ni N + dt_cnt tm N.

Record layout (sp : spec) (ns ni : nat) (dt : R) (N : nat) (tm : timestep) (reg : bool) (X U DT : vmat) (sp' : spec) : Prop := mkLay {
  l_exp : exists l, se_exp (sp_se sp') = se_exp (sp_se sp) ++ l;
  l_n : se_n (sp_se sp') = first_x sp ni N tm + ns * (N + 1);
  l_U : plain sp' U ni (N + 1) (se_n (sp_se sp));
  l_DT : dt_like sp' DT tm dt N (first_dt sp ni N);
  l_X : plain sp' X ns (N + 1) (first_x sp ni N tm);
  l_dec : sp_dec sp' = sp_dec sp ++ seq (se_n (sp_se sp)) (ni * (N + 1)) ++ dt_dec tm (first_dt sp ni N) N ++ (if reg then seq (first_x sp ni N tm) (ns * (N + 1)) else []);
  l_valU : forall j, j < ni * (N + 1) -> se_val (sp_se sp') (se_n (sp_se sp) + j) = 0%R;
  l_valX : forall j, j < ns * (N + 1) -> se_val (sp_se sp') (first_x sp ni N tm + j) = 0%R;
  l_valDT : forall k, k <= N -> XEv (se_val (sp_se sp')) (dt_exp tm dt (first_dt sp ni N) k) dt;
  l_val : forall v, v < se_n (sp_se sp) -> se_val (sp_se sp') v = se_val (sp_se sp) v;
  l_eqs : sp_eqs sp' = sp_eqs sp; l_ineqs : sp_ineqs sp' = sp_ineqs sp; l_goal : sp_goal sp' = sp_goal sp;
}.

Lemma XEv_dt val val' tm dt n k v : (forall i, n <= i < n + dt_cnt tm k -> val' i = val i) -> forall j, j <= k -> XEv val (dt_exp tm dt n j) v -> XEv val' (dt_exp tm dt n j) v.
Proof.
  intros H j Hj E. destruct tm; cbn [dt_exp dt_cnt] in *.
  - inversion E; subst. constructor.
  - inversion E; subst. rewrite <- H by lia. constructor.
  - inversion E; subst. rewrite <- H by lia. constructor.
Qed.

Lemma T_layout {B} (sp : spec) ns ni dt N tm reg (k : vmat -> vmat -> vmat -> G B) Q :
  (forall X U DT sp', layout sp ns ni dt N tm reg X U DT sp' -> (exists h0, v_at X = seq h0 (ns * (N + 1)) /\ (forall i, In i (v_at U ++ v_at DT) -> i < h0) /\ h0 + ns * (N + 1) = len sp' /\ len sp <= h0) -> T sp' (k X U DT) Q) ->
  T sp (gdo U <- gdecision ni (N + 1); gdo DT <- make_dt tm dt N; gdo X <- (if reg then gdecision ns (N + 1) else gmatrix ns (N + 1)); k X U DT) Q.
Proof.
  intros H. set (n := se_n (sp_se sp)). set (cu := ni * (N + 1)). set (cx := ns * (N + 1)).
  eapply T_bind; [apply T_decision|]. intros s U (-> & val1 & -> & V1). fold n in V1 |- *. fold cu in V1 |- *.
  set (s1 := grown sp (newv n cu) cu (seq n cu) val1).
  assert (L1 : len s1 = len sp + cu) by (unfold len, s1; cbn -[newv]; rewrite app_length, newv_len; reflexivity).
  eapply T_bind; [apply T_make_dt|]. intros s DT (h0 & l & val2 & -> & -> & Hh1 & Hh2 & Hdt & V2 & Vdt).
  change (se_n (sp_se s1)) with (first_dt sp ni N) in *. set (s2 := grown s1 l (dt_cnt tm N) (dt_dec tm (first_dt sp ni N) N) val2) in *.
  assert (HX : T s2 (if reg then gdecision ns (N + 1) else gmatrix ns (N + 1)) (fun sp' X => X = mkM ns (N + 1) (seq (len s2) cx) /\ exists val,
    sp' = grown s2 (newv (first_x sp ni N tm) cx) cx (if reg then seq (first_x sp ni N tm) cx else []) val /\
    forall v, val v = if inside (first_x sp ni N tm) cx v then 0%R else se_val (sp_se s2) v)).
  { destruct reg; [apply T_decision|apply T_matrix]. }
  eapply T_bind; [exact HX|]. clear HX. intros s X (-> & val3 & -> & V3). set (s3 := grown s2 _ _ _ val3).
  assert (L2 : len s2 = len s1 + length l) by (unfold len, s2; cbn -[newv]; rewrite app_length; reflexivity).
  assert (L3 : len s3 = len s2 + cx) by (unfold len, s3; cbn -[newv s2]; rewrite app_length, newv_len; reflexivity).
  assert (E1 : forall i, i < len s1 -> nth_error (se_exp (sp_se s3)) i = nth_error (se_exp (sp_se s1)) i).
  { intros i Hi. unfold s3. cbn [grown sp_se se_exp]. rewrite nth_error_app1 by (change (i < len s2); lia). unfold s2. cbn [grown sp_se se_exp]. rewrite nth_error_app1 by exact Hi. reflexivity. }
  assert (E2 : forall i, i < len s2 -> nth_error (se_exp (sp_se s3)) i = nth_error (se_exp (sp_se s2)) i).
  { intros i Hi. unfold s3. cbn [grown sp_se se_exp]. rewrite nth_error_app1 by exact Hi. reflexivity. }
  assert (Fx : first_x sp ni N tm = n + cu + dt_cnt tm N) by reflexivity. assert (Fd : first_dt sp ni N = n + cu) by reflexivity.
  apply H.
  - constructor.
    + exists (newv n cu ++ l ++ newv (first_x sp ni N tm) cx). unfold s3, s2, s1. cbn -[newv]. rewrite <- !app_assoc. reflexivity.
    + reflexivity.
    + split.
      * split; [split; reflexivity|]. cbn [v_at]. rewrite seq_length. split; [reflexivity|]. apply seq_bound. change (len sp + cu <= len s3). lia.
      * intros j Hj. exists (len sp + j). cbn [v_at]. split; [apply nth_seq, Hj|]. rewrite E1 by (rewrite L1; unfold cu; lia). unfold s1. cbn [grown sp_se se_exp]. rewrite nth_error_app2 by (unfold len; lia). unfold len. replace (_ - _) with j by lia. apply newv_nth. exact Hj.
    + split.
      * split; [split; reflexivity|]. cbn [v_at]. rewrite seq_length. split; [lia|]. apply seq_bound. change (h0 + (N + 1) <= len s3). lia.
      * intros j Hj. exists (h0 + j). cbn [v_at]. split; [apply nth_seq; lia|]. rewrite E2 by lia. apply Hdt. exact Hj.
    + split.
      * split; [split; reflexivity|]. cbn [v_at]. rewrite seq_length. split; [reflexivity|]. apply seq_bound. change (len s2 + cx <= len s3). lia.
      * intros j Hj. exists (len s2 + j). cbn [v_at]. split; [apply nth_seq, Hj|]. unfold s3. cbn [grown sp_se se_exp]. rewrite nth_error_app2 by (unfold len; lia). unfold len. replace (_ - _) with j by lia. apply newv_nth. exact Hj.
    + unfold s3, s2, s1. cbn [grown sp_dec]. rewrite <- !app_assoc. reflexivity.
    + intros j Hj. cbn [s3 grown sp_se se_val]. fold cu in Hj. fold n. rewrite V3. destruct (inside_spec (first_x sp ni N tm) cx (n + j)); [lia|]. cbn [s2 grown sp_se se_val]. rewrite V2.
      * cbn [s1 grown sp_se se_val]. rewrite V1. destruct (inside_spec n cu (n + j)); [reflexivity|lia].
      * destruct (inside_spec (first_dt sp ni N) (dt_cnt tm N) (n + j)); [lia|reflexivity].
    + intros j Hj. cbn [s3 grown sp_se se_val]. rewrite V3. fold cx in Hj. destruct (inside_spec (first_x sp ni N tm) cx (first_x sp ni N tm + j)); [reflexivity|lia].
    + intros j Hj. apply (XEv_dt val2 _ tm dt _ N); [|exact Hj|apply Vdt, Hj]. intros i Hi. cbn [s3 grown sp_se se_val]. rewrite V3. destruct (inside_spec (first_x sp ni N tm) cx i); [lia|reflexivity].
    + intros v Hv. fold n in Hv. cbn [s3 grown sp_se se_val]. rewrite V3. destruct (inside_spec (first_x sp ni N tm) cx v); [lia|]. cbn [s2 grown sp_se se_val]. rewrite V2.
      * cbn [s1 grown sp_se se_val]. rewrite V1. destruct (inside_spec n cu v); [lia|reflexivity].
      * destruct (inside_spec (first_dt sp ni N) (dt_cnt tm N) v); [lia|reflexivity].
    + reflexivity.
    + reflexivity.
    + reflexivity.
  - exists (len s2). split; [reflexivity|]. split; [|split; [symmetry; exact L3|lia]]. intros i Hi. cbn [v_at] in Hi. apply in_app_iff in Hi. destruct Hi as [Hi|Hi]; apply in_seq in Hi; fold cu in Hi; lia.
Qed.

Lemma layout_mats sp ns ni dt N tm reg X U DT sp' : layout sp ns ni dt N tm reg X U DT sp' -> mats ns ni N X U DT sp'.
Proof. intros L. split; [apply (l_X _ _ _ _ _ _ _ _ _ _ _ L)|]. split; [apply (l_U _ _ _ _ _ _ _ _ _ _ _ L)|apply (l_DT _ _ _ _ _ _ _ _ _ _ _ L)]. Qed.

(** What the matrices show. *)
Lemma plain_column sp m r c b rho j v : plain sp m r c b -> j < c -> column (sp_se sp) rho m j v <-> v = map (fun i => rho (b + (i * c + j))) (seq 0 r).
Proof.
  intros [((Er & Ec) & Hl & _) H] Hj. unfold column, entry. rewrite Er, Ec. clear Er Ec. split.
  - intros [Lv Hv]. apply nth_ext with (d := 0%R) (d' := 0%R); [rewrite map_length, seq_length; exact Lv|]. intros i Hi.
    destruct (nth_error v i) as [x|] eqn:Ex; [|apply nth_error_None in Ex; lia]. rewrite (nth_error_nth _ _ _ Ex). destruct (Hv i x Ex) as (h & Hh & e & He & Hx).
    destruct (H (i * c + j)) as (h' & Hh' & He'); [nia|]. rewrite Hh in Hh'. injection Hh' as <-. rewrite He in He'. injection He' as ->. inversion Hx; subst.
    rewrite (nth_indep _ 0%R (rho (b + (0 * c + j)))) by (rewrite map_length, seq_length; lia). rewrite (map_nth (fun i => rho (b + (i * c + j)))), seq_nth by lia. reflexivity.
  - intros ->. rewrite map_length, seq_length. split; [reflexivity|]. intros i x Hx. assert (Hi : i < r) by (assert (K : nth_error (map (fun i => rho (b + (i * c + j))) (seq 0 r)) i <> None) by (rewrite Hx; discriminate); apply nth_error_Some in K; rewrite map_length, seq_length in K; exact K).
    rewrite nth_error_map, nth_seq in Hx by exact Hi. injection Hx as <-. destruct (H (i * c + j)) as (h & Hh & He); [nia|]. exists h. split; [exact Hh|]. exists (XVar (b + (i * c + j))). split; [exact He|]. constructor.
Qed.
Lemma dt_entry sp m tm dt N b rho k v : dt_like sp m tm dt N b -> k <= N -> entry (sp_se sp) rho m 0 k v <-> v = match tm with FIXED => dt | VARIABLE_SINGLE => rho b | VARIABLE => rho (b + k) end.
Proof.
  intros [((Er & Ec) & Hl & _) H] Hk. unfold entry. rewrite Ec. clear Er Ec. cbn [Nat.mul Nat.add]. destruct (H k Hk) as (h & Hh & He). split.
  - intros (h' & Hh' & e & He' & Hx). rewrite Hh in Hh'. injection Hh' as <-. rewrite He in He'. injection He' as <-. destruct tm; inversion Hx; subst; reflexivity.
  - intros ->. exists h. split; [exact Hh|]. exists (dt_exp tm dt b k). split; [exact He|]. destruct tm; constructor.
Qed.

Ltac dL L := pose proof (l_exp _ _ _ _ _ _ _ _ _ _ _ L) as Lexp; pose proof (l_n _ _ _ _ _ _ _ _ _ _ _ L) as Ln; pose proof (l_U _ _ _ _ _ _ _ _ _ _ _ L) as LU;
  pose proof (l_DT _ _ _ _ _ _ _ _ _ _ _ L) as LDT; pose proof (l_X _ _ _ _ _ _ _ _ _ _ _ L) as LX; pose proof (l_dec _ _ _ _ _ _ _ _ _ _ _ L) as Ldec;
  pose proof (l_valU _ _ _ _ _ _ _ _ _ _ _ L) as LvU; pose proof (l_valX _ _ _ _ _ _ _ _ _ _ _ L) as LvX; pose proof (l_valDT _ _ _ _ _ _ _ _ _ _ _ L) as LvDT;
  pose proof (l_val _ _ _ _ _ _ _ _ _ _ _ L) as Lv; pose proof (l_eqs _ _ _ _ _ _ _ _ _ _ _ L) as Leq; pose proof (l_ineqs _ _ _ _ _ _ _ _ _ _ _ L) as Lin; pose proof (l_goal _ _ _ _ _ _ _ _ _ _ _ L) as Lg.

Lemma NoDup_app_intro {A} (l m : list A) : NoDup l -> NoDup m -> (forall a, In a l -> In a m -> False) -> NoDup (l ++ m).
Proof.
  induction l as [|a l IH]; intros Hl Hm H; cbn; [exact Hm|]. inversion Hl; subst. constructor.
  - rewrite in_app_iff. intros [K|K]; [contradiction|]. apply (H a); [left; reflexivity|exact K].
  - apply IH; [assumption|assumption|]. intros b Hb. apply H. right. exact Hb.
Qed.

Section Lay.
Context (sp : spec) (ns ni : nat) (dt : R) (N : nat) (tm : timestep) (reg : bool) (X U DT : vmat) (sp' : spec).
Hypothesis L : layout sp ns ni dt N tm reg X U DT sp'.
Local Notation o := (mkOcp N X U DT).
Local Notation n := (se_n (sp_se sp)).
Local Notation nd := (first_dt sp ni N).
Local Notation nx := (first_x sp ni N tm).

Definition u_at (rho : nat -> R) (k : nat) : list R := map (fun i => rho (n + (i * (N + 1) + k))) (seq 0 ni).
Definition x_at (rho : nat -> R) (k : nat) : list R := map (fun i => rho (nx + (i * (N + 1) + k))) (seq 0 ns).
Definition h_at (rho : nat -> R) (k : nat) : R := match tm with FIXED => dt | VARIABLE_SINGLE => rho nd | VARIABLE => rho (nd + k) end.

Lemma lay_inputs rho us hs : shows_inputs (sp_se sp') rho o us hs <-> forall k, k <= N -> us k = u_at rho k /\ hs k = h_at rho k.
Proof.
  dL L. assert (P : forall k, k <= N -> k < N + 1) by lia. split; intros H k Hk; destruct (H k Hk) as [A B]; pose proof (plain_column sp' U ni (N + 1) _ rho k (us k) LU (P k Hk)) as K1; pose proof (dt_entry sp' DT tm dt N _ rho k (hs k) LDT Hk) as K2; (split; [apply K1, A|apply K2, B]).
Qed.
Lemma lay_states rho xs : shows_states (sp_se sp') rho o xs <-> forall k, k <= N -> xs k = x_at rho k.
Proof.
  dL L. assert (P : forall k, k <= N -> k < N + 1) by lia. split; intros H k Hk; apply (plain_column sp' X ns (N + 1) _ rho k (xs k) LX (P k Hk)), (H k Hk).
Qed.
Lemma h_at_ok rho : steps_ok tm dt N (h_at rho).
Proof. unfold steps_ok, h_at. destruct tm; auto. Qed.
Lemma lay_points rho : exists xs us hs, shows_inputs (sp_se sp') rho o us hs /\ shows_states (sp_se sp') rho o xs /\ steps_ok tm dt N hs.
Proof. exists (x_at rho), (u_at rho), (h_at rho). split; [apply lay_inputs; auto|]. split; [apply lay_states; auto|apply h_at_ok]. Qed.

(** A point that shows given values. *)
Definition put (b cnt : nat) (g : nat -> R) (rho : nat -> R) (v : nat) : R := if inside b cnt v then g (v - b) else rho v.
Definition cell (xs : nat -> list R) (j : nat) : R := nth (j / (N + 1)) (xs (j mod (N + 1))) 0%R.
Lemma cell_at xs i k : k <= N -> cell xs (i * (N + 1) + k) = nth i (xs k) 0%R.
Proof. intros Hk. unfold cell. rewrite Nat.add_comm. rewrite Nat.div_add by lia. rewrite Nat.mod_add by lia. rewrite Nat.div_small, Nat.mod_small by lia. reflexivity. Qed.
Lemma list_cells (xs : nat -> list R) r k : k <= N -> length (xs k) = r -> xs k = map (fun i => cell xs (i * (N + 1) + k)) (seq 0 r).
Proof.
  intros Hk Hl. apply nth_ext with (d := 0%R) (d' := 0%R); [rewrite map_length, seq_length; exact Hl|]. intros i Hi.
  rewrite (nth_indep (map _ _) 0%R (cell xs (0 * (N + 1) + k))) by (rewrite map_length, seq_length; lia). rewrite (map_nth (fun i => cell xs (i * (N + 1) + k))), seq_nth by lia. rewrite cell_at by exact Hk. reflexivity.
Qed.
Definition put_u us := put n (ni * (N + 1)) (cell us).
Definition put_x xs := put nx (ns * (N + 1)) (cell xs).
Definition put_h (hs : nat -> R) (rho : nat -> R) : nat -> R := match tm with FIXED => rho | VARIABLE_SINGLE => upd rho nd (hs 0) | VARIABLE => put nd (N + 1) hs rho end.

Lemma put_in b cnt g rho j : j < cnt -> put b cnt g rho (b + j) = g j.
Proof. intros H. unfold put. destruct (inside_spec b cnt (b + j)); [f_equal; lia|lia]. Qed.
Lemma put_out b cnt g rho v : ~ (b <= v < b + cnt) -> put b cnt g rho v = rho v.
Proof. intros H. unfold put. destruct (inside_spec b cnt v); [lia|reflexivity]. Qed.
Lemma nd_n : nd = n + ni * (N + 1). Proof. reflexivity. Qed.
Lemma nx_nd : nx = nd + dt_cnt tm N. Proof. reflexivity. Qed.
Lemma put_h_out hs rho v : ~ (nd <= v < nx) -> put_h hs rho v = rho v.
Proof. rewrite nx_nd. unfold put_h. destruct tm; cbn [dt_cnt]; intros H; [reflexivity| |apply put_out; lia]. rewrite upd_at. destruct (Nat.eqb_spec v nd); [lia|reflexivity]. Qed.
Lemma put_h_moves hs rho v : ~ In v (dt_dec tm nd N) -> put_h hs rho v = rho v.
Proof. unfold put_h, dt_dec. destruct tm; intros H; [reflexivity| |apply put_out; intros K; apply H, in_seq; lia]. rewrite upd_at. destruct (Nat.eqb_spec v nd); [subst; exfalso; apply H; left; reflexivity|reflexivity]. Qed.

Lemma put_shows us hs rho : (forall k, k <= N -> length (us k) = ni) -> steps_ok tm dt N hs ->
  shows_inputs (sp_se sp') (put_u us (put_h hs rho)) o us hs.
Proof.
  intros Hu Hh. apply lay_inputs. intros k Hk. split.
  - unfold u_at, put_u. rewrite (list_cells us ni k Hk (Hu k Hk)) at 1. apply map_ext_in. intros i Hi. apply in_seq in Hi. rewrite put_in by nia. reflexivity.
  - unfold h_at. pose proof nd_n. pose proof nx_nd. unfold steps_ok in Hh. unfold put_u, put_h, dt_cnt in *. destruct tm.
    + apply Hh, Hk.
    + rewrite put_out by lia. rewrite upd_at, Nat.eqb_refl. apply Hh; lia.
    + rewrite put_out by lia. rewrite put_in by lia. reflexivity.
Qed.
Lemma put_shows_all xs us hs rho : (forall k, k <= N -> length (us k) = ni) -> (forall k, k <= N -> length (xs k) = ns) -> steps_ok tm dt N hs ->
  shows_inputs (sp_se sp') (put_x xs (put_u us (put_h hs rho))) o us hs /\ shows_states (sp_se sp') (put_x xs (put_u us (put_h hs rho))) o xs.
Proof.
  intros Hu Hx Hh. split.
  - pose proof (proj1 (lay_inputs _ _ _) (put_shows us hs rho Hu Hh)) as K. apply lay_inputs. intros k Hk. destruct (K k Hk) as [A B]. pose proof nd_n. pose proof nx_nd. split.
    + rewrite A. apply map_ext_in. intros i Hi. apply in_seq in Hi. unfold put_x. rewrite put_out; [reflexivity|]. nia.
    + rewrite B. unfold h_at, put_x, dt_cnt in *. destruct tm; [reflexivity| |]; (rewrite put_out; [reflexivity|lia]).
  - apply lay_states. intros k Hk. unfold x_at, put_x. rewrite (list_cells xs ns k Hk (Hx k Hk)) at 1. apply map_ext_in. intros i Hi. apply in_seq in Hi. rewrite put_in by nia. reflexivity.
Qed.

Definition new_decs : list nat := seq n (ni * (N + 1)) ++ dt_dec tm nd N ++ (if reg then seq nx (ns * (N + 1)) else []).
Lemma put_moves us hs : moves_only sp' new_decs (put_u us (put_h hs (se_val (sp_se sp')))).
Proof. intros v Hv. unfold new_decs in Hv. rewrite !in_app_iff in Hv. unfold put_u. rewrite put_out by (intros K; apply Hv; left; apply in_seq; lia). apply put_h_moves. tauto. Qed.
Lemma put_moves_all xs us hs : reg = true -> moves_only sp' new_decs (put_x xs (put_u us (put_h hs (se_val (sp_se sp'))))).
Proof. intros Er v Hv. pose proof (put_moves us hs v Hv) as K. unfold put_x. rewrite put_out; [exact K|]. intros Q. apply Hv. unfold new_decs. rewrite Er, !in_app_iff. right. right. apply in_seq. lia. Qed.

Lemma dt_dec_len : length (dt_dec tm nd N) = dt_decisions tm N. Proof. destruct tm; cbn; [reflexivity|reflexivity|apply seq_length]. Qed.
Lemma dt_dec_in v : In v (dt_dec tm nd N) -> nd <= v < nx.
Proof. rewrite nx_nd. destruct tm; cbn [dt_dec dt_cnt]; intros H; [destruct H|destruct H as [<-|[]]; lia|apply in_seq in H; lia]. Qed.
Lemma new_decs_len : length new_decs = ni * (N + 1) + dt_decisions tm N + (if reg then ns * (N + 1) else 0).
Proof. unfold new_decs. rewrite !app_length, seq_length, dt_dec_len. destruct reg; [rewrite seq_length|]; cbn; lia. Qed.
Lemma new_decs_nodup : NoDup new_decs /\ forall v, In v new_decs -> n <= v < se_n (sp_se sp').
Proof.
  dL L. pose proof nd_n. pose proof nx_nd. unfold new_decs. split.
  - apply NoDup_app_intro; [apply seq_NoDup| |].
    + apply NoDup_app_intro; [destruct tm; cbn; [constructor|constructor; [auto|constructor]|apply seq_NoDup]|destruct reg; [apply seq_NoDup|constructor]|].
      intros v Hv Hv2. apply dt_dec_in in Hv. destruct reg; [apply in_seq in Hv2; lia|destruct Hv2].
    + intros v Hv Hv2. apply in_seq in Hv. apply in_app_iff in Hv2. destruct Hv2 as [Hv2|Hv2]; [apply dt_dec_in in Hv2; lia|]. destruct reg; [apply in_seq in Hv2; lia|destruct Hv2].
  - intros v Hv. rewrite !in_app_iff in Hv. destruct Hv as [Hv|[Hv|Hv]]; [apply in_seq in Hv; lia|apply dt_dec_in in Hv; lia|]. destruct reg; [apply in_seq in Hv; lia|destruct Hv].
Qed.

(** The initial values. *)
Lemma map_zero {A} (l : list A) (g : A -> R) : (forall a, In a l -> g a = 0%R) -> map g l = repeat 0%R (length l).
Proof. induction l as [|a l IH]; intros H; cbn; [reflexivity|]. rewrite H by (left; reflexivity). rewrite IH; [reflexivity|]. intros b Hb. apply H. right. exact Hb. Qed.
Lemma lay_start : shows_inputs (sp_se sp') (se_val (sp_se sp')) o (fun _ => repeat 0%R ni) (fun _ => dt) /\ shows_states (sp_se sp') (se_val (sp_se sp')) o (fun _ => repeat 0%R ns).
Proof.
  dL L. split.
  - apply lay_inputs. intros k Hk. split.
    + unfold u_at. rewrite map_zero; [rewrite seq_length; reflexivity|]. intros i Hi. apply in_seq in Hi. apply LvU. nia.
    + specialize (LvDT k Hk). unfold h_at. destruct tm; cbn in LvDT; inversion LvDT; subst; try reflexivity. 
  - apply lay_states. intros k Hk. unfold x_at. rewrite map_zero; [rewrite seq_length; reflexivity|]. intros i Hi. apply in_seq in Hi. apply LvX. nia.
Qed.
End Lay.
