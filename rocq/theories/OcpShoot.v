(** Proofs for C58 and C62: single shooting. *)
From Coq Require Import Reals List Bool Arith Lia Lra.
From Verif Require Import Base ExprModel MathSpec VarModel ExprReal VarSpec HistProofs ProblemModel ProblemSpec ProblemProofs ProblemProofs4 OcpModel OcpSpec OcpProofs OcpRk4 OcpLoop OcpBody OcpMake OcpCtor OcpTrans.
Import ListNotations.
Local Open Scope nat_scope.

(** Programs that gain Variables and overwrite those in P. *)
Record changed (P : nat -> Prop) (sp sp' : spec) : Prop := mkCh {
  ch_len : len sp <= len sp';
  ch_nth : forall h, h < len sp -> ~ P h -> nth_error (se_exp (sp_se sp')) h = nth_error (se_exp (sp_se sp)) h;
  ch_n : se_n (sp_se sp') = se_n (sp_se sp); ch_val : se_val (sp_se sp') = se_val (sp_se sp);
  ch_dec : sp_dec sp' = sp_dec sp; ch_goal : sp_goal sp' = sp_goal sp; ch_eqs : sp_eqs sp' = sp_eqs sp; ch_ineqs : sp_ineqs sp' = sp_ineqs sp }.
Lemma ch_refl P sp : changed P sp sp. Proof. constructor; auto. Qed.
Lemma ch_trans P Q a b c : changed P a b -> changed Q b c -> changed (fun h => P h \/ Q h) a c.
Proof.
  intros [] []. constructor; [lia| |congruence..]. intros h Hh Hn. rewrite ch_nth1; [apply ch_nth0; [exact Hh|intros K; apply Hn; left; exact K]|lia|intros K; apply Hn; right; exact K].
Qed.
Lemma ch_weak (P Q : nat -> Prop) a b : (forall h, h < len a -> P h -> Q h) -> changed P a b -> changed Q a b.
Proof. intros H []. constructor; auto. Qed.
Lemma more_ch P a b : more a b -> changed P a b.
Proof. intros [l ->]. constructor; try reflexivity; [unfold len; cbn; rewrite app_length; lia|]. intros h Hh _. cbn. rewrite nth_error_app1 by exact Hh. reflexivity. Qed.
Lemma ch_has P a b rho h v : changed P a b -> h < len a -> ~ P h -> has (sp_se b) rho h v <-> has (sp_se a) rho h v.
Proof. intros C H1 H2. unfold has. rewrite (ch_nth _ _ _ C h H1 H2). reflexivity. Qed.
Lemma ch_vars P a b m r c : changed P a b -> vars_of a m r c -> vars_of b m r c.
Proof. intros C (S1 & L1 & B1). split; [exact S1|]. split; [exact L1|]. eapply List.Forall_impl; [|exact B1]. intros i Hi. pose proof (ch_len _ _ _ C). unfold len in *. cbv beta in *. lia. Qed.
Lemma ch_entry P a b rho m r c i j v : changed P a b -> vars_of a m r c -> (forall h, nth_error (v_at m) (i * c + j) = Some h -> ~ P h) -> entry (sp_se b) rho m i j v <-> entry (sp_se a) rho m i j v.
Proof.
  intros C ((S1 & S2) & L1 & B1) H. unfold entry. rewrite S2. rewrite List.Forall_forall in B1.
  split; intros (k & Hk & Hv); exists k; (split; [exact Hk|]); apply (ch_has P a b) in Hv || apply (ch_has P a b); auto; apply B1; eapply nth_error_In; exact Hk.
Qed.
Lemma ch_column P a b rho m r c j v : changed P a b -> vars_of a m r c -> j < c -> (forall i h, i < r -> nth_error (v_at m) (i * c + j) = Some h -> ~ P h) -> column (sp_se b) rho m j v <-> column (sp_se a) rho m j v.
Proof.
  intros C V Hj H. unfold column. destruct (V) as ((S1 & S2) & L1 & B1).
  split; intros [Lv Hv]; (split; [exact Lv|]); intros i x Hx; assert (Hi : i < r) by (rewrite <- S1, <- Lv; apply nth_error_Some; congruence); specialize (Hv i x Hx); apply (ch_entry P a b rho m r c i j x C V (fun h => H i h Hi)); exact Hv.
Qed.

(** Assigning Variables. *)
Lemma sset_nth : forall e i x h, nth_error (sset e i x) h = if Nat.eqb h i && (h <? length e) then Some x else nth_error e h.
Proof.
  induction e as [|a e IH]; intros i x h; cbn [sset length].
  - rewrite andb_false_r. reflexivity.
  - destruct i as [|i], h as [|h]; cbn [nth_error]; try reflexivity.
    + rewrite IH. replace (S h <? S (length e)) with (h <? length e) by reflexivity. reflexivity.
Qed.
Lemma sset_len e i x : length (sset e i x) = length e.
Proof. revert i. induction e as [|a e IH]; intros [|i]; cbn; [reflexivity..|]. now rewrite IH. Qed.

Lemma T_assigns : forall ds ss sp, length ds = length ss -> NoDup ds -> (forall d s, In d ds -> In s ss -> d <> s) -> (forall h, In h ds \/ In h ss -> h < len sp) ->
  T sp (gmap (fun p => gdo_ (HAssign (S := R_ops) (fst p) (snd p))) (combine ds ss)) (fun sp' _ => changed (fun h => In h ds) sp sp' /\
    forall k d s, nth_error ds k = Some d -> nth_error ss k = Some s -> nth_error (se_exp (sp_se sp')) d = nth_error (se_exp (sp_se sp)) s).
Proof.
  induction ds as [|d ds IH]; intros [|s ss] sp HL ND Dj Hb; try discriminate HL; cbn [combine gmap].
  - apply T_ret. split; [apply ch_refl|]. intros [|k] ? ? H; discriminate H.
  - assert (Hd : d < len sp) by (apply Hb; left; left; reflexivity). assert (Hs : s < len sp) by (apply Hb; right; left; reflexivity).
    destruct (nth_error (se_exp (sp_se sp)) d) as [ed|] eqn:Ed; [|apply nth_error_None in Ed; unfold len in *; lia].
    destruct (nth_error (se_exp (sp_se sp)) s) as [es|] eqn:Es; [|apply nth_error_None in Es; unfold len in *; lia].
    set (sp1 := with_exps sp (sset (se_exp (sp_se sp)) d es)).
    assert (L1 : len sp1 = len sp) by (unfold len, sp1; cbn; apply sset_len).
    eapply T_bind; [apply (T_do sp (HAssign (S := R_ops) d s) sp1); [cbn; rewrite Ed, Es; reflexivity|exact L1|reflexivity]|].
    intros q y ->. inversion ND as [|? ? Hn ND']; subst.
    eapply T_bind; [apply (IH ss sp1)|].
    + injection HL as HL. exact HL.
    + exact ND'.
    + intros a b Ha Hb'. apply Dj; right; assumption.
    + rewrite L1. intros h [H|H]; apply Hb; [left|right]; right; exact H.
    + intros sp2 y2 (Ch & Hv). apply T_ret.
      assert (N1 : forall h, h <> d -> nth_error (se_exp (sp_se sp1)) h = nth_error (se_exp (sp_se sp)) h).
      { intros h Hh. unfold sp1. cbn. rewrite sset_nth. destruct (Nat.eqb_spec h d); [contradiction|reflexivity]. }
      assert (C1 : changed (fun h => h = d) sp sp1) by (constructor; try reflexivity; [lia|]; intros h _ Hh; apply N1; exact Hh).
      split.
      * eapply ch_weak; [|exact (ch_trans _ _ _ _ _ C1 Ch)]. intros h _ [H|H]; [left; congruence|right; exact H].
      * intros [|k] a b Ha Hb'; cbn in Ha, Hb'.
        -- injection Ha as <-. injection Hb' as <-. rewrite (ch_nth _ _ _ Ch d); [|lia|exact Hn]. unfold sp1. cbn. rewrite sset_nth, Nat.eqb_refl. destruct (Nat.ltb_spec d (length (se_exp (sp_se sp)))); [cbn; congruence|unfold len in *; lia].
        -- rewrite (Hv k a b Ha Hb'). apply N1. intros ->. apply (Dj d d); [left; reflexivity|right; eapply nth_error_In; exact Hb'|reflexivity].
Qed.

Lemma T_copies : forall l sp, (forall i, In i l -> i < len sp) -> T sp (gmap (fun i => gvar (HCopy (S := R_ops) i)) l) (fun sp' ks => more sp sp' /\ ks = seq (len sp) (length l) /\ len sp' = len sp + length l /\
  forall k i, nth_error l k = Some i -> nth_error (se_exp (sp_se sp')) (len sp + k) = nth_error (se_exp (sp_se sp)) i).
Proof.
  induction l as [|i l IH]; intros sp Hb; cbn [gmap].
  - apply T_ret. split; [apply more_refl|]. split; [reflexivity|]. split; [cbn; lia|]. intros [|k] ? H; discriminate H.
  - assert (Hi : i < len sp) by (apply Hb; left; reflexivity). destruct (nth_lt _ _ Hi) as (e & Ei).
    eapply T_bind; [apply (T_gvar sp (HCopy (S := R_ops) i) e); cbn; rewrite Ei; reflexivity|]. intros s1 k0 [-> ->].
    pose proof (plus_more sp e) as M1. pose proof (plus_len sp e) as L1.
    eapply T_bind; [apply (IH (plus sp e)); intros j Hj; rewrite L1; specialize (Hb j (or_intror Hj)); lia|]. intros s2 ks (M2 & -> & L2 & E2). apply T_ret.
    split; [eapply more_trans; eauto|]. split; [cbn [seq length]; rewrite L1; reflexivity|]. split; [cbn; lia|].
    assert (N1 : forall h, h < len sp -> nth_error (se_exp (sp_se (plus sp e))) h = nth_error (se_exp (sp_se sp)) h) by (intros h Hh; unfold plus; cbn; rewrite nth_error_app1 by exact Hh; reflexivity).
    intros [|k] j Hj; cbn in Hj.
    + injection Hj as <-. rewrite Nat.add_0_r, Ei. destruct M2 as [l2 ->]. cbn. rewrite nth_error_app1 by (rewrite app_length; unfold len; cbn; lia). rewrite nth_error_app2 by (unfold len; lia). unfold len. rewrite Nat.sub_diag. reflexivity.
    + replace (len sp + S k) with (len (plus sp e) + k) by lia. rewrite (E2 k j Hj). apply N1. apply Hb. right. eapply nth_error_In. exact Hj.
Qed.

Lemma T_vassign sp dst src n : vars_of sp dst n 1 -> vars_of sp src n 1 -> NoDup (v_at dst) ->
  T sp (vassign dst src) (fun sp' _ => changed (fun h => In h (v_at dst)) sp sp' /\ forall rho vs, shows (sp_se sp') rho (v_at dst) vs <-> shows (sp_se sp) rho (v_at src) vs).
Proof.
  intros ((D1 & D2) & D3 & D4) ((S1 & S2) & S3 & S4) ND. rewrite List.Forall_forall in D4, S4. unfold vassign.
  eapply T_bind; [apply (T_copies (v_at src) sp S4)|]. intros s1 ks (M & -> & Lm & E1). apply T_assert; [rewrite D1, D2, S1, S2, !Nat.eqb_refl; reflexivity|].
  eapply T_bind.
  { apply (T_assigns (v_at dst) (seq (len sp) (length (v_at src))) s1).
    - rewrite seq_length. congruence.
    - exact ND.
    - intros d s Hd Hs. apply in_seq in Hs. specialize (D4 _ Hd). unfold len in *. lia.
    - intros h [H|H]; [specialize (D4 _ H); unfold len in *; lia|apply in_seq in H; lia]. }
  intros s2 y (Ch & Ev). apply T_ret. split.
  - eapply ch_weak; [|exact (ch_trans _ _ _ _ _ (more_ch (fun _ => False) _ _ M) Ch)]. intros h _ [[]|H]; exact H.
  - intros rho vs.
    assert (K : forall k d s, nth_error (v_at dst) k = Some d -> nth_error (v_at src) k = Some s -> forall v, has (sp_se s2) rho d v <-> has (sp_se sp) rho s v).
    { intros k d s Hd Hs v. unfold has. rewrite (Ev k d (len sp + k) Hd) by (apply nth_seq; apply nth_error_Some; congruence). rewrite (E1 k s Hs). reflexivity. }
    split; intros H.
    + pose proof (shows_len _ _ _ _ H) as HL. apply F2_intro; [congruence|]. intros i a b Ha Hb. destruct (F2_nth_r _ _ _ _ _ H Hb) as (d & Hd & Hv). apply (K i d a Hd Ha), Hv.
    + pose proof (shows_len _ _ _ _ H) as HL. apply F2_intro; [congruence|]. intros i a b Ha Hb. destruct (F2_nth_r _ _ _ _ _ H Hb) as (s & Hs & Hv). apply (K i a s Ha Hs), Hv.
Qed.

Lemma cells_inj N r r' k k' : k <= N -> k' <= N -> r * (N + 1) + k = r' * (N + 1) + k' -> k = k'.
Proof.
  intros H H' E. destruct (lt_eq_lt_dec r r') as [[K| ->]|K]; [|lia|].
  - pose proof (Nat.mul_le_mono_r (S r) r' (N + 1) K). cbn in H0. lia.
  - pose proof (Nat.mul_le_mono_r (S r') r (N + 1) K). cbn in H0. lia.
Qed.

Section Shoot.
Variables (ns ni : nat) (f : dyn) (F : dynamics).
Hypothesis C : computes ns ni f F.
Variables (N : nat) (X U DT : vmat).
Hypothesis ND : NoDup (v_at X).
Hypothesis DJ : forall h, In h (v_at X) -> In h (v_at U ++ v_at DT) -> False.

(** Handle h is in columns i+1 .. i+n of X. *)
Definition incols (i n h : nat) : Prop := exists r k, r < ns /\ i < k /\ k <= i + n /\ nth_error (v_at X) (r * (N + 1) + k) = Some h.
Lemma incols_X i n h : incols i n h -> In h (v_at X).
Proof. intros (r & k & _ & _ & _ & H). eapply nth_error_In. exact H. Qed.
Lemma incols_other i n r k h : i + n <= N -> r < ns -> k <= N -> ~ (i < k <= i + n) -> nth_error (v_at X) (r * (N + 1) + k) = Some h -> ~ incols i n h.
Proof.
  intros Hi Hr Hk Hn E (r' & k' & Hr' & H1 & H2 & E'). rewrite <- E' in E. apply (proj1 (NoDup_nth_error (v_at X)) ND) in E; [|apply nth_error_Some; rewrite E; congruence].
  assert (k = k'); [|lia]. assert (Hk' : k' <= N) by lia. clear - E Hk Hk'. apply (cells_inj N r r' k k' Hk Hk' E).
Qed.

Lemma inputs_ch sp sp' i n rho k v w : mats ns ni N X U DT sp -> changed (incols i n) sp sp' -> k <= N ->
  (column (sp_se sp') rho U k v <-> column (sp_se sp) rho U k v) /\ (entry (sp_se sp') rho DT 0 k w <-> entry (sp_se sp) rho DT 0 k w).
Proof.
  intros (VX & VU & VD) Ch Hk. split.
  - apply (ch_column _ _ _ rho U ni (N + 1) k v Ch VU); [lia|]. intros r h Hr E P. apply (DJ h (incols_X _ _ _ P)). apply in_or_app. left. eapply nth_error_In. exact E.
  - apply (ch_entry _ _ _ rho DT 1 (N + 1) 0 k w Ch VD). intros h E P. apply (DJ h (incols_X _ _ _ P)). apply in_or_app. right. eapply nth_error_In. exact E.
Qed.

Definition shoot_body ty (i time : nat) : G nat :=
  gdo x_begin <- vcol X i; gdo x_end <- vcol X (i + 1); gdo u <- vcol U i; gdo dt <- vget DT 0 i;
  gdo next <- advance ty f time x_begin u dt; gdo _ <- vassign x_end next; gbin BAdd time dt.

Definition inp (sp : spec) rho us hs : Prop := forall k, k <= N -> column (sp_se sp) rho U k (us k) /\ entry (sp_se sp) rho DT 0 k (hs k).

Lemma T_shoot_body ty sp i time : mats ns ni N X U DT sp -> i < N -> time < len sp -> ~ In time (v_at X) ->
  T sp (shoot_body ty i time) (fun sp' k => changed (incols i 1) sp sp' /\ k < len sp' /\ ~ In k (v_at X) /\
    forall rho us hs tv x, inp sp rho us hs -> has (sp_se sp) rho time tv -> column (sp_se sp) rho X i x -> has (sp_se sp') rho k (tv + hs i)%R /\
      forall x', column (sp_se sp') rho X (i + 1) x' <-> next_state ty F tv x (us i) (hs i) x').
Proof.
  intros HM Hi Ht Hti. destruct (HM) as (VX & VU & VD). unfold shoot_body.
  apply (col_bind sp X i ns (N + 1)); [exact VX|lia|]. intros xb Vb Eb.
  eapply T_bind; [apply (T_vcol_of sp X (i + 1) ns (N + 1) VX); lia|]. intros s0 xe (-> & Ve & Ce).
  apply (col_bind sp U i ni (N + 1)); [exact VU|lia|]. intros u Vu Eu. apply (get_bind sp DT 0 i 1 (N + 1)); [exact VD|lia|lia|]. intros h Lh Nh Eh.
  eapply T_bind; [apply (T_advance ns ni f F C ty sp time xb u h); assumption|]. intros s1 nx (M1 & V1 & E1).
  destruct (VX) as ((RX & CX) & LX & BX). destruct (Ce) as (Sh & Lx & Nx). rewrite RX, CX in *.
  assert (Ix : forall d, In d (v_at xe) <-> incols i 1 d).
  { intros d. split.
    - intros H. apply In_nth_error in H as (r & Hr). assert (Hr' : r < ns) by (rewrite <- Lx; apply nth_error_Some; congruence). exists r, (i + 1). rewrite <- Nx by exact Hr'. repeat split; [exact Hr'|lia|lia|exact Hr].
    - intros (r & k & Hr & H1 & H2 & H3). replace k with (i + 1) in H3 by lia. rewrite <- Nx in H3 by exact Hr. eapply nth_error_In. exact H3. }
  assert (NDe : NoDup (v_at xe)).
  { apply NoDup_nth_error. intros a b Ha E. rewrite Lx in Ha. assert (Hb : b < ns). { rewrite <- Lx. apply nth_error_Some. rewrite <- E. apply nth_error_Some. lia. }
    rewrite !Nx in E by assumption. apply (proj1 (NoDup_nth_error (v_at X)) ND) in E; [nia|]. rewrite LX. nia. }
  eapply T_bind; [apply (T_vassign s1 xe nx ns); [eapply more_vars; [exact M1|exact Ve]|exact V1|exact NDe]|]. intros s2 y (Ch & Ev).
  pose proof (more_len _ _ M1) as Lm. pose proof (ch_len _ _ _ Ch) as Lc.
  assert (Ch2 : changed (incols i 1) sp s2). { eapply ch_weak; [|exact (ch_trans _ _ _ _ _ (more_ch (fun _ => False) _ _ M1) Ch)]. intros d _ [[]|H]. apply Ix, H. }
  assert (Hh : ~ incols i 1 h). { intros P. apply (DJ h (incols_X _ _ _ P)). apply in_or_app. right. eapply nth_error_In. exact Nh. }
  assert (Htn : ~ incols i 1 time) by (intros P; apply Hti, (incols_X _ _ _ P)).
  intros g Sy. destruct (T_bin s2 BAdd time h ltac:(lia) ltac:(lia) g Sy) as (k & g' & s3 & D & (M3 & L3 & E3)).
  exists k, g', s3. split; [exact D|].
  assert (Ch3 : changed (incols i 1) sp s3). { eapply ch_weak; [|exact (ch_trans _ _ _ _ _ Ch2 (more_ch (fun _ => False) _ _ M3))]. intros d _ [H|[]]. exact H. }
  split; [exact Ch3|]. split; [exact L3|]. split.
  { intros K. rewrite List.Forall_forall in BX. specialize (BX _ K). destruct D as (D1 & _ & _). cbn in D1. injection D1 as <- _. destruct Sy as [Sy _]. unfold len in *. lia. }
  intros rho us hs tv x Hin Hv Hx. destruct (Hin i ltac:(lia)) as [Hu Hhh]. apply Eh in Hhh. apply Eb in Hx. apply Eu in Hu. split.
  - apply E3. exists tv, (hs i). split; [apply (ch_has _ _ _ _ _ _ Ch2 Ht Htn), Hv|]. split; [apply (ch_has _ _ _ _ _ _ Ch2 Lh Hh), Hhh|constructor].
  - intros x'. rewrite <- (E1 rho tv x (us i) (hs i) Hv Hx Hu Hhh x'). rewrite <- (Ev rho x'). rewrite <- (col_of_column (sp_se s3) rho X (i + 1) xe x' Ce).
    assert (Vx2 : vars_of s2 xe ns 1) by (eapply ch_vars; [exact Ch2|exact Ve]). split; intros H; [apply (shows_down s2 s3 rho xe ns 1 x' M3 Vx2 H)|apply (shows_up s2 s3 rho _ x' M3 H)].
Qed.

Lemma T_shoot ty : forall n i sp time, mats ns ni N X U DT sp -> i + n <= N -> time < len sp -> ~ In time (v_at X) ->
  T sp (gfor n i (shoot_body ty) time) (fun sp' _ => changed (incols i n) sp sp' /\
    forall rho us hs tv xs, inp sp rho us hs -> has (sp_se sp) rho time tv -> column (sp_se sp) rho X i (xs i) ->
      ((forall k, k < n -> column (sp_se sp') rho X (i + k + 1) (xs (i + k + 1))) <->
       forall k, k < n -> next_state ty F (tv + time_at (fun j => hs (i + j)%nat) k)%R (xs (i + k)) (us (i + k)) (hs (i + k)) (xs (i + k + 1)))).
Proof.
  induction n as [|n IH]; intros i sp time HM Hi Ht Htn; cbn [gfor].
  - apply T_ret. split; [apply ch_refl|]. intros. split; intros; lia.
  - eapply T_bind; [apply (T_shoot_body ty sp i time HM); [lia|exact Ht|exact Htn]|]. intros sp1 k (Ch & Lk & Nk & E).
    assert (HM1 : mats ns ni N X U DT sp1). { destruct HM as (VX & VU & VD). split; [|split]; eapply ch_vars; eauto. }
    eapply T_conseq; [apply (IH (S i) sp1 k HM1); [lia|exact Lk|exact Nk]|]. intros sp2 k2 (Ch2 & E2). split.
    { eapply ch_weak; [|exact (ch_trans _ _ _ _ _ Ch Ch2)]. intros h _ [(r & c & Hr & H1 & H2 & H3)|(r & c & Hr & H1 & H2 & H3)]; exists r, c; repeat split; try assumption; lia. }
    intros rho us hs tv xs Hin Hv Hx. destruct (E rho us hs tv (xs i) Hin Hv Hx) as [Hk Hc].
    assert (Hin1 : inp sp1 rho us hs). { intros j Hj. destruct (Hin j Hj) as [A B]. destruct (inputs_ch sp sp1 i 1 rho j (us j) (hs j) HM Ch Hj) as [I1 I2]. split; [apply I1, A|apply I2, B]. }
    assert (Hcol : column (sp_se sp2) rho X (i + 1) (xs (i + 1)) <-> column (sp_se sp1) rho X (i + 1) (xs (i + 1))).
    { destruct HM1 as (VX & _ & _). apply (ch_column _ _ _ rho X ns (N + 1) (i + 1) _ Ch2 VX); [lia|]. intros r h Hr Eh. apply (incols_other (S i) n r (i + 1)); [lia|exact Hr|lia|lia|exact Eh]. }
    assert (Tm : forall j, time_at (fun m => hs (i + m)) (S j) = (hs i + time_at (fun m => hs (S i + m)%nat) j)%R).
    { induction j as [|j IHj]; [cbn; rewrite Nat.add_0_r; lra|]. cbn [time_at] in IHj |- *. rewrite IHj. replace (i + S j) with (S i + j) by lia. lra. }
    specialize (E2 rho us hs (tv + hs i)%R xs Hin1 Hk). replace (S i) with (i + 1) in E2 at 1 2 by lia.
    split.
    + intros H. pose proof (H 0 ltac:(lia)) as H0. rewrite Nat.add_0_r in H0. apply Hcol in H0. pose proof (proj1 (Hc _) H0) as S0.
      specialize (E2 H0). assert (R : forall j, j < n -> next_state ty F (tv + hs i + time_at (fun j => hs (S i + j)%nat) j) (xs (S i + j)) (us (S i + j)) (hs (S i + j)) (xs (S i + j + 1))).
      { apply E2. intros j Hj. replace (S i + j + 1) with (i + S j + 1) by lia. apply H. lia. }
      intros [|j] Hj; [cbn [time_at]; rewrite Rplus_0_r, Nat.add_0_r; exact S0|]. rewrite Tm. specialize (R j ltac:(lia)).
      replace (tv + (hs i + time_at (fun m => hs (S i + m)%nat) j))%R with (tv + hs i + time_at (fun m => hs (S i + m)%nat) j)%R by lra.
      replace (i + S j) with (S i + j) by lia. exact R.
    + intros H. pose proof (H 0 ltac:(lia)) as S0. cbn [time_at] in S0. rewrite Rplus_0_r, Nat.add_0_r in S0. pose proof (proj2 (Hc _) S0) as H0. specialize (E2 H0).
      assert (R : forall j, j < n -> column (sp_se sp2) rho X (S i + j + 1) (xs (S i + j + 1))).
      { apply E2. intros j Hj. specialize (H (S j) ltac:(lia)). rewrite Tm in H. replace (tv + hs i + time_at (fun m => hs (S i + m)%nat) j)%R with (tv + (hs i + time_at (fun m => hs (S i + m)%nat) j))%R by lra.
        replace (S i + j) with (i + S j) by lia. exact H. }
      intros [|j] Hj; [rewrite Nat.add_0_r; apply Hcol, H0|]. replace (i + S j + 1) with (S i + j + 1) by lia. apply R. lia.
Qed.
End Shoot.

Lemma prefix_of {A} (a b : list A) : (forall h, h < length a -> nth_error b h = nth_error a h) -> exists l, b = a ++ l.
Proof.
  revert b. induction a as [|x a IH]; intros b H; [exists b; reflexivity|]. destruct b as [|y b]; [specialize (H 0 ltac:(cbn; lia)); discriminate H|].
  pose proof (H 0 ltac:(cbn; lia)) as E. injection E as ->. destruct (IH b) as [l ->]; [|exists l; reflexivity]. intros h Hh. apply (H (S h)). cbn. lia.
Qed.

Lemma shooting_makes ns ni f F (C : computes ns ni f F) dt N tm ty sp g : sync g sp -> exists o g' sp' ds, did (ocp_make ns ni dt N f ty tm SINGLE_SHOOTING) g sp o g' sp' /\
  extends sp sp' ds [] [] /\ length ds = ni * (N + 1) + dt_decisions tm N /\
  matrices sp' o ns ni N /\ total_inputs sp' o tm dt N /\ free_inputs sp' o ni tm dt N ds /\
  shows_inputs (sp_se sp') (se_val (sp_se sp')) o (fun _ => repeat 0%R ni) (fun _ => dt) /\
  (forall rho, moves_only sp' ds rho -> column (sp_se sp') rho (o_X o) 0 (repeat 0%R ns)) /\
  forall rho us hs xs, shows_inputs (sp_se sp') rho o us hs -> column (sp_se sp') rho (o_X o) 0 (xs 0) ->
    (shows_states (sp_se sp') rho o xs <-> forall k, k < N -> next_state ty F (time_at hs k) (xs k) (us k) (hs k) (xs (k + 1))).
Proof.
  intros Sy.
  assert (G : T sp (ocp_make ns ni dt N f ty tm SINGLE_SHOOTING) (fun sp' o => exists ds, extends sp sp' ds [] [] /\ length ds = ni * (N + 1) + dt_decisions tm N /\
    matrices sp' o ns ni N /\ total_inputs sp' o tm dt N /\ free_inputs sp' o ni tm dt N ds /\
    shows_inputs (sp_se sp') (se_val (sp_se sp')) o (fun _ => repeat 0%R ni) (fun _ => dt) /\
    (forall rho, moves_only sp' ds rho -> column (sp_se sp') rho (o_X o) 0 (repeat 0%R ns)) /\
    forall rho us hs xs, shows_inputs (sp_se sp') rho o us hs -> column (sp_se sp') rho (o_X o) 0 (xs 0) ->
      (shows_states (sp_se sp') rho o xs <-> forall k, k < N -> next_state ty F (time_at hs k) (xs k) (us k) (hs k) (xs (k + 1))))).
  2:{ destruct (G g Sy) as (o & g' & sp' & D & ds & K). exists o, g', sp', ds. split; [exact D|exact K]. }
  apply (T_layout sp ns ni dt N tm false). intros X U DT s0 L (h0 & HX & HU & HL & Hh0). pose proof (layout_mats _ _ _ _ _ _ _ _ _ _ _ L) as HM.
  assert (ND : NoDup (v_at X)) by (rewrite HX; apply seq_NoDup).
  assert (DJ : forall h, In h (v_at X) -> In h (v_at U ++ v_at DT) -> False) by (intros h H1 H2; rewrite HX in H1; apply in_seq in H1; specialize (HU h H2); lia).
  eapply T_bind with (Q := fun s _ => changed (incols ns N X 0 N) s0 s /\ forall rho us hs xs, inp N U DT s0 rho us hs -> column (sp_se s0) rho X 0 (xs 0) ->
    ((forall k, k < N -> column (sp_se s) rho X (k + 1) (xs (k + 1))) <-> forall k, k < N -> next_state ty F (time_at hs k) (xs k) (us k) (hs k) (xs (k + 1)))).
  { unfold constrain_shooting. eapply T_bind; [apply T_const|]. intros s1 t (M1 & Lt & Et). pose proof (more_ch (fun _ => False) _ _ M1) as C1.
    assert (HM1 : mats ns ni N X U DT s1) by (destruct HM as (V1 & V2 & V3); split; [|split]; eapply ch_vars; eauto).
    assert (Ht : ~ In t (v_at X)). { intros K. rewrite HX in K. apply in_seq in K. assert (nth_error (se_exp (sp_se s1)) t = nth_error (se_exp (sp_se s0)) t) by (apply (ch_nth _ _ _ C1); [lia|auto]).
      destruct (l_X _ _ _ _ _ _ _ _ _ _ _ L) as [_ PX]. destruct (PX (t - h0)) as (h & E1 & E2); [lia|]. rewrite HX, nth_seq in E1 by lia. injection E1 as <-. replace (h0 + (t - h0)) with t in E2 by lia. rewrite E2 in H.
      pose proof (Et (fun _ => 1%R) 0%R) as [_ Q]. destruct (Q eq_refl) as (e & Ee & Ev). rewrite H in Ee. injection Ee as <-. inversion Ev. lra. }
    eapply T_bind; [apply (T_shoot ns ni f F C N X U DT ND DJ ty N 0 s1 t HM1); [lia|exact Lt|exact Ht]|]. intros s2 k (Ch & E). apply T_ret. split.
    - eapply ch_weak; [|exact (ch_trans _ _ _ _ _ C1 Ch)]. intros h _ [[]|H]; exact H.
    - intros rho us hs xs Hin Hx. assert (Hin1 : inp N U DT s1 rho us hs).
      { intros j Hj. destruct (Hin j Hj) as [A B]. destruct HM as (V1 & V2 & V3). split; [apply (ch_column _ _ _ rho U ni (N + 1) j _ C1 V2); [lia|auto|exact A]|apply (ch_entry _ _ _ rho DT 1 (N + 1) 0 j _ C1 V3); [auto|exact B]]. }
      assert (Hx1 : column (sp_se s1) rho X 0 (xs 0)) by (destruct HM as (V1 & V2 & V3); apply (ch_column _ _ _ rho X ns (N + 1) 0 _ C1 V1); [lia|auto|exact Hx]).
      rewrite (E rho us hs 0%R xs Hin1 (proj2 (Et rho 0%R) eq_refl) Hx1). split; intros H j Hj; specialize (H j Hj); rewrite Rplus_0_l in *; exact H. }
  intros s _ (Ch & E). apply T_ret. exists (new_decs sp ns ni N tm false). destruct (new_decs_nodup sp ns ni dt N tm false X U DT s0 L) as [NDd NI]. dL L.
  assert (Col0 : forall rho v, column (sp_se s) rho X 0 v <-> column (sp_se s0) rho X 0 v).
  { intros rho v. destruct HM as (V1 & V2 & V3). apply (ch_column _ _ _ rho X ns (N + 1) 0 _ Ch V1); [lia|]. intros r h Hr Eh. apply (incols_other ns N X ND 0 N r 0); [lia|exact Hr|lia|lia|exact Eh]. }
  assert (Inp : forall rho us hs, inp N U DT s rho us hs <-> inp N U DT s0 rho us hs).
  { intros rho us hs. split; intros H k Hk; destruct (H k Hk) as [A B]; destruct (inputs_ch ns ni N X U DT DJ s0 s 0 N rho k (us k) (hs k) HM Ch Hk) as [I1 I2]; (split; [apply I1, A|apply I2, B]). }
  assert (HM2 : mats ns ni N X U DT s) by (destruct HM as (V1 & V2 & V3); split; [|split]; eapply ch_vars; eauto).
  split; [|split; [rewrite (new_decs_len sp ns ni dt N tm false X U DT s0 L); lia|]].
  { constructor.
    - apply prefix_of. intros h Hh. destruct Lexp as [l El]. assert (Lh : h < h0) by (unfold len in *; lia).
      rewrite (ch_nth _ _ _ Ch h); [rewrite El, nth_error_app1 by exact Hh; reflexivity| |]; [unfold len; rewrite El, app_length; lia|].
      intros P. apply incols_X in P. rewrite HX in P. apply in_seq in P. lia.
    - intros v Hv. rewrite (ch_val _ _ _ Ch). apply Lv, Hv.
    - rewrite (ch_dec _ _ _ Ch). exact Ldec.
    - rewrite (ch_n _ _ _ Ch). auto.
    - rewrite (ch_goal _ _ _ Ch). exact Lg.
    - rewrite (ch_eqs _ _ _ Ch), Leq, app_nil_r. reflexivity.
    - rewrite (ch_ineqs _ _ _ Ch), Lin, app_nil_r. reflexivity. }
  split; [split; [reflexivity|exact HM2]|].
  split; [intros rho; exists (u_at sp ni N rho), (h_at sp ni dt N tm rho); split; [apply Inp; apply (lay_inputs sp ns ni dt N tm false X U DT s0 L); auto|eapply h_at_ok; exact L]|].
  split.
  { intros us hs Hu Hh. exists (put_u sp ni N us (put_h sp ni N tm hs (se_val (sp_se s0)))). split.
    - intros v Hv. rewrite (ch_val _ _ _ Ch). apply (put_moves sp ns ni dt N tm false X U DT s0 L us hs v Hv).
    - apply Inp. exact (put_shows sp ns ni dt N tm false X U DT s0 L us hs _ Hu Hh). }
  split; [rewrite (ch_val _ _ _ Ch); apply Inp; exact (proj1 (lay_start sp ns ni dt N tm false X U DT s0 L))|].
  split.
  { intros rho Hm. cbn [o_X]. apply Col0. apply (plain_column s0 X ns (N + 1) _ rho 0 _ LX); [lia|]. rewrite map_zero; [rewrite seq_length; reflexivity|]. intros i Hi. apply in_seq in Hi.
    rewrite Hm; [rewrite (ch_val _ _ _ Ch); apply LvX; nia|]. unfold new_decs. rewrite !in_app_iff. intros [K|[K|K]]; [apply in_seq in K|apply (dt_dec_in sp ns ni dt N tm false X U DT s0 L) in K|destruct K]; unfold first_x, first_dt in *; lia. }
  intros rho us hs xs Hin Hx. cbn [o_X] in Hx. apply Inp in Hin. pose proof (proj1 (Col0 _ _) Hx) as Hx0. rewrite <- (E rho us hs xs Hin Hx0). unfold shows_states. cbn [o_X o_steps]. split.
  - intros H k Hk. apply H. lia.
  - intros H [|k] Hk; [exact Hx|]. replace (S k) with (k + 1) by lia. apply H. lia.
Qed.
