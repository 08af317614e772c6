(** Proofs about NumPy arrays as operands. *)
From Coq Require Import ZArith List Reals Lia Lra Bool.
From Verif Require Import Base SliceModel Loops MatrixModel MatrixSpec MatrixProofs MatrixProofs2 MatrixProofs3 PyModel PySpec PyProofs PyUse NpModel NpSpec.
Import ListNotations.
Open Scope Z_scope.

Section Np.
  Context {D E : Type} (mem : Z -> option D) (num : D -> E) (e_zero : E) (e_add e_sub e_mul : E -> E -> E).
  Notation cast := (try_cast_to_eigen mem num).
  Notation oper := (operate e_zero e_add e_sub e_mul).
  Notation left_ := (array_left mem num e_zero e_add e_sub e_mul).
  Notation right_ := (array_right mem num e_zero e_add e_sub e_mul).

  (** Every array a program can make is two-dimensional, and its elements are where the strides say. *)
  Lemma shows_at a r c F : shows mem a r c F ->
    0 <= r /\ 0 <= c /\ exists s0 s1, a_shape a = [r; c] /\ a_strides a = [s0; s1] /\
      forall i j, inr r c i j -> map_at mem a s0 s1 i j = Ok (F i j).
  Proof.
    assert (K : forall t p r c s0 s1 (G : Z -> Z -> D), (exists s0' s1', [r; c] = [r; c] /\ [s0; s1] = [s0'; s1'] /\
       forall i j, inr r c i j -> map_at mem (mkArr t p [r; c] [s0; s1]) s0' s1' i j = Ok (G i j)) <->
       forall i j, inr r c i j -> mem (p + i * s0 + j * s1) = Some (G i j)).
    { intros t p r0 c0 s0 s1 G. split.
      - intros (x & y & _ & Es & H) i j Hij. injection Es as <- <-. specialize (H i j Hij). unfold map_at in H. cbn [a_data] in H.
        destruct (mem _); [congruence|discriminate].
      - intros H. exists s0, s1. repeat split. intros i j Hij. unfold map_at. cbn [a_data]. rewrite (H i j Hij). reflexivity. }
    induction 1 as [t p r c F H Hr Hc|t p r c s0 s1 F _ (Hr & Hc & IH)|t p r c s0 s1 F start step len _ (Hr & Hc & IH) Hl Hs|t p c s0 s1 F n _ (_ & Hc & IH) Hn];
      split; try lia; split; try lia; cbn [a_shape a_strides] in *; rewrite K; try rewrite K in IH.
    - intros i j Hij. rewrite <- (H i j Hij). f_equal. lia.
    - intros i j Hij. rewrite <- (IH j i); [f_equal; lia|]. unfold inr in *. lia.
    - intros i j Hij. rewrite <- (IH (start + i * step) j); [f_equal; lia|]. unfold inr in *. split; [apply Hs; lia|lia].
    - intros i j Hij. rewrite <- (IH 0 j); [f_equal; lia|]. unfold inr in *. lia.
  Qed.

  Lemma cast_ok a r c F : shows mem a r c F -> dims r c -> taken a ->
    exists m, cast (a_type a) (OArr a) = Ok (Some m) /\ denotes m r c (fun i j => num (F i j)).
  Proof.
    intros S Hd T. destruct (shows_at _ _ _ _ S) as (_ & _ & s0 & s1 & E1 & E2 & H).
    unfold try_cast_to_eigen. replace (dtype_eqb (a_type a) (a_type a)) with true by (unfold taken in T; destruct (a_type a); [| | | |congruence]; reflexivity).
    rewrite E1, E2.
    destruct (mat_of_like_ok (mkLike r c (map_at mem a s0 s1)) r c F) as (m & Em & Rm).
    { split; [reflexivity|]. split; [reflexivity|]. split; [exact Hd|]. exact H. }
    rewrite Em. cbn [obind]. eexists. split; [reflexivity|].
    split; [reflexivity|]. split; [reflexivity|]. split; [exact Hd|]. intros i j Hij. cbn [ml_get].
    destruct (represents_denotes m r c F Rm) as (_ & _ & _ & G). cbn [ml_get like_mat] in G. rewrite (G i j Hij). reflexivity.
  Qed.

  Lemma cast_not a t : a_type a <> t \/ t = Others -> cast t (OArr a) = Ok None.
  Proof.
    intros H. unfold try_cast_to_eigen. replace (dtype_eqb (a_type a) t) with false; [reflexivity|].
    destruct H as [H| ->]; destruct (a_type a); try destruct t; try reflexivity; congruence.
  Qed.

  (** The array is given to the operator, once. *)
  Lemma apply_ok a r c F f : shows mem a r c F -> dims r c -> taken a ->
    exists m, denotes m r c (fun i j => num (F i j)) /\
      cast (a_type a) (OArr a) = Ok (Some m) /\
      apply_eigen_op mem num f (OArr a) = let* x := f m in Ok (Some x).
  Proof.
    intros S Hd T. destruct (cast_ok a r c F S Hd T) as (m & E1 & H). exists m. split; [exact H|]. split; [exact E1|].
    unfold apply_eigen_op, taken in *. cbn [apply_types].
    destruct (a_type a) eqn:Et; try congruence;
      repeat (rewrite (cast_not a) by (left; congruence); cbn [obind]); rewrite E1; reflexivity.
  Qed.

  Lemma obind_some {A} (x : outcome A) : (let* r := (let* y := x in Ok (Some y)) in
      match r with Some r => Ok r | None => AssertFail end) = x.
  Proof. destruct x; reflexivity. Qed.

  Lemma left_is o a x r c F : shows mem a r c F -> dims r c -> taken a ->
    exists m, denotes m r c (fun i j => num (F i j)) /\ cast (a_type a) (OArr a) = Ok (Some m) /\ left_ o a x = oper o m x.
  Proof.
    intros S Hd T. destruct (apply_ok a r c F (fun l => oper o l x) S Hd T) as (m & H & Ec & Ea). exists m. split; [exact H|]. split; [exact Ec|].
    unfold array_left, ufunc_call. cbn [app ask]. unfold array_ufunc. rewrite Ea.
    destruct (oper o m x); reflexivity.
  Qed.

  (** The exchanged comparison is the same one. *)
  Lemma mirror_is o a b : comparison o = true -> o <> Eq -> oper (mirror o) b a = oper o a b.
  Proof. destruct o; cbn; intros; try discriminate; try congruence; reflexivity. Qed.

  Lemma right_is o a x r c F : shows mem a r c F -> dims r c -> taken a ->
    exists m, denotes m r c (fun i j => num (F i j)) /\
      (right_ o x a = oper o x m \/ o = Eq /\ right_ o x a = oper o m x).
  Proof.
    intros S Hd T. destruct (left_is (mirror o) a x r c F S Hd T) as (m & H & Ec & El). exists m. split; [exact H|].
    destruct (shows_at _ _ _ _ S) as (_ & _ & s0 & s1 & E1 & E2 & _).
    assert (Ea : forall f, apply_eigen_op mem num f (OArr a) = let* y := f m in Ok (Some y)).
    { intros f. destruct (apply_ok a r c F f S Hd T) as (m' & _ & Ec' & Ea). rewrite Ec in Ec'. injection Ec' as <-. exact Ea. }
    assert (Dr : direct mem num e_zero e_add e_sub e_mul o x a = Ok None \/
                 direct mem num e_zero e_add e_sub e_mul o x a = let* y := oper o x m in Ok (Some y)).
    { unfold direct. rewrite E1. destruct (a_type a) eqn:Et;
        try (left; rewrite (cast_not a) by (left; congruence); destruct o; reflexivity).
      rewrite Ec. cbn [obind]. destruct o; [left; reflexivity| | | | | | |]; right; reflexivity. }
    unfold array_right. destruct Dr as [Dr|Dr]; rewrite Dr; cbn [obind].
    - destruct (comparison o) eqn:Co.
      + unfold array_left in El. rewrite El. destruct o; try discriminate Co;
          [right; split; reflexivity| | | |]; left; reflexivity.
      + left. unfold ufunc_call. cbn [app ask]. unfold array_ufunc at 1.
        assert (Ex : forall f, apply_eigen_op mem num f (OVars x) = Ok None) by reflexivity. rewrite Ex. cbn [obind]. rewrite Ea.
        destruct (oper o x m); reflexivity.
    - left. destruct (oper o x m); reflexivity.
  Qed.

  (** ** Item assignment *)
  Lemma set_ok (m : vmat E) R0 C0 H y i j li f lj g a F : represents m R0 C0 H -> moderate R0 C0 -> held m y ->
    1 <= o_rows m y -> 1 <= o_cols m y ->
    selects (o_rows m y) i li f -> selects (o_cols m y) j lj g -> modest (o_rows m y) i -> modest (o_cols m y) j ->
    shows mem a li lj F -> dims li lj -> taken a ->
    exists m', setitem_array mem num m y i j a = Ok m' /\ written m m' y li lj f g (fun p q => num (F p q)).
  Proof.
    intros HR HM Hh O1 O2 S1 S2 M1 M2 S Hd T. destruct (cast_ok a li lj F S Hd T) as (v & Ec & Hv).
    destruct (c93_set m R0 C0 H HR HM y i j li f lj g v _ Hh O1 O2 S1 S2 M1 M2 Hv) as (m' & Em & W). exists m'. split; [|exact W].
    unfold setitem_array, taken in *. cbn [first_type].
    destruct (a_type a) eqn:Et; try congruence;
      repeat (rewrite (cast_not a) by (left; congruence); cbn [obind]); rewrite Ec; exact Em.
  Qed.
  Lemma set_refused (m : vmat E) y i j a : a_type a = Others \/ length (a_shape a) <> 2%nat ->
    setitem_array mem num m y i j a = AssertFail.
  Proof.
    intros H. unfold setitem_array. cbn [first_type]. unfold try_cast_to_eigen. destruct H as [H|H].
    - rewrite H. reflexivity.
    - destruct (a_shape a) as [|? [|? [|? ?]]]; cbn in H; try lia; destruct (a_type a); reflexivity.
  Qed.

  Lemma construct_ok a r c F : shows mem a r c F -> dims r c -> a_type a = F64 \/ a_type a = F32 ->
    exists m, construct mem num a = Ok m /\ represents m r c (fun i j => num (F i j)).
  Proof.
    intros S Hd T. destruct (cast_ok a r c F S Hd) as (v & Ec & Hv); [unfold taken; destruct T as [-> | ->]; discriminate|].
    destruct (mat_of_like_ok v r c _ Hv) as (m & Em & Hm). exists m. split; [|exact Hm]. unfold construct. cbn [first_type].
    destruct T as [T|T]; rewrite T in Ec; [|rewrite (cast_not a) by (left; congruence); cbn [obind]]; rewrite Ec; exact Em.
  Qed.
  Lemma first_ok a r c F : shows mem a r c F -> dims r c -> taken a ->
    exists v, first_type mem num [F64; F32; I64; I32] (OArr a) = Ok (Some v) /\ denotes v r c (fun i j => num (F i j)).
  Proof.
    intros S Hd T. destruct (cast_ok a r c F S Hd T) as (v & Ec & Hv). exists v. split; [|exact Hv]. unfold taken in T. cbn [first_type].
    destruct (a_type a) eqn:Et; try congruence;
      repeat (rewrite (cast_not a) by (left; congruence); cbn [obind]); rewrite Ec; reflexivity.
  Qed.

  (** ** The operators *)
  Lemma differences_ok (a b : mlike E) r c F G : denotes a r c F -> denotes b r c G ->
    exists l, differences e_sub a b = Ok l /\
      forall e, In e l <-> exists i j, inr r c i j /\ e = e_sub (F i j) (G i j).
  Proof.
    intros (A1 & A2 & (D1 & D2 & D3) & A3) (B1 & B2 & _ & B3). unfold differences. rewrite A1, A2, B1, B2, !Z.eqb_refl. cbn [andb oassert].
    destruct (for_rc_inv (fun x y l => 0 <= x <= r /\ 0 <= y <= c /\ forall e, In e l <->
          exists i j, inr r c i j /\ (i < x \/ i = x /\ j < y) /\ e = e_sub (F i j) (G i j))
        (fun i j l => let* x := ml_get a i j in let* y := ml_get b i j in Ok (l ++ [e_sub x y])) r c []) as (l & El & _ & _ & Hl); try lia.
    - split; [lia|]. split; [lia|]. intros e. split; [intros []|]. intros (i & j & Hij & Hlt & _). unfold inr in Hij. lia.
    - intros x l Hx (X & Y & H). split; [lia|]. split; [lia|]. intros e. rewrite H.
      split; intros (i & j & Hij & Hlt & Ee); exists i, j; (split; [exact Hij|split; [unfold inr in Hij; lia|exact Ee]]).
    - intros x y l Hx Hy (X & Y & H). rewrite A3, B3 by (unfold inr; lia). cbn [obind]. eexists. split; [reflexivity|].
      split; [lia|]. split; [lia|]. intros e. rewrite in_app_iff, H. split.
      + intros [(i & j & Hij & Hlt & Ee)|[<-|[]]].
        * exists i, j. split; [exact Hij|]. split; [lia|exact Ee].
        * exists x, y. split; [unfold inr; lia|]. split; [lia|reflexivity].
      + intros (i & j & Hij & Hlt & Ee). destruct (Z.eq_dec i x) as [->|Ni]; [destruct (Z.eq_dec j y) as [->|Nj]|].
        * right. left. symmetry. exact Ee.
        * left. exists x, j. split; [exact Hij|]. split; [lia|exact Ee].
        * left. exists i, j. split; [exact Hij|]. split; [lia|exact Ee].
    - exists l. split; [exact El|]. intros e. rewrite Hl. split.
      + intros (i & j & Hij & _ & Ee). exists i, j. auto.
      + intros (i & j & Hij & Ee). exists i, j. split; [exact Hij|]. split; [unfold inr in Hij; lia|exact Ee].
  Qed.

  Lemma differences_reject (a b : mlike E) : ml_rows a <> ml_rows b \/ ml_cols a <> ml_cols b ->
    differences e_sub a b = AssertFail.
  Proof.
    intros H. unfold differences. replace ((ml_rows a =? ml_rows b) && (ml_cols a =? ml_cols b)) with false; [reflexivity|].
    symmetry. apply andb_false_iff. destruct H; [left|right]; lia.
  Qed.

  Context (val : E -> R).
  Context (v_zero : val e_zero = 0%R)
    (v_add : forall a b, val (e_add a b) = (val a + val b)%R)
    (v_sub : forall a b, val (e_sub a b) = (val a - val b)%R)
    (v_mul : forall a b, val (e_mul a b) = (val a * val b)%R).

  Lemma oper_ok o a b r1 c1 r2 c2 r k c F G : denotes a r1 c1 F -> denotes b r2 c2 G -> fits o r1 c1 r2 c2 r k c -> dims r c ->
    exists x, oper o a b = Ok x /\ computes val o r k c (fun i j => val (F i j)) (fun i j => val (G i j)) x.
  Proof.
    intros Ha Hb Hf Hd.
    assert (Cmp : forall a b (F G : Z -> Z -> E), denotes a r c F -> denotes b r c G -> exists l, differences e_sub a b = Ok l /\
      ((forall e, In e l -> val e = 0%R) <-> forall i j, inr r c i j -> val (F i j) = val (G i j)) /\
      ((forall e, In e l -> (0 <= val e)%R) <-> forall i j, inr r c i j -> (val (G i j) <= val (F i j))%R)).
    { intros a0 b0 F0 G0 Ha0 Hb0. destruct (differences_ok a0 b0 r c F0 G0 Ha0 Hb0) as (l & El & Hl). exists l. split; [exact El|].
      split; split.
      - intros H i j Hij. specialize (H (e_sub (F0 i j) (G0 i j))). rewrite v_sub in H.
        assert (In (e_sub (F0 i j) (G0 i j)) l) as HI by (apply Hl; exists i, j; auto). specialize (H HI). lra.
      - intros H e He. apply Hl in He. destruct He as (i & j & Hij & ->). rewrite v_sub, (H i j Hij). lra.
      - intros H i j Hij. specialize (H (e_sub (F0 i j) (G0 i j))). rewrite v_sub in H.
        assert (In (e_sub (F0 i j) (G0 i j)) l) as HI by (apply Hl; exists i, j; auto). specialize (H HI). lra.
      - intros H e He. apply Hl in He. destruct He as (i & j & Hij & ->). rewrite v_sub. specialize (H i j Hij). lra. }
    destruct o; cbn [fits] in Hf.
    - destruct Hf as (<- & -> & -> & ->).
      destruct (val_mat_mul val e_zero e_add e_mul v_zero v_add v_mul a b r1 c1 c2 F G Ha Hb Hd) as (m & H & Em & Rm & Hv).
      unfold operate. rewrite Em. eexists. split; [reflexivity|]. exists H. split; [exact Rm|]. intros i j _. apply Hv.
    - destruct Hf as (<- & <- & -> & ->). unfold operate. destruct (cwise_reduce_ok a b e_add r1 c1 F G Ha Hb) as (m & Em & Rm).
      change (mat_add e_add a b) with (cwise_reduce a b e_add). rewrite Em. eexists. split; [reflexivity|]. eexists. split; [exact Rm|].
      intros i j _. apply v_add.
    - destruct Hf as (<- & <- & -> & ->). unfold operate. destruct (cwise_reduce_ok a b e_sub r1 c1 F G Ha Hb) as (m & Em & Rm).
      change (mat_sub e_sub a b) with (cwise_reduce a b e_sub). rewrite Em. eexists. split; [reflexivity|]. eexists. split; [exact Rm|].
      intros i j _. apply v_sub.
    - destruct Hf as (<- & <- & -> & ->). destruct (Cmp a b F G Ha Hb) as (l & El & H & _). unfold operate. rewrite El. eexists. split; [reflexivity|]. exact H.
    - destruct Hf as (<- & <- & -> & ->). destruct (Cmp b a G F Hb Ha) as (l & El & _ & H). unfold operate. rewrite El. eexists. split; [reflexivity|]. exact H.
    - destruct Hf as (<- & <- & -> & ->). destruct (Cmp b a G F Hb Ha) as (l & El & _ & H). unfold operate. rewrite El. eexists. split; [reflexivity|]. exact H.
    - destruct Hf as (<- & <- & -> & ->). destruct (Cmp a b F G Ha Hb) as (l & El & _ & H). unfold operate. rewrite El. eexists. split; [reflexivity|].
      cbn. rewrite H. split; intros K i j Hij; specialize (K i j Hij); lra.
    - destruct Hf as (<- & <- & -> & ->). destruct (Cmp a b F G Ha Hb) as (l & El & _ & H). unfold operate. rewrite El. eexists. split; [reflexivity|].
      cbn. rewrite H. split; intros K i j Hij; specialize (K i j Hij); lra.
  Qed.

  Lemma oper_reject o a b : clash o (ml_rows a) (ml_cols a) (ml_rows b) (ml_cols b) -> oper o a b = AssertFail.
  Proof.
    intros H. destruct o; cbn [clash] in H; unfold operate.
    - rewrite mat_mul_reject by exact H. reflexivity.
    - change (mat_add e_add a b) with (cwise_reduce a b e_add). rewrite cwise_reduce_reject by exact H. reflexivity.
    - change (mat_sub e_sub a b) with (cwise_reduce a b e_sub). rewrite cwise_reduce_reject by exact H. reflexivity.
    - rewrite differences_reject by exact H. reflexivity.
    - rewrite differences_reject by (intuition congruence). reflexivity.
    - rewrite differences_reject by (intuition congruence). reflexivity.
    - rewrite differences_reject by exact H. reflexivity.
    - rewrite differences_reject by exact H. reflexivity.
  Qed.

  Theorem operands_ok o a x ra ca F rx cx G : shows mem a ra ca F -> dims ra ca -> taken a -> denotes x rx cx G ->
    (forall r k c, fits o ra ca rx cx r k c -> dims r c -> exists y, left_ o a x = Ok y /\
       computes val o r k c (fun i j => val (num (F i j))) (fun i j => val (G i j)) y) /\
    (forall r k c, fits o rx cx ra ca r k c -> dims r c -> exists y, right_ o x a = Ok y /\
       computes val o r k c (fun i j => val (G i j)) (fun i j => val (num (F i j))) y) /\
    (clash o ra ca rx cx -> left_ o a x = AssertFail) /\
    (clash o rx cx ra ca -> right_ o x a = AssertFail).
  Proof.
    intros S Hd T Hx.
    destruct (left_is o a x ra ca F S Hd T) as (m & Hm & _ & El).
    destruct (right_is o a x ra ca F S Hd T) as (m' & Hm' & Er).
    split; [|split; [|split]].
    - intros r k c Hf Hdr. rewrite El. exact (oper_ok o m x ra ca rx cx r k c _ _ Hm Hx Hf Hdr).
    - intros r k c Hf Hdr. destruct Er as [Er|[-> Er]]; rewrite Er.
      + exact (oper_ok o x m' rx cx ra ca r k c _ _ Hx Hm' Hf Hdr).
      + assert (Hf' : fits Eq ra ca rx cx r k c) by (cbn in *; lia).
        destruct (oper_ok Eq m' x ra ca rx cx r k c _ _ Hm' Hx Hf' Hdr) as (y & Ey & Hy). exists y. split; [exact Ey|].
        destruct y as [?|[|] l]; cbn in Hy |- *; try contradiction. rewrite Hy. split; intros K i j Hij; symmetry; exact (K i j Hij).
    - intros C. rewrite El. apply oper_reject. destruct Hm as (-> & -> & _), Hx as (-> & -> & _). exact C.
    - intros C. destruct Er as [Er|[-> Er]]; rewrite Er; apply oper_reject; destruct Hm' as (-> & -> & _), Hx as (-> & -> & _);
        [exact C|]. cbn in *. intuition congruence.
  Qed.

  (** Arrays of other types, and arrays that are not two-dimensional, are refused. *)
  Theorem operands_refused o a x : a_type a = Others \/ length (a_shape a) <> 2%nat ->
    left_ o a x = AssertFail /\ right_ o x a = AssertFail.
  Proof.
    intros H.
    assert (K : forall f, apply_eigen_op mem num f (OArr a) = Ok None \/ apply_eigen_op mem num f (OArr a) = AssertFail).
    { intros f. unfold apply_eigen_op. cbn [apply_types]. unfold try_cast_to_eigen. destruct H as [H|H].
      - rewrite H. left. reflexivity.
      - destruct (a_shape a) as [|? [|? [|? ?]]]; cbn in H; try lia; destruct (a_type a); cbn; auto. }
    assert (Kd : direct mem num e_zero e_add e_sub e_mul o x a = Ok None).
    { unfold direct. destruct H as [H|H].
      - rewrite cast_not by (left; congruence). destruct o, (a_shape a) as [|? [|? [|? ?]]]; reflexivity.
      - destruct o, (a_shape a) as [|? [|? [|? ?]]]; cbn in H; try lia; reflexivity. }
    assert (L : forall o, left_ o a x = AssertFail).
    { intros o'. unfold array_left, ufunc_call. cbn [app ask]. unfold array_ufunc.
      destruct (K (fun l => oper o' l x)) as [-> | ->]; reflexivity. }
    split; [apply L|]. unfold array_right. rewrite Kd. cbn [obind]. destruct (comparison o); [apply L|].
    unfold ufunc_call. cbn [app ask]. unfold array_ufunc at 1.
    assert (Ex : forall f, apply_eigen_op mem num f (OVars x) = Ok None) by reflexivity. rewrite Ex. cbn [obind].
    destruct (K (fun r => oper o x r)) as [-> | ->]; reflexivity.
  Qed.

  (** Every other ufunc, and every method of a ufunc other than the call, is refused, whatever its arguments. *)
  Theorem ufunc_refused u call inputs out : u = UOther \/ call = false ->
    ufunc_call mem num e_zero e_add e_sub e_mul u call inputs out = AssertFail.
  Proof.
    intros H. unfold ufunc_call. induction (inputs ++ out) as [|[a|x|] l IH]; cbn [ask]; try exact IH; [reflexivity|].
    replace (array_ufunc mem num e_zero e_add e_sub e_mul x u call inputs) with (@Ok (option (res E)) None); [exact IH|].
    unfold array_ufunc. destruct H as [-> | ->]; [destruct call|]; reflexivity.
  Qed.

  (** np.add(a, b, out=x) computes a + x. *)
  Theorem out_is o a b x r c F : shows mem a r c F -> dims r c -> taken a ->
    ufunc_call mem num e_zero e_add e_sub e_mul (UFunc o) true [OArr a; OArr b] [OVars x] = left_ o a x.
  Proof.
    intros S Hd T. destruct (apply_ok a r c F (fun l => oper o l x) S Hd T) as (m & H & Ec & Ea).
    unfold array_left, ufunc_call. cbn [app ask]. unfold array_ufunc. rewrite Ea. destruct (oper o m x); reflexivity.
  Qed.
End Np.

(** ** set_value *)
Lemma set_values_ok {V} (x : mlike nat) (v : mlike V) r c G F st : denotes x r c G -> denotes v r c F ->
  (forall i j i' j', inr r c i j -> inr r c i' j' -> G i j = G i' j' -> i = i' /\ j = j') ->
  exists st', set_values x v st = Ok st' /\ (forall i j, inr r c i j -> st' (G i j) = F i j) /\
    forall k, (forall i j, inr r c i j -> G i j <> k) -> st' k = st k.
Proof.
  intros (X1 & X2 & (D1 & D2 & _) & X3) (V1 & V2 & _ & V3) Inj. unfold set_values. rewrite X1, X2, V1, V2, !Z.eqb_refl. cbn [andb oassert].
  destruct (for_rc_inv (fun p q s => 0 <= p <= r /\ 0 <= q <= c /\
        (forall i j, inr r c i j -> i < p \/ i = p /\ j < q -> s (G i j) = F i j) /\
        forall k, (forall i j, inr r c i j -> G i j <> k) -> s k = st k)
      (fun i j st => let* k := ml_get x i j in let* d := ml_get v i j in Ok (fun k' => if Nat.eqb k' k then d else st k')) r c st)
    as (s & Es & _ & _ & H1 & H2); try lia.
  - split; [lia|]. split; [lia|]. split; [|reflexivity]. intros i j Hij Hlt. unfold inr in Hij. lia.
  - intros p s Hp (P1 & P2 & H1 & H2). split; [lia|]. split; [lia|]. split; [|exact H2]. intros i j Hij Hlt. apply H1; [exact Hij|]. unfold inr in Hij. lia.
  - intros p q s Hp Hq (P1 & P2 & H1 & H2). rewrite X3, V3 by (unfold inr; lia). cbn [obind]. eexists. split; [reflexivity|].
    split; [lia|]. split; [lia|]. split.
    + intros i j Hij Hlt. destruct (Nat.eqb_spec (G i j) (G p q)) as [Eg|Ng].
      * destruct (Inj i j p q Hij) as [-> ->]; [unfold inr; lia|exact Eg|reflexivity].
      * apply H1; [exact Hij|]. assert (~ (i = p /\ j = q)) by (intros [-> ->]; congruence). lia.
    + intros k Hk. destruct (Nat.eqb_spec k (G p q)) as [->|_]; [exfalso; apply (Hk p q); [unfold inr; lia|reflexivity]|exact (H2 k Hk)].
  - exists s. split; [exact Es|]. split; [|exact H2]. intros i j Hij. apply H1; [exact Hij|]. unfold inr in Hij. lia.
Qed.
Lemma set_value_ok {D V} (mem : Z -> option D) (num : D -> V) (x : mlike nat) a ra ca F rx cx G st :
  shows mem a ra ca F -> dims ra ca -> taken a -> denotes x rx cx G ->
  (ra = rx -> ca = cx -> (forall i j i' j', inr rx cx i j -> inr rx cx i' j' -> G i j = G i' j' -> i = i' /\ j = j') ->
   exists st', set_value_array mem num x a st = Ok st' /\ (forall i j, inr rx cx i j -> st' (G i j) = num (F i j)) /\
     forall k, (forall i j, inr rx cx i j -> G i j <> k) -> st' k = st k) /\
  (ra <> rx \/ ca <> cx -> set_value_array mem num x a st = AssertFail).
Proof.
  intros S Hd T Hx. destruct (first_ok mem num a ra ca F S Hd T) as (v & Ef & Hv). unfold set_value_array. rewrite Ef. cbn [obind]. split.
  - intros -> -> Inj. exact (set_values_ok x v rx cx G _ st Hx Hv Inj).
  - intros H. destruct Hx as (X1 & X2 & _), Hv as (V1 & V2 & _). unfold set_values. rewrite X1, X2, V1, V2.
    replace ((rx =? ra) && (cx =? ca)) with false; [reflexivity|]. symmetry. apply andb_false_iff. destruct H; [left|right]; lia.
Qed.
