(** Proofs for C68. *)
From Coq Require Import ZArith Reals List Bool Lia Lra.
From Verif Require Import Base ExprModel ExprReal NumModel UtilModel FilterProofs SpyModel SpySpec.
Import ListNotations.
Local Open Scope Z_scope.

Lemma pow31 : 2 ^ 31 = 2147483648. Proof. reflexivity. Qed.
Lemma pow32 : 2 ^ 32 = 4294967296. Proof. reflexivity. Qed.

Lemma read_write z rest : fits z -> read32le (write32le z ++ rest) = Some (z, rest).
Proof.
  unfold fits. intros H. unfold write32le, read32le. cbn [app]. do 2 f_equal.
  assert (E : to_i32 z = z).
  { unfold to_i32. rewrite Z.mod_small; rewrite pow31, ?pow32 in *; lia. }
  rewrite E. set (u := z mod 2 ^ 32).
  assert (B : 0 <= u < 2 ^ 32) by (apply Z.mod_pos_bound; reflexivity).
  assert (D : u mod 256 + 256 * (u / 256 mod 256 + 256 * (u / 256 / 256 mod 256 + 256 * (u / 256 / 256 / 256 mod 256))) = u).
  { rewrite (Z.mod_small (u / 256 / 256 / 256) 256).
    - pose proof (Z.div_mod u 256 ltac:(lia)). pose proof (Z.div_mod (u / 256) 256 ltac:(lia)).
      pose proof (Z.div_mod (u / 256 / 256) 256 ltac:(lia)). lia.
    - rewrite !Z.div_div by lia. rewrite pow32 in B. split; [apply Z.div_pos; lia|]. apply Z.div_lt_upper_bound; lia. }
  rewrite D. unfold u. destruct (Z_lt_le_dec z 0) as [N|P].
  - replace (z mod 2 ^ 32) with (z + 2 ^ 32).
    + destruct (Z.ltb_spec (z + 2 ^ 32) (2 ^ 31)); rewrite pow31, pow32 in *; lia.
    + apply (Z.mod_unique _ _ (-1)); rewrite pow31, pow32 in *; lia.
  - rewrite Z.mod_small by (rewrite pow31, pow32 in *; lia). destruct (Z.ltb_spec z (2 ^ 31)); [reflexivity|lia].
Qed.
Lemma write_len z : length (write32le z) = 4%nat. Proof. reflexivity. Qed.

Lemma read_str_write s rest : string_ok s -> read_str (write32le (Z.of_nat (length s)) ++ s ++ rest) = Some (s, rest).
Proof.
  intros H. unfold read_str. rewrite (read_write _ _ H). destruct (Z.ltb_spec (Z.of_nat (length s)) 0); [lia|].
  rewrite Nat2Z.id, app_length. destruct (Nat.leb_spec (length s) (length s + length rest)); [|lia].
  rewrite firstn_app, firstn_all, Nat.sub_diag, skipn_app, skipn_all, Nat.sub_diag. cbn. rewrite app_nil_r. reflexivity.
Qed.

Definition coord_of (k : Z) (e : nat * R) : Z * Z * Z :=
  (Z.of_nat (fst e), k, if Rlt_dec 0 (snd e) then 1 else if Rlt_dec (snd e) 0 then -1 else 0).
Fixpoint frame_of (k : Z) (cols : list (list (nat * R))) : list (Z * Z * Z) :=
  match cols with [] => [] | col :: cols => map (coord_of k) col ++ frame_of (k + 1) cols end.

Lemma frame_recorded cols : forall k, recorded k cols (frame_of k cols).
Proof.
  induction cols as [|col cols IH]; intros k; [constructor|]. induction col as [|[r v] col IHc]; [constructor; apply IH|].
  cbn [frame_of map app]. unfold coord_of at 1. cbn [fst snd]. constructor; [|exact IHc].
  destruct (Rlt_dec 0 v); [constructor; auto|]. destruct (Rlt_dec v 0); [constructor; auto|].
  assert (v = 0)%R as -> by lra. constructor.
Qed.
Lemma frame_len cols : forall k, length (frame_of k cols) = length (concat cols).
Proof. induction cols as [|c cols IH]; intros k; cbn; auto. rewrite !app_length, map_length, IH. reflexivity. Qed.

Definition entry_bytes (k : Z) (e : nat * R) : list Z :=
  write32le (Z.of_nat (fst e)) ++ write32le k ++ [sign_ch (S := Rn) (snd e)].
Lemma entry_len k e : length (entry_bytes k e) = 9%nat. Proof. reflexivity. Qed.

Lemma sign_ch_R (v : R) : sign_ch (S := Rn) v = if Rlt_dec 0 v then plus_ch else if Rlt_dec v 0 then minus_ch else zero_ch.
Proof.
  unfold sign_ch. change (s_ltb Rn (s_ofZ Rn 0) v) with (R_ltb 0 v). change (s_ltb Rn v (s_ofZ Rn 0)) with (R_ltb v 0).
  unfold R_ltb. destruct (Rlt_dec 0 v); [reflexivity|]. destruct (Rlt_dec v 0); reflexivity.
Qed.
Lemma read_entry k e rest : fits k -> fits (Z.of_nat (fst e)) ->
  read_coord (entry_bytes k e ++ rest) = Some (coord_of k e, rest).
Proof.
  intros Hk He. unfold entry_bytes, read_coord. rewrite <- !app_assoc, (read_write _ _ He), (read_write _ _ Hk). cbn [app].
  unfold coord_of. do 3 f_equal. rewrite sign_ch_R. destruct (Rlt_dec 0 (snd e)); [reflexivity|].
  destruct (Rlt_dec (snd e) 0); reflexivity.
Qed.

(** All entries with their column, and their bytes. *)
Fixpoint tagged (k : Z) (cols : list (list (nat * R))) : list (Z * (nat * R)) :=
  match cols with [] => [] | col :: cols => map (pair k) col ++ tagged (k + 1) cols end.
Lemma frame_tagged cols : forall k, frame_of k cols = map (fun p => coord_of (fst p) (snd p)) (tagged k cols).
Proof. induction cols as [|c cols IH]; intros k; cbn; auto. rewrite map_app, map_map, IH. reflexivity. Qed.
Lemma bytes_tagged cols : forall k, write_cols (S := Rn) k cols = flat_map (fun p => entry_bytes (fst p) (snd p)) (tagged k cols).
Proof.
  induction cols as [|c cols IH]; intros k; [reflexivity|]. cbn [write_cols tagged]. rewrite flat_map_app.
  etransitivity; [apply f_equal; apply IH|]. f_equal. induction c as [|[r v] c IHc]; [reflexivity|].
  cbn [flat_map map]. rewrite IHc. reflexivity.
Qed.
Lemma tagged_len cols k : length (tagged k cols) = length (concat cols).
Proof. rewrite <- (frame_len cols k), frame_tagged, map_length. reflexivity. Qed.
Lemma tagged_in cols : forall k j e, In (j, e) (tagged k cols) -> k <= j < k + Z.of_nat (length cols) /\ exists col, In col cols /\ In e col.
Proof.
  induction cols as [|c cols IH]; intros k j e H; [destruct H|]. cbn [tagged] in H. apply in_app_or in H as [H|H].
  - apply in_map_iff in H as (e' & E & H). injection E as <- <-. cbn [length]. split; [lia|]. exists c. cbn. auto.
  - destruct (IH _ _ _ H) as (B & col & H1 & H2). cbn [length]. split; [lia|]. exists col. cbn. auto.
Qed.

Definition tag_ok (p : Z * (nat * R)) : Prop := fits (fst p) /\ fits (Z.of_nat (fst (snd p))).
Lemma matrix_tags m : matrix_ok m -> List.Forall tag_ok (tagged 0 (c_cols m)).
Proof.
  intros (H1 & H2 & H3). apply List.Forall_forall. intros [j [r v]] H. destruct (tagged_in _ _ _ _ H) as (B & col & C1 & C2).
  split; cbn [fst snd]; [|eauto].
  assert (H2' : fits (Z.of_nat (@length (list (nat * R)) (c_cols m)))) by exact H2.
  unfold fits in *. rewrite pow31 in *. lia.
Qed.

(** Reading complete entries, and entries cut short. *)
Lemma read_coords_ok l : forall rest, List.Forall tag_ok l ->
  read_coords (length l) (flat_map (fun p => entry_bytes (fst p) (snd p)) l ++ rest)
  = Some (map (fun p => coord_of (fst p) (snd p)) l, rest).
Proof.
  induction l as [|p l IH]; intros rest F; [reflexivity|]. inversion F as [|? ? [Fk Fe] Fl]; subst.
  cbn [length flat_map read_coords map]. rewrite <- app_assoc, read_entry by auto. rewrite IH by auto. reflexivity.
Qed.
Lemma read32_short bs : (length bs < 4)%nat -> read32le bs = None.
Proof. destruct bs as [|a [|b [|c [|d l]]]]; cbn; auto. lia. Qed.
Lemma read32_len bs z rest : read32le bs = Some (z, rest) -> length bs = (4 + length rest)%nat.
Proof. destruct bs as [|a [|b [|c [|d l]]]]; cbn; try discriminate. intros H. injection H as _ <-. reflexivity. Qed.
Lemma read_coord_len bs c rest : read_coord bs = Some (c, rest) -> length bs = (9 + length rest)%nat.
Proof.
  unfold read_coord. destruct (read32le bs) as [[y b1]|] eqn:E1; try discriminate.
  destruct (read32le b1) as [[x b2]|] eqn:E2; try discriminate. destruct b2 as [|s b3]; try discriminate.
  intros H. injection H as _ <-. apply read32_len in E1, E2. cbn [length] in E2. lia.
Qed.
Lemma read_coords_len n : forall bs l rest, read_coords n bs = Some (l, rest) -> length bs = (9 * n + length rest)%nat.
Proof.
  induction n as [|n IH]; intros bs l rest H; cbn [read_coords] in H; [injection H as _ <-; lia|].
  destruct (read_coord bs) as [[c b1]|] eqn:E1; try discriminate. destruct (read_coords n b1) as [[l' b2]|] eqn:E2; try discriminate.
  injection H as _ <-. apply read_coord_len in E1. apply IH in E2. lia.
Qed.
Lemma bytes_len l : length (flat_map (fun p : Z * (nat * R) => entry_bytes (fst p) (snd p)) l) = (9 * length l)%nat.
Proof. induction l; cbn [flat_map length]; auto. rewrite app_length, entry_len, IHl. lia. Qed.

Definition frame (m : @csc Rn) := frame_of 0 (c_cols m).
Definition addR (m : @csc Rn) := spy_add (S := Rn) m.
Lemma add_eq (m : @csc Rn) : addR m = write32le (Z.of_nat (length (tagged 0 (c_cols m)))) ++
  flat_map (fun p => entry_bytes (fst p) (snd p)) (tagged 0 (c_cols m)).
Proof.
  unfold addR, spy_add, nonzeros. etransitivity; [apply f_equal; apply bytes_tagged|]. do 2 f_equal.
  rewrite tagged_len. reflexivity.
Qed.
Lemma add_len (m : @csc Rn) : length (addR m) = (4 + 9 * length (tagged 0 (c_cols m)))%nat.
Proof. rewrite add_eq, app_length, write_len, bytes_len. reflexivity. Qed.

Lemma fits_tag m : matrix_ok m -> fits (Z.of_nat (length (tagged 0 (c_cols m)))).
Proof. intros (H & _). rewrite tagged_len. exact H. Qed.

(** One whole frame. *)
Lemma read_frame m rest : matrix_ok m -> exists n bs, read32le (addR m ++ rest) = Some (n, bs) /\
  read_coords (Z.to_nat n) bs = Some (frame m, rest).
Proof.
  intros M. rewrite add_eq, <- app_assoc, read_write by (apply fits_tag; auto). eexists _, _. split; [reflexivity|].
  rewrite Nat2Z.id, read_coords_ok by (apply matrix_tags; auto). unfold frame. rewrite frame_tagged. reflexivity.
Qed.
(** A frame cut short. *)
Lemma firstn_short m n : matrix_ok m -> (n < length (addR m))%nat ->
  read32le (firstn n (addR m)) = None \/
  exists c bs, read32le (firstn n (addR m)) = Some (c, bs) /\ read_coords (Z.to_nat c) bs = None.
Proof.
  intros M L. destruct (Nat.lt_ge_cases n 4) as [S4|G4].
  - left. apply read32_short. rewrite firstn_length. lia.
  - right. rewrite add_len in L. rewrite add_eq.
    rewrite firstn_app, (firstn_all2 (n := n) (write32le _)) by (rewrite write_len; lia). rewrite write_len.
    rewrite read_write by (apply fits_tag; auto). eexists _, _. split; [reflexivity|].
    destruct (read_coords _ _) as [[l rest]|] eqn:E; auto. apply read_coords_len in E. rewrite firstn_length, bytes_len, Nat2Z.id in E. lia.
Qed.

Definition total (ms : list (@csc Rn)) : list Z := concat (map addR ms).

Lemma read_frames_ok ms : List.Forall matrix_ok ms -> forall n fuel, (length (firstn n (total ms)) < fuel)%nat ->
  exists k, read_frames fuel (firstn n (total ms)) = Ok (map frame (firstn k ms)) /\ (k <= length ms)%nat /\
    (length (total (firstn k ms)) <= n \/ k = 0)%nat /\ (k < length ms -> n < length (total (firstn (S k) ms)))%nat.
Proof.
  induction ms as [|m ms IH]; intros F n fuel Hf.
  - exists 0%nat. unfold total. cbn. rewrite firstn_nil. split; [destruct fuel; [lia|reflexivity]|]. split; [lia|]. split; [auto|lia].
  - inversion F as [|? ? Fm Fms]; subst. destruct fuel as [|fuel]; [lia|].
    assert (T : total (m :: ms) = addR m ++ total ms) by reflexivity. rewrite T, firstn_app. rewrite T, firstn_app, app_length in Hf.
    destruct (Nat.lt_ge_cases n (length (addR m))) as [Hs|Hg].
    + exists 0%nat. replace (n - length (addR m))%nat with 0%nat by lia. cbn [firstn]. rewrite app_nil_r. split.
      * cbn [read_frames map]. destruct (firstn_short m n Fm Hs) as [->|(c & bs & -> & ->)]; reflexivity.
      * split; [lia|]. split; [auto|]. intros _. unfold total. cbn. rewrite app_nil_r. exact Hs.
    + rewrite (firstn_all2 (n := n) (addR m)) by auto. rewrite (firstn_all2 (n := n) (addR m)) in Hf by auto. cbn [read_frames].
      destruct (read_frame m (firstn (n - length (addR m)) (total ms)) Fm) as (c & bs & -> & ->).
      pose proof (add_len m) as AL.
      destruct (IH Fms (n - length (addR m))%nat fuel) as (k & E & K1 & K2 & K3); [lia|]. rewrite E. cbn [obind].
      exists (S k). cbn [map]. change (firstn (S k) (m :: ms)) with (m :: firstn k ms). split; [reflexivity|]. cbn [length]. split; [lia|].
      assert (TT : forall l, length (total (m :: l)) = (length (addR m) + length (total l))%nat).
      { intros l. unfold total. cbn [map concat]. rewrite app_length. reflexivity. }
      split; [rewrite TT|].
      * left. destruct K2 as [K2| ->]; [lia|]. cbn [firstn]. change (length (total [])) with 0%nat. lia.
      * intros Hk. specialize (K3 ltac:(lia)). change (firstn (S (S k)) (m :: ms)) with (m :: firstn (S k) ms). rewrite TT. lia.
Qed.

Lemma header_read t rl cl rows cols rest : string_ok t -> string_ok rl -> string_ok cl -> fits rows -> fits cols ->
  spy_read (spy_header t rl cl rows cols ++ rest) =
  (let* fs := read_frames (S (length rest)) rest in Ok (mkRec t rl cl rows cols fs)).
Proof.
  intros H1 H2 H3 H4 H5. unfold spy_read, spy_header. rewrite <- !app_assoc.
  rewrite (read_str_write t) by auto. rewrite (read_str_write rl) by auto. rewrite (read_str_write cl) by auto.
  rewrite (read_write rows) by auto. rewrite (read_write cols) by auto. reflexivity.
Qed.

Lemma frames_recorded ms : Forall2 (fun (m : @csc Rn) f => recorded 0 (c_cols m) f) ms (map frame ms).
Proof. induction ms; constructor; auto. apply frame_recorded. Qed.

Lemma c68 t rl cl rows cols (ms : list (@csc Rn)) n : string_ok t -> string_ok rl -> string_ok cl -> fits rows -> fits cols ->
  List.Forall matrix_ok ms -> (length (spy_header t rl cl rows cols) <= n)%nat ->
  exists k fs, spy_read (firstn n (spy_file (S := Rn) t rl cl rows cols ms)) = Ok (mkRec t rl cl rows cols fs) /\
    Forall2 (fun (m : @csc Rn) f => recorded 0 (c_cols m) f) (firstn k ms) fs /\ (k <= length ms)%nat /\
    (length (spy_file (S := Rn) t rl cl rows cols (firstn k ms)) <= n)%nat /\
    (k < length ms -> n < length (spy_file (S := Rn) t rl cl rows cols (firstn (S k) ms)))%nat.
Proof.
  intros H1 H2 H3 H4 H5 F L. unfold spy_file. fold addR. set (h := spy_header t rl cl rows cols) in *.
  change (concat (map spy_add ms)) with (total ms).
  rewrite firstn_app, (firstn_all2 (n := n) h) by auto. unfold h at 1. rewrite header_read by auto.
  destruct (read_frames_ok ms F (n - length h) (S (length (firstn (n - length h) (total ms))))) as (k & E & K1 & K2 & K3).
  { lia. }
  rewrite E. cbn [obind]. exists k, (map frame (firstn k ms)). split; [reflexivity|]. split; [apply frames_recorded|].
  split; [auto|].
  change (concat (map spy_add (firstn k ms))) with (total (firstn k ms)).
  change (concat (map spy_add (firstn (S k) ms))) with (total (firstn (S k) ms)). rewrite !app_length. split.
  - destruct K2 as [K2| ->]; [lia|]. cbn [firstn]. change (length (total [])) with 0%nat. lia.
  - intros Hk. specialize (K3 Hk). lia.
Qed.

Lemma c68_whole t rl cl rows cols (ms : list (@csc Rn)) : string_ok t -> string_ok rl -> string_ok cl -> fits rows -> fits cols ->
  List.Forall matrix_ok ms ->
  exists fs, spy_read (spy_file (S := Rn) t rl cl rows cols ms) = Ok (mkRec t rl cl rows cols fs) /\
    Forall2 (fun (m : @csc Rn) f => recorded 0 (c_cols m) f) ms fs.
Proof.
  intros H1 H2 H3 H4 H5 F. set (n := length (spy_file (S := Rn) t rl cl rows cols ms)).
  destruct (c68 t rl cl rows cols ms n) as (k & fs & E & R & K1 & K2 & K3); auto.
  { unfold n, spy_file. rewrite app_length. lia. }
  unfold n in E. rewrite firstn_all in E. exists fs. split; [exact E|].
  assert (k = length ms \/ k < length ms)%nat as [->|Hk] by lia; [rewrite firstn_all in R; exact R|].
  specialize (K3 Hk). exfalso. clear - K3. unfold n, spy_file in K3. rewrite !app_length in K3.
  rewrite <- (firstn_skipn (S k) ms) in K3 at 1. rewrite map_app, concat_app, app_length in K3. lia.
Qed.

Lemma recorded_fun cols : forall k f f', recorded k cols f -> recorded k cols f' -> f = f'.
Proof.
  intros k f f' H. revert f'. induction H as [k|k cols f H IH|k r v s col cols f Hs H IH]; intros f' H'.
  - inversion H'. reflexivity.
  - inversion H'; subst. apply IH. assumption.
  - inversion H'; subst. f_equal; [|apply IH; assumption]. f_equal.
    match goal with A : sign_is v ?a, B : sign_is v ?b |- _ => inversion A; inversion B; subst; auto; lra end.
Qed.
