(** Model of include/sleipnir/util/spy.hpp (the writer) and of the reader in tools/spy.py.

    A file is the list of its bytes, as integers in [0, 256).  Simplification: writes to the stream succeed. *)
From Coq Require Import ZArith List Bool.
From Verif Require Import Base ExprModel NumModel UtilModel.
Import ListNotations.
Local Open Scope Z_scope.

(** spy.hpp 107-112, and the conversion of its argument to int32_t (modulo 2^32). *)
Definition to_i32 (z : Z) : Z := (z + 2 ^ 31) mod 2 ^ 32 - 2 ^ 31.
Definition write32le (z : Z) : list Z :=
  let u := to_i32 z mod 2 ^ 32 in
  [u mod 256; u / 256 mod 256; u / 256 / 256 mod 256; u / 256 / 256 / 256 mod 256].

(** Character codes of '+', '-' and '0'. *)
Definition plus_ch := 43.
Definition minus_ch := 45.
Definition zero_ch := 48.

Section Write.
Context {S : nops}.

(** The constructor, 57-76; strings are their bytes. *)
Definition spy_header (title row_label col_label : list Z) (rows cols : Z) : list Z :=
  write32le (Z.of_nat (length title)) ++ title ++
  write32le (Z.of_nat (length row_label)) ++ row_label ++
  write32le (Z.of_nat (length col_label)) ++ col_label ++
  write32le rows ++ write32le cols.

(** 91-97. *)
Definition sign_ch (v : S) : Z :=
  if s_ltb S (s_ofZ S 0) v then plus_ch else if s_ltb S v (s_ofZ S 0) then minus_ch else zero_ch.

Definition nonzeros (m : @csc S) : nat := length (concat (c_cols m)).

(** 86-100: the columns from index [k] on. *)
Fixpoint write_cols (k : Z) (cols : list (list (nat * S))) : list Z :=
  match cols with
  | [] => []
  | col :: cols =>
      flat_map (fun '(r, v) => write32le (Z.of_nat r) ++ write32le k ++ [sign_ch v]) col ++ write_cols (k + 1) cols
  end.

(** 81-101. *)
Definition spy_add (m : @csc S) : list Z := write32le (Z.of_nat (nonzeros m)) ++ write_cols 0 (c_cols m).

(** A file after the constructor and one add() per matrix. *)
Definition spy_file (title row_label col_label : list Z) (rows cols : Z) (ms : list (@csc S)) : list Z :=
  spy_header title row_label col_label rows cols ++ concat (map spy_add ms).

End Write.

(** struct.unpack("<i", f.read(4))[0]; [None] is struct.error. *)
Definition read32le (bs : list Z) : option (Z * list Z) :=
  match bs with
  | a :: b :: c :: d :: rest =>
      let u := a + 256 * (b + 256 * (c + 256 * d)) in
      Some (if u <? 2 ^ 31 then u else u - 2 ^ 32, rest)
  | _ => None
  end.
(** struct.unpack(f"{size}s", f.read(size))[0]. *)
Definition read_str (bs : list Z) : option (list Z * list Z) :=
  match read32le bs with
  | None => None
  | Some (n, rest) =>
      if (n <? 0) then None
      else if Nat.leb (Z.to_nat n) (length rest) then Some (firstn (Z.to_nat n) rest, skipn (Z.to_nat n) rest) else None
  end.

(** spy.py 41-50: one coordinate. *)
Definition read_coord (bs : list Z) : option ((Z * Z * Z) * list Z) :=
  match read32le bs with
  | None => None
  | Some (y, bs) =>
      match read32le bs with
      | None => None
      | Some (x, bs) =>
          match bs with
          | [] => None
          | s :: bs => Some ((y, x, if s =? plus_ch then 1 else if s =? minus_ch then -1 else 0), bs)
          end
      end
  end.
(** spy.py 41-50: the loop over the coordinates. *)
Fixpoint read_coords (n : nat) (bs : list Z) : option (list (Z * Z * Z) * list Z) :=
  match n with
  | O => Some ([], bs)
  | S n =>
      match read_coord bs with
      | None => None
      | Some (c, bs) => match read_coords n bs with None => None | Some (cs, bs) => Some (c :: cs, bs) end
      end
  end.
(** 38-58: frames until struct.error. *)
Fixpoint read_frames (fuel : nat) (bs : list Z) : outcome (list (list (Z * Z * Z))) :=
  match fuel with
  | O => OutOfFuel
  | S fuel =>
      match read32le bs with
      | None => Ok []
      | Some (n, bs) =>
          match read_coords (Z.to_nat n) bs with
          | None => Ok []
          | Some (f, bs) => let* fs := read_frames fuel bs in Ok (f :: fs)
          end
      end
  end.

(** What spy.py 26-58 reads from a file. *)
Record recording := mkRec {
  r_title : list Z; r_row_label : list Z; r_col_label : list Z; r_rows : Z; r_cols : Z;
  r_frames : list (list (Z * Z * Z))       (* (row, column, sign) *)
}.

(** 24-58; an error in the header is an exception, [AssertFail] here. *)
Definition spy_read (bs : list Z) : outcome recording :=
  match read_str bs with None => AssertFail | Some (t, bs) =>
  match read_str bs with None => AssertFail | Some (rl, bs) =>
  match read_str bs with None => AssertFail | Some (cl, bs) =>
  match read32le bs with None => AssertFail | Some (rows, bs) =>
  match read32le bs with None => AssertFail | Some (cols, bs) =>
    let* fs := read_frames (S (length bs)) bs in Ok (mkRec t rl cl rows cols fs)
  end end end end end.
