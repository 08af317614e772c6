(** Model of [solve(A, B)] (variable_matrix.hpp 1515-1741) over real element values.

    Elements are the real values of the variables: the element operators are the real operations
    (the expression-graph model covers the operators themselves).  The QR branch (1737-1740) is Eigen
    and is not modelled: it is the distinct outcome [None]. *)
From Coq Require Import ZArith List Bool Reals.
From Verif Require Import Base SliceModel Loops MatrixModel.
Import ListNotations.
Open Scope Z_scope.

(** variable_matrix.hpp 77-96: matrix from a nested initializer list (rows of equal length). *)
Definition mat_lit (rows cols : Z) (l : list R) : vmat R := mkMat rows cols (map Some l).

(** [adj_A / det_A * B] (variable_matrix.hpp 1537, 1587, 1736). *)
Definition adj_solve (adj : vmat R) (det : R) (B : vmat R) : outcome (vmat R) :=
  let* q := mat_divs Rdiv (like_mat adj) det in
  mat_mul 0%R Rplus Rmult (like_mat q) (like_mat B).

(** variable_matrix.hpp 1524-1537. *)
Definition solve2 (A B : vmat R) : outcome (vmat R) :=
    let* a := mat_get A 0 0 in
    let* b := mat_get A 0 1 in
    let* c := mat_get A 1 0 in
    let* d := mat_get A 1 1 in
    let adj := mat_lit 2 2 [d; (- b)%R; (- c)%R; a] in
    let det_A := (a * d - b * c)%R in
    adj_solve adj det_A B.

(** variable_matrix.hpp 1538-1587. *)
Definition solve3 (A B : vmat R) : outcome (vmat R) :=
      let* a := mat_get A 0 0 in
      let* b := mat_get A 0 1 in
      let* c := mat_get A 0 2 in
      let* d := mat_get A 1 0 in
      let* e := mat_get A 1 1 in
      let* f := mat_get A 1 2 in
      let* g := mat_get A 2 0 in
      let* h := mat_get A 2 1 in
      let* i := mat_get A 2 2 in
      let ae := (a * e)%R in
      let af := (a * f)%R in
      let ah := (a * h)%R in
      let ai := (a * i)%R in
      let bd := (b * d)%R in
      let bf := (b * f)%R in
      let bg := (b * g)%R in
      let bi := (b * i)%R in
      let cd := (c * d)%R in
      let ce := (c * e)%R in
      let cg := (c * g)%R in
      let ch := (c * h)%R in
      let dh := (d * h)%R in
      let di := (d * i)%R in
      let eg := (e * g)%R in
      let ei := (e * i)%R in
      let fg := (f * g)%R in
      let fh := (f * h)%R in
      let adj_A00 := (ei - fh)%R in
      let adj_A10 := (fg - di)%R in
      let adj_A20 := (dh - eg)%R in
      let det_A := (a * adj_A00 + b * adj_A10 + c * adj_A20)%R in
    let adj := mat_lit 3 3 [adj_A00; (ch - bi)%R; (bf - ce)%R;
                            adj_A10; (ai - cg)%R; (cd - af)%R;
                            adj_A20; (bg - ah)%R; (ae - bd)%R] in
    adj_solve adj det_A B.

(** variable_matrix.hpp 1588-1736. *)
Definition solve4 (A B : vmat R) : outcome (vmat R) :=
      let* a := mat_get A 0 0 in
      let* b := mat_get A 0 1 in
      let* c := mat_get A 0 2 in
      let* d := mat_get A 0 3 in
      let* e := mat_get A 1 0 in
      let* f := mat_get A 1 1 in
      let* g := mat_get A 1 2 in
      let* h := mat_get A 1 3 in
      let* i := mat_get A 2 0 in
      let* j := mat_get A 2 1 in
      let* k := mat_get A 2 2 in
      let* l := mat_get A 2 3 in
      let* m := mat_get A 3 0 in
      let* n := mat_get A 3 1 in
      let* o := mat_get A 3 2 in
      let* p := mat_get A 3 3 in
      let afk := (a * f * k)%R in
      let afl := (a * f * l)%R in
      let afo := (a * f * o)%R in
      let afp := (a * f * p)%R in
      let agj := (a * g * j)%R in
      let agl := (a * g * l)%R in
      let agn := (a * g * n)%R in
      let agp := (a * g * p)%R in
      let ahj := (a * h * j)%R in
      let ahk := (a * h * k)%R in
      let ahn := (a * h * n)%R in
      let aho := (a * h * o)%R in
      let ajo := (a * j * o)%R in
      let ajp := (a * j * p)%R in
      let akn := (a * k * n)%R in
      let akp := (a * k * p)%R in
      let aln := (a * l * n)%R in
      let alo := (a * l * o)%R in
      let bek := (b * e * k)%R in
      let bel := (b * e * l)%R in
      let beo := (b * e * o)%R in
      let bep := (b * e * p)%R in
      let bgi := (b * g * i)%R in
      let bgl := (b * g * l)%R in
      let bgm := (b * g * m)%R in
      let bgp := (b * g * p)%R in
      let bhi := (b * h * i)%R in
      let bhk := (b * h * k)%R in
      let bhm := (b * h * m)%R in
      let bho := (b * h * o)%R in
      let bio := (b * i * o)%R in
      let bip := (b * i * p)%R in
      let bjp := (b * j * p)%R in
      let bkm := (b * k * m)%R in
      let bkp := (b * k * p)%R in
      let blm := (b * l * m)%R in
      let blo := (b * l * o)%R in
      let cej := (c * e * j)%R in
      let cel := (c * e * l)%R in
      let cen := (c * e * n)%R in
      let cep := (c * e * p)%R in
      let cfi := (c * f * i)%R in
      let cfl := (c * f * l)%R in
      let cfm := (c * f * m)%R in
      let cfp := (c * f * p)%R in
      let chi := (c * h * i)%R in
      let chj := (c * h * j)%R in
      let chm := (c * h * m)%R in
      let chn := (c * h * n)%R in
      let cin := (c * i * n)%R in
      let cip := (c * i * p)%R in
      let cjm := (c * j * m)%R in
      let cjp := (c * j * p)%R in
      let clm := (c * l * m)%R in
      let cln := (c * l * n)%R in
      let dej := (d * e * j)%R in
      let dek := (d * e * k)%R in
      let den := (d * e * n)%R in
      let deo := (d * e * o)%R in
      let dfi := (d * f * i)%R in
      let dfk := (d * f * k)%R in
      let dfm := (d * f * m)%R in
      let dfo := (d * f * o)%R in
      let dgi := (d * g * i)%R in
      let dgj := (d * g * j)%R in
      let dgm := (d * g * m)%R in
      let dgn := (d * g * n)%R in
      let din := (d * i * n)%R in
      let dio := (d * i * o)%R in
      let djm := (d * j * m)%R in
      let djo := (d * j * o)%R in
      let dkm := (d * k * m)%R in
      let dkn := (d * k * n)%R in
      let ejo := (e * j * o)%R in
      let ejp := (e * j * p)%R in
      let ekn := (e * k * n)%R in
      let ekp := (e * k * p)%R in
      let eln := (e * l * n)%R in
      let elo := (e * l * o)%R in
      let fio := (f * i * o)%R in
      let fip := (f * i * p)%R in
      let fkm := (f * k * m)%R in
      let fkp := (f * k * p)%R in
      let flm := (f * l * m)%R in
      let flo := (f * l * o)%R in
      let gin := (g * i * n)%R in
      let gip := (g * i * p)%R in
      let gjm := (g * j * m)%R in
      let gjp := (g * j * p)%R in
      let glm := (g * l * m)%R in
      let gln := (g * l * n)%R in
      let hin := (h * i * n)%R in
      let hio := (h * i * o)%R in
      let hjm := (h * j * m)%R in
      let hjo := (h * j * o)%R in
      let hkm := (h * k * m)%R in
      let hkn := (h * k * n)%R in
      let adj_A00 := (fkp - flo - gjp + gln + hjo - hkn)%R in
      let adj_A01 := ((- bkp) + blo + cjp - cln - djo + dkn)%R in
      let adj_A02 := (bgp - bho - cfp + chn + dfo - dgn)%R in
      let adj_A03 := ((- bgl) + bhk + cfl - chj - dfk + dgj)%R in
      let adj_A10 := ((- ekp) + elo + gip - glm - hio + hkm)%R in
      let adj_A11 := (akp - alo - cip + clm + dio - dkm)%R in
      let adj_A12 := ((- agp) + aho + cep - chm - deo + dgm)%R in
      let adj_A13 := (agl - ahk - cel + chi + dek - dgi)%R in
      let adj_A20 := (ejp - eln - fip + flm + hin - hjm)%R in
      let adj_A21 := ((- ajp) + aln + bip - blm - din + djm)%R in
      let adj_A22 := (afp - ahn - bep + bhm + den - dfm)%R in
      let adj_A23 := ((- afl) + ahj + bel - bhi - dej + dfi)%R in
      let adj_A30 := ((- ejo) + ekn + fio - fkm - gin + gjm)%R in
      let adj_A31 := (ajo - akn - bio + bkm + cin - cjm)%R in
      let adj_A32 := ((- afo) + agn + beo - bgm - cen + cfm)%R in
      let adj_A33 := (afk - agj - bek + bgi + cej - cfi)%R in
      let det_A := (a * adj_A00 + b * adj_A10 + c * adj_A20 + d * adj_A30)%R in
    let adj := mat_lit 4 4 [adj_A00; adj_A01; adj_A02; adj_A03;
                            adj_A10; adj_A11; adj_A12; adj_A13;
                            adj_A20; adj_A21; adj_A22; adj_A23;
                            adj_A30; adj_A31; adj_A32; adj_A33] in
    adj_solve adj det_A B.

(** variable_matrix.hpp 1515-1741: [None] is the unmodelled Eigen QR branch; the 1x1 branch returns a
    1x1 matrix through the scalar constructor. *)
Definition solve (A B : vmat R) : option (outcome (vmat R)) :=
  if negb (m_rows A =? m_rows B) then Some AssertFail
  else if (m_rows A =? 1) && (m_cols A =? 1) then
    Some (let* b := mat_get B 0 0 in let* a := mat_get A 0 0 in Ok (mat_lit 1 1 [(b / a)%R]))
  else if (m_rows A =? 2) && (m_cols A =? 2) then Some (solve2 A B)
  else if (m_rows A =? 3) && (m_cols A =? 3) then Some (solve3 A B)
  else if (m_rows A =? 4) && (m_cols A =? 4) then Some (solve4 A B)
  else None.
