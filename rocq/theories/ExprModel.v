(** Model of include/sleipnir/autodiff/expression.hpp: expression nodes, the constructors that simplify
    while building, and the value and derivative rules of every operator.

    The scalar type is a record of operations, so that the same model runs on the reals (ExprReal.v)
    and on the reals extended with infinities and NaN (ExprXR.v).  Nodes are numbered in allocation
    order; ownership and freeing are modelled in RefModel.v and ignored here (no node dies). *)
From Coq Require Import ZArith List Bool Arith.
From Verif Require Import Base.
Import ListNotations.

(** The Scalar operations used by expression.hpp. *)
Record sops := mkSops {
  car :> Type;
  s_ofZ : Z -> car;
  s_add : car -> car -> car;
  s_sub : car -> car -> car;
  s_mul : car -> car -> car;
  s_div : car -> car -> car;
  s_opp : car -> car;
  s_eqb : car -> car -> bool;
  s_ltb : car -> car -> bool;
  s_leb : car -> car -> bool;
  s_abs : car -> car;
  s_acos : car -> car;
  s_asin : car -> car;
  s_atan : car -> car;
  s_atan2 : car -> car -> car;
  s_cbrt : car -> car;
  s_cos : car -> car;
  s_cosh : car -> car;
  s_erf : car -> car;
  s_exp : car -> car;
  s_hypot : car -> car -> car;
  s_log : car -> car;
  s_log10 : car -> car;
  s_pow : car -> car -> car;
  s_sin : car -> car;
  s_sinh : car -> car;
  s_sqrt : car -> car;
  s_tan : car -> car;
  s_tanh : car -> car;
  s_pi : car;            (* std::numbers::pi *)
  s_2isqrtpi : car;      (* 2.0 * std::numbers::inv_sqrtpi *)
  s_ln10 : car;          (* std::numbers::ln10 *)
}.

(** expression_type.hpp 15-26. *)
Inductive etype := NONE | CONSTANT | LINEAR | QUADRATIC | NONLINEAR.

Definition etype_rank (t : etype) : nat :=
  match t with NONE => 0 | CONSTANT => 1 | LINEAR => 2 | QUADRATIC => 3 | NONLINEAR => 4 end.
(** operator== of the enumeration, expression_type.hpp 15-26. *)
Definition etype_eqb (a b : etype) : bool := Nat.eqb (etype_rank a) (etype_rank b).
(** std::max on the enumeration. *)
Definition etype_max (a b : etype) : etype := if Nat.ltb (etype_rank a) (etype_rank b) then b else a.

(** One constructor per expression class (file lines of the classes: see [un_value], [bin_value]). *)
Inductive uop := UNeg | UAbs | UAcos | UAsin | UAtan | UCbrt | UCos | UCosh | UErf | UExp | UIsNonneg | UIsPos
  | ULog | ULog10 | USign | USin | USinh | USqrt | UTan | UTanh.
Inductive bop := BAdd | BSub | BMul | BDiv | BAtan2 | BHypot | BMax | BMin | BPow.

(** What a node is: constant (576-588), decision variable (594-609), or an operator with its operands
    (expression.hpp 129-141: args[0], args[1]; unary nodes have args[1] = nullptr). *)
Inductive kind := KConst | KVar | KUn (u : uop) (a : nat) | KBin (b : bop) (l r : nat).
Record node := mkN { n_kind : kind; n_type : etype }.

Definition n_args (nd : node) : list nat :=
  match n_kind nd with
  | KConst | KVar => []
  | KUn _ a => [a]
  | KBin _ l r => [l; r]
  end.

(** Assignment to a member of one node; helper, no counterpart. *)
Definition upd {A} (f : nat -> A) (i : nat) (x : A) : nat -> A := fun j => if Nat.eqb j i then x else f j.

Section Expr.
Context {S : sops}.

Local Notation zero := (s_ofZ S 0%Z).
Local Notation one := (s_ofZ S 1%Z).
Local Notation "x +. y" := (s_add S x y) (at level 50, left associativity).
Local Notation "x -. y" := (s_sub S x y) (at level 50, left associativity).
Local Notation "x *. y" := (s_mul S x y) (at level 40, left associativity).
Local Notation "x /. y" := (s_div S x y) (at level 40, left associativity).
Local Notation "-. x" := (s_opp S x) (at level 35, right associativity).

(** The value() overrides: unary minus 703, abs 780-783, acos 840-843, asin 894-897, atan 949-952,
    cbrt 524-527, cos 1065-1068, cosh 1119-1122, erf 1173-1176, exp 1229-1232, is_nonnegative 1358-1360,
    is_positive 1391-1393, log 1424-1427, log10 1476-1479, sign 1763-1771, sin 1812-1815,
    sinh 1867-1870, sqrt 1922-1925, tan 1978-1981, tanh 2036-2039. *)
Definition un_value (u : uop) (x : S) : S :=
  match u with
  | UNeg => -. x
  | UAbs => s_abs S x
  | UAcos => s_acos S x
  | UAsin => s_asin S x
  | UAtan => s_atan S x
  | UCbrt => s_cbrt S x
  | UCos => s_cos S x
  | UCosh => s_cosh S x
  | UErf => s_erf S x
  | UExp => s_exp S x
  | UIsNonneg => if s_leb S zero x then one else zero
  | UIsPos => if s_ltb S zero x then one else zero
  | ULog => s_log S x
  | ULog10 => s_log10 S x
  | USign => if s_ltb S x zero then s_ofZ S (-1) else if s_eqb S x zero then zero else one
  | USin => s_sin S x
  | USinh => s_sinh S x
  | USqrt => s_sqrt S x
  | UTan => s_tan S x
  | UTanh => s_tanh S x
  end.

(** std::max(a, b) and std::min(a, b). *)
Definition s_max (a b : S) : S := if s_ltb S a b then b else a.
Definition s_min (a b : S) : S := if s_ltb S b a then b else a.

(** plus 490, minus 453, multiplication 664, division 624, atan2 1005-1008, hypot 1289-1292,
    max 1533-1536, min 1602-1605, pow 1675-1678. *)
Definition bin_value (b : bop) (x y : S) : S :=
  match b with
  | BAdd => x +. y
  | BSub => x -. y
  | BMul => x *. y
  | BDiv => x /. y
  | BAtan2 => s_atan2 S x y
  | BHypot => s_hypot S x y
  | BMax => s_max x y
  | BMin => s_min x y
  | BPow => s_pow S x y
  end.

(** grad_l of unary nodes ([adj] is this->adjoint): unary minus 709, abs 789-797, acos 849-852, asin 903-906,
    atan 958-960, cbrt 533-538, cos 1074-1077, cosh 1128-1131, erf 1182-1185, exp 1238-1241,
    is_nonnegative, is_positive and sign: default 383-386, log 1433, log10 1485-1487, sin 1821-1824,
    sinh 1876-1879, sqrt 1931-1934, tan 1987-1992, tanh 2045-2050. *)
Definition un_grad (u : uop) (adj x : S) : S :=
  match u with
  | UNeg => -. adj
  | UAbs => if s_ltb S x zero then -. adj else if s_ltb S zero x then adj else zero
  | UAcos => (-. adj) /. s_sqrt S (one -. x *. x)
  | UAsin => adj /. s_sqrt S (one -. x *. x)
  | UAtan => adj /. (one +. x *. x)
  | UCbrt => let c := s_cbrt S x in adj /. (s_ofZ S 3 *. c *. c)
  | UCos => adj *. (-. s_sin S x)
  | UCosh => adj *. s_sinh S x
  | UErf => adj *. s_2isqrtpi S *. s_exp S ((-. x) *. x)
  | UExp => adj *. s_exp S x
  | UIsNonneg => zero
  | UIsPos => zero
  | ULog => adj /. x
  | ULog10 => adj /. (s_ln10 S *. x)
  | USign => zero
  | USin => adj *. s_cos S x
  | USinh => adj *. s_cosh S x
  | USqrt => adj /. (s_ofZ S 2 *. s_sqrt S x)
  | UTan => let c := s_cos S x in adj /. (c *. c)
  | UTanh => let c := s_cosh S x in adj /. (c *. c)
  end.

(** grad_l of binary nodes: plus 496, minus 459, multiplication 670-672, division 630-632, atan2 1014-1016,
    hypot 1298-1301, max 1542-1544, min 1611-1613, pow 1684-1687. *)
Definition bin_grad_l (b : bop) (adj x y : S) : S :=
  match b with
  | BAdd => adj
  | BSub => adj
  | BMul => adj *. y
  | BDiv => adj /. y
  | BAtan2 => adj *. y /. (x *. x +. y *. y)
  | BHypot => adj *. x /. s_hypot S x y
  | BMax => if s_leb S y x then adj else zero
  | BMin => if s_leb S x y then adj else zero
  | BPow => adj *. s_pow S x (y -. one) *. y
  end.

(** grad_r of binary nodes: plus 498, minus 461, multiplication 674-676, division 634-636, atan2 1018-1020,
    hypot 1303-1306, max 1546-1548, min 1615-1618, pow 1689-1694. *)
Definition bin_grad_r (b : bop) (adj x y : S) : S :=
  match b with
  | BAdd => adj
  | BSub => -. adj
  | BMul => adj *. x
  | BDiv => adj *. (-. x) /. (y *. y)
  | BAtan2 => adj *. (-. x) /. (x *. x +. y *. y)
  | BHypot => adj *. y /. s_hypot S x y
  | BMax => if s_leb S y x then zero else adj
  | BMin => if s_leb S x y then zero else adj
  | BPow => adj *. s_pow S x y *. s_log S x
  end.

(** All nodes ever made, and their mutable fields (94-118). *)
Record st := mkSt {
  st_nodes : list node;
  st_val : nat -> S;
  st_adj : nat -> S;
  st_adje : nat -> option nat;
  st_scr : nat -> Z;   (* int32_t; simplified to unbounded: fewer than 2^31 edges *)
}.

Definition set_val (s : st) i v := mkSt (st_nodes s) (upd (st_val s) i v) (st_adj s) (st_adje s) (st_scr s).
Definition set_adj (s : st) i v := mkSt (st_nodes s) (st_val s) (upd (st_adj s) i v) (st_adje s) (st_scr s).
(** Assignment to adjoint_expr, expression.hpp 99-101. *)
Definition set_adje (s : st) i p := mkSt (st_nodes s) (st_val s) (st_adj s) (upd (st_adje s) i p) (st_scr s).
(** Assignment to scratch, expression.hpp 106-115. *)
Definition set_scr (s : st) i z := mkSt (st_nodes s) (st_val s) (st_adj s) (st_adje s) (upd (st_scr s) i z).

(** Computations on the graph. *)
Definition E (A : Type) := st -> outcome (A * st).
Definition eret {A} (a : A) : E A := fun s => Ok (a, s).
Definition ebind {A B} (m : E A) (k : A -> E B) : E B := fun s => let* (a, s) := m s in k a s.
Definition eub {A} : E A := fun _ => UB.
Local Notation "'do' x <- m ; k" := (ebind m (fun x => k)) (at level 200, x pattern, m at level 100, k at level 200, right associativity).

(** ExpressionPtr: null or a node. *)
Definition ptr := option nat.

(** p->type(), p->val. *)
Definition ptype (p : ptr) : E etype := fun s =>
  match p with
  | None => UB
  | Some i => match nth_error (st_nodes s) i with Some nd => Ok (n_type nd, s) | None => UB end
  end.
(** p->val, expression.hpp 94; a null pointer is undefined behaviour. *)
Definition pval (p : ptr) : E S := fun s =>
  match p with
  | None => UB
  | Some i => match nth_error (st_nodes s) i with Some _ => Ok (st_val s i, s) | None => UB end
  end.

(** make_expression_ptr (45-57) with the default field values (94-118). *)
Definition alloc (k : kind) (t : etype) (v : S) : E ptr := fun s =>
  let i := length (st_nodes s) in
  Ok (Some i, mkSt (st_nodes s ++ [mkN k t]) (upd (st_val s) i v) (upd (st_adj s) i zero)
                   (upd (st_adje s) i None) (upd (st_scr s) i (-1)%Z)).

(** constant_ptr, 421-424. *)
Definition constant_ptr (v : S) : E ptr := alloc KConst CONSTANT v.
(** A decision variable, variable.hpp 271-272 / expression.hpp 594-609. *)
Definition decision_ptr (v : S) : E ptr := alloc KVar LINEAR v.

Definition mk_un (u : uop) (t : etype) (p : ptr) : E ptr :=
  match p with None => eub | Some i => alloc (KUn u i) t zero end.
(** make_expression_ptr of a binary node, expression.hpp 129-141. *)
Definition mk_bin (b : bop) (t : etype) (p q : ptr) : E ptr :=
  match p, q with Some i, Some j => alloc (KBin b i j) t zero | _, _ => eub end.

(** 147-149. *)
Definition is_constant (p : ptr) (c : S) : E bool :=
  do t <- ptype p;
  if etype_eqb t CONSTANT then (do v <- pval p; eret (s_eqb S v c)) else eret false.

(** p->type() == CONSTANT *)
Definition is_const (p : ptr) : E bool := do t <- ptype p; eret (etype_eqb t CONSTANT).

(** 155-201. *)
Definition e_mul (l r : ptr) : E ptr :=
  do l0 <- is_constant l zero; if l0 then eret l else
  do r0 <- is_constant r zero; if r0 then eret r else
  do l1 <- is_constant l one; if l1 then eret r else
  do r1 <- is_constant r one; if r1 then eret l else
  do tl <- ptype l; do tr <- ptype r;
  if etype_eqb tl CONSTANT && etype_eqb tr CONSTANT
  then (do x <- pval l; do y <- pval r; constant_ptr (x *. y))
  else if etype_eqb tl CONSTANT then
    (if etype_eqb tr LINEAR then mk_bin BMul LINEAR l r
     else if etype_eqb tr QUADRATIC then mk_bin BMul QUADRATIC l r
     else mk_bin BMul NONLINEAR l r)
  else if etype_eqb tr CONSTANT then
    (if etype_eqb tl LINEAR then mk_bin BMul LINEAR l r
     else if etype_eqb tl QUADRATIC then mk_bin BMul QUADRATIC l r
     else mk_bin BMul NONLINEAR l r)
  else if etype_eqb tl LINEAR && etype_eqb tr LINEAR then mk_bin BMul QUADRATIC l r
  else mk_bin BMul NONLINEAR l r.

(** 207-237. *)
Definition e_div (l r : ptr) : E ptr :=
  do l0 <- is_constant l zero; if l0 then eret l else
  do r1 <- is_constant r one; if r1 then eret l else
  do tl <- ptype l; do tr <- ptype r;
  if etype_eqb tl CONSTANT && etype_eqb tr CONSTANT
  then (do x <- pval l; do y <- pval r; constant_ptr (x /. y))
  else if etype_eqb tr CONSTANT then
    (if etype_eqb tl LINEAR then mk_bin BDiv LINEAR l r
     else if etype_eqb tl QUADRATIC then mk_bin BDiv QUADRATIC l r
     else mk_bin BDiv NONLINEAR l r)
  else mk_bin BDiv NONLINEAR l r.

(** 243-273: null operands are accepted. *)
Definition e_add (l r : ptr) : E ptr :=
  do l0 <- (match l with None => eret true | Some _ => is_constant l zero end);
  if l0 then eret r else
  do r0 <- (match r with None => eret true | Some _ => is_constant r zero end);
  if r0 then eret l else
  do tl <- ptype l; do tr <- ptype r;
  if etype_eqb tl CONSTANT && etype_eqb tr CONSTANT
  then (do x <- pval l; do y <- pval r; constant_ptr (x +. y))
  else
    let t := etype_max tl tr in
    if etype_eqb t LINEAR then mk_bin BAdd LINEAR l r
    else if etype_eqb t QUADRATIC then mk_bin BAdd QUADRATIC l r
    else mk_bin BAdd NONLINEAR l r.

(** 327-348. *)
Definition e_neg (l : ptr) : E ptr :=
  do l0 <- is_constant l zero; if l0 then eret l else
  do t <- ptype l;
  if etype_eqb t CONSTANT then (do x <- pval l; constant_ptr (-. x))
  else if etype_eqb t LINEAR then mk_un UNeg LINEAR l
  else if etype_eqb t QUADRATIC then mk_un UNeg QUADRATIC l
  else mk_un UNeg NONLINEAR l.

(** 288-322. *)
Definition e_sub (l r : ptr) : E ptr :=
  do l0 <- is_constant l zero;
  if l0 then (do r0 <- is_constant r zero; if r0 then eret r else e_neg r) else
  do r0 <- is_constant r zero;
  if r0 then eret l else
  do tl <- ptype l; do tr <- ptype r;
  if etype_eqb tl CONSTANT && etype_eqb tr CONSTANT
  then (do x <- pval l; do y <- pval r; constant_ptr (x -. y))
  else
    let t := etype_max tl tr in
    if etype_eqb t LINEAR then mk_bin BSub LINEAR l r
    else if etype_eqb t QUADRATIC then mk_bin BSub QUADRATIC l r
    else mk_bin BSub NONLINEAR l r.

(** The shape shared by abs 811-827, asin 920-936, atan 974-990, erf 1200-1216, log 1447-1463,
    log10 1501-1517, sin 1838-1854, sinh 1893-1909, tan 2007-2023, tanh 2065-2081: constant zero is
    returned as is, other constants are folded. *)
Definition un_zero_fixed (u : uop) (x : ptr) : E ptr :=
  do x0 <- is_constant x zero; if x0 then eret x else
  do c <- is_const x;
  if c then (do v <- pval x; constant_ptr (un_value u v)) else mk_un u NONLINEAR x.

(** The shape shared by acos 866-881, cos 1091-1106, cosh 1145-1160, exp 1255-1270: constant zero gives
    the constant [c0]. *)
Definition un_zero_to (u : uop) (c0 : S) (x : ptr) : E ptr :=
  do x0 <- is_constant x zero; if x0 then constant_ptr c0 else
  do c <- is_const x;
  if c then (do v <- pval x; constant_ptr (un_value u v)) else mk_un u NONLINEAR x.

(** expression.hpp 811-827. *)
Definition e_abs := un_zero_fixed UAbs.
(** 920-936. *)
Definition e_asin := un_zero_fixed UAsin.
(** 974-990. *)
Definition e_atan := un_zero_fixed UAtan.
(** 1200-1216. *)
Definition e_erf := un_zero_fixed UErf.
(** 1447-1463. *)
Definition e_log := un_zero_fixed ULog.
(** 1501-1517. *)
Definition e_log10 := un_zero_fixed ULog10.
(** 1838-1854. *)
Definition e_sin := un_zero_fixed USin.
(** 1893-1909. *)
Definition e_sinh := un_zero_fixed USinh.
(** 2007-2023. *)
Definition e_tan := un_zero_fixed UTan.
(** 2065-2081. *)
Definition e_tanh := un_zero_fixed UTanh.
(** 866-881. *)
Definition e_acos := un_zero_to UAcos (s_pi S /. s_ofZ S 2).
(** 1091-1106. *)
Definition e_cos := un_zero_to UCos one.
(** 1145-1160. *)
Definition e_cosh := un_zero_to UCosh one.
(** 1255-1270. *)
Definition e_exp := un_zero_to UExp one.

(** 553-570. *)
Definition e_cbrt (x : ptr) : E ptr :=
  do c <- is_const x;
  if c then
    (do v <- pval x;
     if s_eqb S v zero then eret x
     else if s_eqb S v (s_ofZ S (-1)) || s_eqb S v one then eret x
     else constant_ptr (s_cbrt S v))
  else mk_un UCbrt NONLINEAR x.

(** 1372-1378, 1405-1411. *)
Definition e_is_nonneg (x : ptr) : E ptr :=
  do c <- is_const x;
  if c then (do v <- pval x; constant_ptr (if s_leb S zero v then one else zero)) else mk_un UIsNonneg NONLINEAR x.
Definition e_is_pos (x : ptr) : E ptr :=
  do c <- is_const x;
  if c then (do v <- pval x; constant_ptr (if s_ltb S zero v then one else zero)) else mk_un UIsPos NONLINEAR x.

(** 1783-1799. *)
Definition e_sign (x : ptr) : E ptr :=
  do c <- is_const x;
  if c then
    (do v <- pval x;
     if s_ltb S v zero then constant_ptr (s_ofZ S (-1))
     else if s_eqb S v zero then eret x
     else constant_ptr one)
  else mk_un USign NONLINEAR x.

(** 1948-1965. *)
Definition e_sqrt (x : ptr) : E ptr :=
  do c <- is_const x;
  if c then
    (do v <- pval x;
     if s_eqb S v zero then eret x
     else if s_eqb S v one then eret x
     else constant_ptr (s_sqrt S v))
  else mk_un USqrt NONLINEAR x.

(** Shared by atan2 1041-1052, max 1575-1586, min 1645-1656: only constants are folded. *)
Definition bin_fold (b : bop) (l r : ptr) : E ptr :=
  do cl <- is_const l; do cr <- (if cl then is_const r else eret false);
  if cl && cr then (do x <- pval l; do y <- pval r; constant_ptr (bin_value b x y))
  else mk_bin b NONLINEAR l r.
(** 1041-1052. *)
Definition e_atan2 := bin_fold BAtan2.
(** 1575-1586. *)
Definition e_max := bin_fold BMax.
(** 1645-1656. *)
Definition e_min := bin_fold BMin.

(** 1327-1345. *)
Definition e_hypot (x y : ptr) : E ptr :=
  do x0 <- is_constant x zero; if x0 then e_abs y else
  do y0 <- is_constant y zero; if y0 then e_abs x else
  bin_fold BHypot x y.

(** 1716-1750. *)
Definition e_pow (b p : ptr) : E ptr :=
  do b0 <- is_constant b zero; if b0 then eret b else
  do b1 <- is_constant b one; if b1 then eret b else
  do p0 <- is_constant p zero; if p0 then constant_ptr one else
  do p1 <- is_constant p one; if p1 then eret b else
  do cb <- is_const b; do cp <- (if cb then is_const p else eret false);
  if cb && cp then (do x <- pval b; do y <- pval p; constant_ptr (s_pow S x y)) else
  do p2 <- is_constant p (s_ofZ S 2);
  if p2 then
    (do tb <- ptype b;
     if etype_eqb tb LINEAR then mk_bin BMul QUADRATIC b b else mk_bin BMul NONLINEAR b b)
  else mk_bin BPow NONLINEAR b p.

(** The operators as the user calls them. *)
Definition e_un (u : uop) : ptr -> E ptr :=
  match u with
  | UNeg => e_neg | UAbs => e_abs | UAcos => e_acos | UAsin => e_asin | UAtan => e_atan | UCbrt => e_cbrt
  | UCos => e_cos | UCosh => e_cosh | UErf => e_erf | UExp => e_exp | UIsNonneg => e_is_nonneg
  | UIsPos => e_is_pos | ULog => e_log | ULog10 => e_log10 | USign => e_sign | USin => e_sin
  | USinh => e_sinh | USqrt => e_sqrt | UTan => e_tan | UTanh => e_tanh
  end.
(** The binary ones. *)
Definition e_bin (b : bop) : ptr -> ptr -> E ptr :=
  match b with
  | BAdd => e_add | BSub => e_sub | BMul => e_mul | BDiv => e_div | BAtan2 => e_atan2 | BHypot => e_hypot
  | BMax => e_max | BMin => e_min | BPow => e_pow
  end.

(** grad_expr_l of unary nodes; [a] is this->adjoint_expr, [x] the operand: unary minus 711-715, abs 799-803,
    acos 854-858, asin 908-912, atan 962-966, cbrt 540-545, cos 1079-1083, cosh 1133-1137, erf 1187-1192,
    exp 1243-1247, is_nonnegative/is_positive/sign default 403-407, log 1435-1439, log10 1489-1493,
    sin 1826-1830, sinh 1881-1885, sqrt 1936-1940, tan 1994-1999, tanh 2052-2057.
    (C++ leaves the order in which operands are evaluated open; the model goes left to right.) *)
Definition un_grad_expr (u : uop) (a x : ptr) : E ptr :=
  match u with
  | UNeg => e_neg a
  | UAbs => do s <- e_sign x; e_mul a s
  | UAcos => do na <- e_neg a; do u1 <- constant_ptr one; do xx <- e_mul x x; do d <- e_sub u1 xx;
             do q <- e_sqrt d; e_div na q
  | UAsin => do u1 <- constant_ptr one; do xx <- e_mul x x; do d <- e_sub u1 xx; do q <- e_sqrt d; e_div a q
  | UAtan => do u1 <- constant_ptr one; do xx <- e_mul x x; do d <- e_add u1 xx; e_div a d
  | UCbrt => do c <- e_cbrt x; do three <- constant_ptr (s_ofZ S 3); do m <- e_mul three c; do m <- e_mul m c;
             e_div a m
  | UCos => do s <- e_sin x; do s <- e_neg s; e_mul a s
  | UCosh => do s <- e_sinh x; e_mul a s
  | UErf => do k <- constant_ptr (s_2isqrtpi S); do ak <- e_mul a k; do nx <- e_neg x; do m <- e_mul nx x;
            do ex <- e_exp m; e_mul ak ex
  | UExp => do ex <- e_exp x; e_mul a ex
  | UIsNonneg | UIsPos | USign => constant_ptr zero
  | ULog => e_div a x
  | ULog10 => do k <- constant_ptr (s_ln10 S); do m <- e_mul k x; e_div a m
  | USin => do c <- e_cos x; e_mul a c
  | USinh => do c <- e_cosh x; e_mul a c
  | USqrt => do two <- constant_ptr (s_ofZ S 2); do q <- e_sqrt x; do m <- e_mul two q; e_div a m
  | UTan => do c <- e_cos x; do m <- e_mul c c; e_div a m
  | UTanh => do c <- e_cosh x; do m <- e_mul c c; e_div a m
  end.

(** grad_expr_l of binary nodes: plus 500-504, minus 463-467, multiplication 678-682, division 638-642,
    atan2 1022-1026, hypot 1308-1312, max 1550-1556, min 1620-1627, pow 1696-1701. *)
Definition bin_grad_expr_l (b : bop) (a l r : ptr) : E ptr :=
  match b with
  | BAdd | BSub => eret a
  | BMul => e_mul a r
  | BDiv => e_div a r
  | BAtan2 => do n <- e_mul a r; do ll <- e_mul l l; do rr <- e_mul r r; do d <- e_add ll rr; e_div n d
  | BHypot => do n <- e_mul a l; do h <- e_hypot l r; e_div n h
  | BMax => do d <- e_sub l r; do c <- e_is_nonneg d; e_mul a c
  | BMin => do d <- e_sub r l; do c <- e_is_nonneg d; e_mul a c
  | BPow => do u1 <- constant_ptr one; do p1 <- e_sub r u1; do pw <- e_pow l p1; do m <- e_mul a pw; e_mul m r
  end.

(** grad_expr_r: plus 506-510, minus 469-473, multiplication 684-688, division 644-648, atan2 1028-1032,
    hypot 1314-1318, max 1558-1566, min 1629-1636, pow 1703-1707. *)
Definition bin_grad_expr_r (b : bop) (a l r : ptr) : E ptr :=
  match b with
  | BAdd => eret a
  | BSub => e_neg a
  | BMul => e_mul a l
  | BDiv => do nl <- e_neg l; do n <- e_mul a nl; do rr <- e_mul r r; e_div n rr
  | BAtan2 => do nl <- e_neg l; do n <- e_mul a nl; do ll <- e_mul l l; do rr <- e_mul r r; do d <- e_add ll rr;
              e_div n d
  | BHypot => do n <- e_mul a r; do h <- e_hypot l r; e_div n h
  | BMax => do d <- e_sub r l; do c <- e_is_pos d; e_mul a c
  | BMin => do d <- e_sub l r; do c <- e_is_pos d; e_mul a c
  | BPow => do pw <- e_pow l r; do m <- e_mul a pw; do lg <- e_log l; e_mul m lg
  end.

(** expression_graph.hpp 48-53 / 69-74: visit the arguments of one node. *)
Fixpoint visit (scr : nat -> Z) (delta target : Z) (args : list nat) (stack : list nat) : (nat -> Z) * list nat :=
  match args with
  | [] => (scr, stack)
  | a :: rest =>
      let z := (scr a + delta)%Z in
      visit (upd scr a z) delta target rest (if (z =? target)%Z then a :: stack else stack)
  end.

(** 43-54: count incoming edges ([back()] = head of the stack). *)
Fixpoint count_edges (fuel : nat) (ns : list node) (stack : list nat) (scr : nat -> Z) : outcome (nat -> Z) :=
  match stack with
  | [] => Ok scr
  | n :: rest =>
      match fuel with
      | O => OutOfFuel
      | Datatypes.S fuel =>
          match nth_error ns n with
          | None => UB
          | Some nd => let '(scr, stack) := visit scr 1 0 (n_args nd) rest in count_edges fuel ns stack scr
          end
      end
  end.

(** 62-75: emit nodes whose incoming edges are all traversed. *)
Fixpoint emit (fuel : nat) (ns : list node) (stack : list nat) (scr : nat -> Z) (out : list nat)
    : outcome (list nat * (nat -> Z)) :=
  match stack with
  | [] => Ok (out, scr)
  | n :: rest =>
      match fuel with
      | O => OutOfFuel
      | Datatypes.S fuel =>
          match nth_error ns n with
          | None => UB
          | Some nd => let '(scr, stack) := visit scr (-1) (-1) (n_args nd) rest in emit fuel ns stack scr (out ++ [n])
          end
      end
  end.

(** expression_graph.hpp 29-78. *)
Definition topological_sort (root : ptr) : E (list nat) := fun s =>
  match root with
  | None => Ok ([], s)
  | Some r =>
      match nth_error (st_nodes s) r with
      | None => UB
      | Some nd =>
          if etype_eqb (n_type nd) CONSTANT then Ok ([], s)
          else
            let fuel := length (st_nodes s) in
            let* scr := count_edges fuel (st_nodes s) [r] (st_scr s) in
            let* (out, scr) := emit fuel (st_nodes s) [r] scr [] in
            Ok (out, mkSt (st_nodes s) (st_val s) (st_adj s) (st_adje s) scr)
      end
  end.

(** 86-96, one node. *)
Definition update_node (n : nat) (s : st) : outcome st :=
  match nth_error (st_nodes s) n with
  | None => UB
  | Some nd =>
      match n_kind nd with
      | KConst | KVar => Ok s
      | KUn u a => Ok (set_val s n (un_value u (st_val s a)))
      | KBin b l r => Ok (set_val s n (bin_value b (st_val s l) (st_val s r)))
      end
  end.

(** Range-based for; helper, no counterpart. *)
Fixpoint each {A} (f : A -> st -> outcome st) (l : list A) (s : st) : outcome st :=
  match l with
  | [] => Ok s
  | x :: rest => let* s := f x s in each f rest s
  end.

(** 86-96. *)
Definition update_values (l : list nat) (s : st) : outcome st := each update_node (rev l) s.

(** 131-145, one node. *)
Definition propagate_node (n : nat) (s : st) : outcome st :=
  match nth_error (st_nodes s) n with
  | None => UB
  | Some nd =>
      match n_kind nd with
      | KConst | KVar => Ok s
      | KUn u a => Ok (set_adj s a (st_adj s a +. un_grad u (st_adj s n) (st_val s a)))
      | KBin b l r =>
          let s := set_adj s l (st_adj s l +. bin_grad_l b (st_adj s n) (st_val s l) (st_val s r)) in
          Ok (set_adj s r (st_adj s r +. bin_grad_r b (st_adj s n) (st_val s l) (st_val s r)))
      end
  end.

(** 119-145: seed and propagate the adjoints. *)
Definition propagate (l : list nat) (s : st) : outcome st :=
  match l with
  | [] => Ok s
  | r :: rest =>
      let* s := each (fun n s => Ok (set_adj s n zero)) rest (set_adj s r one) in
      each propagate_node l s
  end.

(** Eigen::Triplet: row, column, value. *)
Definition triplet := (nat * nat * S)%type.

(** 107-153; the output list pairs columns with nodes. *)
Definition append_triplets (l : list nat) (out : list (nat * nat)) (ts : list triplet) (row : nat) (s : st)
    : outcome (list triplet * st) :=
  match l with
  | [] => Ok (ts, s)
  | _ =>
      let* s := propagate l s in
      Ok (ts ++ map (fun '(col, n) => (row, col, st_adj s n)) out, s)
  end.

(** lhs->adjoint_expr += g, expression.hpp 279-282. *)
Definition add_adje (n : nat) (g : ptr) : E unit := fun s =>
  let* (p, s) := e_add (st_adje s n) g s in
  Ok (tt, set_adje s n p).

(** variable_matrix.hpp 1775-1789, one node. *)
Definition grad_node (n : nat) : E unit := fun s =>
  match nth_error (st_nodes s) n with
  | None => UB
  | Some nd =>
      match n_kind nd with
      | KConst | KVar => Ok (tt, s)
      | KUn u a => (do g <- un_grad_expr u (st_adje s n) (Some a); add_adje a g) s
      | KBin b l r =>
          let* (_, s) := (do g <- bin_grad_expr_l b (st_adje s n) (Some l) (Some r); add_adje l g) s in
          (do g <- bin_grad_expr_r b (st_adje s n) (Some l) (Some r); add_adje r g) s
      end
  end.

(** Range-based for in code that builds expressions; helper, no counterpart. *)
Fixpoint eeach {A} (f : A -> E unit) (l : list A) : E unit :=
  match l with
  | [] => eret tt
  | x :: rest => do _ <- f x; eeach f rest
  end.

(** 1793-1795: moving the results out leaves null behind. *)
Fixpoint take_adje (wrt : list nat) : E (list ptr) :=
  match wrt with
  | [] => eret []
  | w :: rest =>
      fun s => let p := st_adje s w in
               (do ps <- take_adje rest; eret (p :: ps)) (set_adje s w None)
  end.

(** variable_matrix.hpp 1757-1805. *)
Definition gradient_tree (l : list nat) (wrt : list nat) : E (list ptr) :=
  match l with
  | [] => eret (map (fun _ => None) wrt)
  | r :: _ =>
      do u1 <- constant_ptr one;
      do _ <- (fun s => Ok (tt, set_adje s r u1));
      do _ <- eeach grad_node l;
      do g <- take_adje wrt;
      do _ <- eeach (fun n s => Ok (tt, set_adje s n None)) l;
      eret g
  end.

End Expr.

Arguments st : clear implicits.
Arguments E : clear implicits.
Notation "'do' x <- m ; k" := (ebind m (fun x => k)) (at level 200, x pattern, m at level 100, k at level 200, right associativity).
