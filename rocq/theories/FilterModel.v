(** Model of include/sleipnir/optimization/solver/util/filter.hpp. *)
From Coq Require Import ZArith List Bool.
From Verif Require Import ExprModel NumModel.
Import ListNotations.

Section Filter.
Context {S : nops}.
Infix "+" := (s_add S).
Infix "-" := (s_sub S).
Infix "*" := (s_mul S).
Infix "<?" := (s_ltb S).
Infix "<=?" := (s_leb S).

(** filter.hpp 19-67. *)
Record fentry := mkFE { fe_cost : S; fe_viol : S }.
(** filter.hpp 46-48 (SQP). *)
Definition fe_sqp (f : S) (c_e : list S) : fentry := mkFE f (norm1 c_e).
(** filter.hpp 56-62 (interior point). *)
Definition fe_ipm (f : S) (s c_e c_i : list S) (mu : S) : fentry :=
  mkFE (f - mu * vsum (map (s_log S) s)) (norm1 c_e + norm1 (vsub c_i s)).
(** filter.hpp 63-66. *)
Definition dominated_by (a b : fentry) : bool := (fe_cost b <=? fe_cost a) && (fe_viol b <=? fe_viol a).

(** filter.hpp 75-212, fields. *)
Record filter := mkF { f_min : S; f_max : S; f_entries : list fentry; f_flag : bool }.

(** filter.hpp 87-94. *)
Definition filter_new (v : S) : filter :=
  mkF (lit 1 4 * smax (s_ofZ S 1) v) (s_ofZ S 10000 * smax (s_ofZ S 1) v) [] false.
(** filter.hpp 97-100. *)
Definition filter_reset (f : filter) : filter := mkF (f_min f) (f_max f) [] false.

(** filter.hpp 182-183. *)
Definition g_cost : S := lit 1 8.
Definition g_constraint : S := lit 1 5.

(** filter.hpp 194-200. *)
Definition filter_add (f : filter) (e : fentry) : filter :=
  mkF (f_min f) (f_max f) (List.filter (fun x => negb (dominated_by x e)) (f_entries f) ++ [e]) (f_flag f).
(** filter.hpp 206-211. *)
Definition in_filter (f : filter) (e : fentry) : bool := existsb (fun x => dominated_by e x) (f_entries f).

(** filter.hpp 120-124. *)
Definition switching (cur : fentry) (d a : S) : bool :=
  (d <? s_ofZ S 0) && (s_pow S (fe_viol cur) (lit 11 1) <? a * s_pow S (s_opp S d) (lit 23 1)).
(** filter.hpp 126-129. *)
Definition armijo (cur trial : fentry) (d a : S) : bool := fe_cost trial <=? fe_cost cur + lit 1 8 * a * d.
(** filter.hpp 134, 154-156: the margin entry. *)
Definition margin (cur : fentry) (a : S) : fentry :=
  let phi := s_pow S a (lit 15 1) in
  mkFE (fe_cost cur - phi * g_cost * fe_viol cur) ((s_ofZ S 1 - phi * g_constraint) * fe_viol cur).
(** filter.hpp 135-140. *)
Definition sufficient (cur trial : fentry) (a : S) : bool :=
  (fe_cost trial <=? fe_cost (margin cur a)) || (fe_viol trial <=? fe_viol (margin cur a)).

Definition with_flag (f : filter) (b : bool) : filter := mkF (f_min f) (f_max f) (f_entries f) b.

(** filter.hpp 109-172. *)
Definition try_add (f : filter) (cur trial : fentry) (d a : S) : filter * bool :=
  if negb (s_finite S (fe_cost trial)) || (f_max f <? fe_viol trial) then (f, false)
  else
    let sw := switching cur d a in
    let ar := armijo cur trial d a in
    let su := sufficient cur trial a in
    if (fe_viol cur <=? f_min f) && sw && negb ar then (with_flag f false, false)
    else if negb ((fe_viol cur <=? f_min f) && sw) && negb su then (with_flag f false, false)
    else if in_filter f trial then (with_flag f true, false)
    else if negb sw || negb ar then (filter_add f (margin cur a), true)
    else (f, true).

End Filter.
Arguments fentry : clear implicits.
Arguments filter : clear implicits.
