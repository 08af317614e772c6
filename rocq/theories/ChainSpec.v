(** Chained comparisons: what they mean in mathematics, and which link of a chain the values single out. *)
From Coq Require Import Reals List Bool Arith.
From Verif Require Import ExprModel GraphSpec MathSpec VarModel ExprReal VarSpec ProblemModel ProblemSpec.
Import ListNotations.

(** The relations a chain stands for, link by link. *)
Inductive links_are (se : senv) : operand R_ops -> list (cmp * operand R_ops) -> list (bool * list urel) -> Prop :=
| la_nil a : links_are se a [] []
| la_cons a c b rest l ls : rels se c a b = Some l -> links_are se b rest ls -> links_are se a ((c, b) :: rest) ((is_eq c, l) :: ls).

(** The first link whose relations do not all hold at [rho]; the last one if there is none. *)
Inductive singled (rho : nat -> R) : list (bool * list urel) -> bool * list urel -> Prop :=
| si_last k : singled rho [k] k
| si_fails k ks : ks <> [] -> ~ Forall (rel_holds rho) (snd k) -> singled rho (k :: ks) k
| si_holds k ks k' : Forall (rel_holds rho) (snd k) -> singled rho ks k' -> singled rho (k :: ks) k'.

(** [sp'] is [sp] with the relations of these links imposed; constraint objects apart. *)
Definition imposes (sp sp' : spec) (ks : list (bool * list urel)) : Prop :=
  sp_se sp' = sp_se sp /\ sp_dec sp' = sp_dec sp /\ sp_goal sp' = sp_goal sp /\
  sp_eqs sp' = sp_eqs sp ++ concat (map snd (filter (fun k => fst k) ks)) /\
  sp_ineqs sp' = sp_ineqs sp ++ concat (map snd (filter (fun k => negb (fst k)) ks)).
