(** Where errors show in a text, and what changes when an expression is replaced. *)
From Coq Require Import String List NArith ZArith Bool.
From Verif Require Import Base Out Literals Exprs Types ExtArgs Registry Rels.
Import ListNotations.
Local Open Scope string_scope.
Local Open Scope list_scope.

(** ** Marks *)

(** The messages stand in the text, each as a mark of its own, in this order. *)
Inductive marks : list string -> list N -> Prop :=
| ma_none s : marks [] s
| ma_one a m ms b : marks ms b -> marks (m :: ms) (a ++ L "!{" ++ L m ++ L "}" ++ b).
(** Errors that may have no mark: a declaration that is refused, a nullability that is
    not specified, a literal that loses some of its digits. *)
Inductive unmarked : ferr -> Prop :=
| un_insert x : unmarked (FInsert x)
| un_nullability : unmarked (FPlan FInvalid "Nullability")
| un_literal : unmarked (FPlan FInvalid "LiteralType").

(** ** Replacing an expression *)

(** A text with places to fill in. *)
Definition fill (t : list (option (list N))) (s : list N) : list N :=
  concat (map (fun o => match o with Some x => x | None => s end) t).
Fixpoint times {A} (n : nat) (l : list A) : list A := match n with O => [] | S n => l ++ times n l end.
Definition holes (t : list (option (list N))) : nat := length (filter (fun o => match o with None => true | _ => false end) t).

(** Expressions with a place for an expression. *)
Inductive ectx : (pexpr -> pexpr) -> Prop :=
| ec_here : ectx (fun x => x)
| ec_arg r l C l' os t : ectx C -> ectx (fun x => EFunc r (l ++ AValue (C x) :: l') os t)
| ec_if l C y l' z : ectx C -> ectx (fun x => EIf (l ++ (Some (C x), y) :: l') z)
| ec_then l y C l' z : ectx C -> ectx (fun x => EIf (l ++ (y, Some (C x)) :: l') z)
| ec_else l C : ectx C -> ectx (fun x => EIf l (Some (C x)))
| ec_cast b C t : ectx C -> ectx (fun x => ECast b (Some (C x)) t).
(** Relations with a place for an expression: everywhere but in the deprecated
    groupings, where equal expressions are written only once. *)
Inductive rctx : (pexpr -> prel) -> Prop :=
| rc_read_filter c s C t a b : ectx C -> rctx (fun x => RRead (mk_read c s (Some (C x)) t a b))
| rc_row c s f l r C r' l' a b : ectx C -> rctx (fun x => RRead (mk_read c s f (ReadVirtual (l ++ (r ++ C x :: r') :: l')) a b))
| rc_condition c i C a : ectx C -> rctx (fun x => RFilter c i (Some (C x)) a)
| rc_expression c i l C l' a : ectx C -> rctx (fun x => RProject c i (l ++ C x :: l') a)
| rc_grouping c i l C l' gs ms a : ectx C -> rctx (fun x => RAggregate c i (l ++ C x :: l') gs ms a)
| rc_measure c i xs gs l r k C k' os t v p f l' a : ectx C ->
    rctx (fun x => RAggregate c i xs gs (l ++ mk_measure (Some (mk_aggfn r (k ++ AValue (C x) :: k') os t v p)) f :: l') a)
| rc_measure_filter c i xs gs l g C l' a : ectx C -> rctx (fun x => RAggregate c i xs gs (l ++ mk_measure g (Some (C x)) :: l') a)
| rc_sort c i l C k l' a : ectx C -> rctx (fun x => RSort c i (l ++ mk_sort_field (Some (C x)) k :: l') a)
| rc_count c i C o a : ectx C -> rctx (fun x => RFetch c i (Some (FmExpr (C x))) o a)
| rc_offset c i n C a : ectx C -> rctx (fun x => RFetch c i n (Some (FmExpr (C x))) a)
| rc_join c i j C p t a : ectx C -> rctx (fun x => RJoin c i j (Some (C x)) p t a)
| rc_post c i j y C t a : ectx C -> rctx (fun x => RJoin c i j y (Some (C x)) t a)
| rc_filter_in c R y a : rctx R -> rctx (fun x => RFilter c (Some (R x)) y a)
| rc_project_in c R l a : rctx R -> rctx (fun x => RProject c (Some (R x)) l a)
| rc_aggregate_in c R l gs ms a : rctx R -> rctx (fun x => RAggregate c (Some (R x)) l gs ms a)
| rc_sort_in c R l a : rctx R -> rctx (fun x => RSort c (Some (R x)) l a)
| rc_fetch_in c R n o a : rctx R -> rctx (fun x => RFetch c (Some (R x)) n o a)
| rc_join_left c R j y p t a : rctx R -> rctx (fun x => RJoin c (Some (R x)) j y p t a)
| rc_join_right c i R y p t a : rctx R -> rctx (fun x => RJoin c i (Some (R x)) y p t a)
| rc_set_in c l R l' o a : rctx R -> rctx (fun x => RSet c (l ++ R x :: l') o a)
| rc_cross_left c R j a : rctx R -> rctx (fun x => RCross c (Some (R x)) j a)
| rc_cross_right c i R a : rctx R -> rctx (fun x => RCross c i (Some (R x)) a)
| rc_single_in c d R : rctx R -> rctx (fun x => RExtSingle c d (Some (R x)))
| rc_multi_in c d l R l' : rctx R -> rctx (fun x => RExtMulti c d (l ++ R x :: l')).
(** Top-level relations with such a place. *)
Inductive pctx : (pexpr -> list plan_rel) -> Prop :=
| pc_rel l R l' : rctx R -> pctx (fun x => l ++ PRel (R x) :: l')
| pc_root l ns R l' : rctx R -> pctx (fun x => l ++ PRoot ns (Some (R x)) :: l').
