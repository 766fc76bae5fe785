(** The literals in a plan. *)
From Coq Require Import List NArith ZArith Bool.
From Verif Require Import Base Literals Exprs ExtArgs Registry Rels Plan Structural.
Import ListNotations.

(** In an expression. *)
Inductive in_expr (l : literal) : pexpr -> Prop :=
| ie_lit : in_expr l (ELit l)
| ie_arg r args opts t x : In (AValue x) args -> in_expr l x -> in_expr l (EFunc r args opts t)
| ie_if ifs els c x : In c ifs -> fst c = Some x \/ snd c = Some x -> in_expr l x -> in_expr l (EIf ifs els)
| ie_else ifs x : in_expr l x -> in_expr l (EIf ifs (Some x))
| ie_cast b x t : in_expr l x -> in_expr l (ECast b (Some x) t).

(** The expressions a relation has itself. *)
Inductive rel_expr (x : pexpr) : prel -> Prop :=
| re_read r : rd_filter r = Some x -> rel_expr x (RRead r)
| re_row r rows row : rd_type r = ReadVirtual rows -> In row rows -> In x row -> rel_expr x (RRead r)
| re_filter c i a : rel_expr x (RFilter c i (Some x) a)
| re_project c i xs a : In x xs -> rel_expr x (RProject c i xs a)
| re_group c i xs gs ms a : In x xs -> rel_expr x (RAggregate c i xs gs ms a)
| re_deprecated c i xs gs g ms a : In g gs -> In x (gr_exprs g) -> rel_expr x (RAggregate c i xs gs ms a)
| re_measure c i xs gs ms m f a : In m ms -> ms_fn m = Some f -> In (AValue x) (af_args f) -> rel_expr x (RAggregate c i xs gs ms a)
| re_sort c i ss s a : In s ss -> sf_expr s = Some x -> rel_expr x (RSort c i ss a)
| re_limit c i o a : rel_expr x (RFetch c i (Some (FmExpr x)) o a)
| re_offset c i n a : rel_expr x (RFetch c i n (Some (FmExpr x)) a)
| re_join c l r p t a : rel_expr x (RJoin c l r (Some x) p t a)
| re_post c l r y t a : rel_expr x (RJoin c l r y (Some x) t a).
(** The relations it reads. *)
Inductive rel_input (i : prel) : prel -> Prop :=
| ri_filter c x a : rel_input i (RFilter c (Some i) x a)
| ri_project c x a : rel_input i (RProject c (Some i) x a)
| ri_aggregate c g gs ms a : rel_input i (RAggregate c (Some i) g gs ms a)
| ri_sort c s a : rel_input i (RSort c (Some i) s a)
| ri_fetch c n o a : rel_input i (RFetch c (Some i) n o a)
| ri_left c r x p t a : rel_input i (RJoin c (Some i) r x p t a)
| ri_right c l x p t a : rel_input i (RJoin c l (Some i) x p t a)
| ri_set c l o a : In i l -> rel_input i (RSet c l o a)
| ri_cleft c r a : rel_input i (RCross c (Some i) r a)
| ri_cright c l a : rel_input i (RCross c l (Some i) a)
| ri_single c d : rel_input i (RExtSingle c d (Some i))
| ri_multi c d l : In i l -> rel_input i (RExtMulti c d l).
Inductive in_rel (l : literal) : prel -> Prop :=
| ir_here x r : rel_expr x r -> in_expr l x -> in_rel l r
| ir_input i r : rel_input i r -> in_rel l i -> in_rel l r.
Definition in_plan (l : literal) (p : pplan) : Prop :=
  exists r, (In (PRel r) (pl_rels _ p) \/ exists ns, In (PRoot ns (Some r)) (pl_rels _ p)) /\ in_rel l r.

(** In what a handler makes of a message. *)
Inductive in_value {F : Floats} (l : literal) : xvalue -> Prop :=
| iv_expr x : in_expr l x -> in_value l (XExpr x)
| iv_tuple vs v : In v vs -> in_value l v -> in_value l (XTuple vs).
Definition in_args {F : Floats} (l : literal) (a : xargs) : Prop :=
  (exists v, In v (xa_positional a ++ map snd (xa_named a)) /\ in_value l v) \/
  (exists x, In (XColExpr x) (xa_columns a) /\ in_expr l x).
