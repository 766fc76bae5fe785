(** The two ways in which the Substrait protobuf gives groupings, and its
    enumerations: what the statements of Props_Aggregate.v refer to. *)
From Coq Require Import String Ascii List NArith ZArith Bool.
From Verif Require Import Base Exprs ExprEq Rels SpecRels.
Import ListNotations.
Local Open Scope string_scope.
Local Open Scope list_scope.

(** ** Groupings

    A grouping set is a list of expressions.  In the deprecated form each grouping
    carries the expressions of its set and the relation lists none; in the current
    form the relation lists the distinct expressions and each grouping gives
    positions in that list. *)
Definition deprecated_form (sets : list (list pexpr)) (gexprs : list pexpr) (groups : list grouping) : Prop :=
  gexprs = [] /\ map gr_exprs groups = sets.
Definition current_form (sets : list (list pexpr)) (gexprs : list pexpr) (groups : list grouping) : Prop :=
  gexprs = firsts (concat sets) /\
  Forall2 (fun s g => Forall2 (fun x i => nth_error gexprs (N.to_nat i) = Some x) s (gr_refs g)) sets groups.

(** The second relation is the first with some deprecated groupings, at any depth,
    replaced by current ones for the same sets, of which the first is not empty. *)
Inductive modernized : prel -> prel -> Prop :=
| mo_same r : modernized r r
| mo_groupings sets c i gexprs groups gexprs' groups' ms adv :
    hd [] sets <> [] -> deprecated_form sets gexprs groups -> current_form sets gexprs' groups' ->
    modernized (RAggregate c i gexprs groups ms adv) (RAggregate c i gexprs' groups' ms adv)
| mo_trans r s t : modernized r s -> modernized s t -> modernized r t
| mo_filter c i i' x adv : modernized i i' -> modernized (RFilter c (Some i) x adv) (RFilter c (Some i') x adv)
| mo_project c i i' xs adv : modernized i i' -> modernized (RProject c (Some i) xs adv) (RProject c (Some i') xs adv)
| mo_aggregate c i i' g gs ms adv : modernized i i' ->
    modernized (RAggregate c (Some i) g gs ms adv) (RAggregate c (Some i') g gs ms adv)
| mo_sort c i i' l adv : modernized i i' -> modernized (RSort c (Some i) l adv) (RSort c (Some i') l adv)
| mo_fetch c i i' n o adv : modernized i i' -> modernized (RFetch c (Some i) n o adv) (RFetch c (Some i') n o adv)
| mo_left c l l' r x p t adv : modernized l l' -> modernized (RJoin c (Some l) r x p t adv) (RJoin c (Some l') r x p t adv)
| mo_right c l r r' x p t adv : modernized r r' -> modernized (RJoin c l (Some r) x p t adv) (RJoin c l (Some r') x p t adv)
| mo_set c a i i' b o adv : modernized i i' -> modernized (RSet c (a ++ i :: b) o adv) (RSet c (a ++ i' :: b) o adv)
| mo_cross_left c l l' r adv : modernized l l' -> modernized (RCross c (Some l) r adv) (RCross c (Some l') r adv)
| mo_cross_right c l r r' adv : modernized r r' -> modernized (RCross c l (Some r) adv) (RCross c l (Some r') adv)
| mo_single c d i i' : modernized i i' -> modernized (RExtSingle c d (Some i)) (RExtSingle c d (Some i'))
| mo_multi c d a i i' b : modernized i i' -> modernized (RExtMulti c d (a ++ i :: b)) (RExtMulti c d (a ++ i' :: b)).
Inductive plan_rel_modernized : plan_rel -> plan_rel -> Prop :=
| pm_rel r r' : modernized r r' -> plan_rel_modernized (PRel r) (PRel r')
| pm_root ns r r' : modernized r r' -> plan_rel_modernized (PRoot ns (Some r)) (PRoot ns (Some r'))
| pm_same x : plan_rel_modernized x x.

(** ** Enumerations

    [substrait/algebra.proto]: [JoinRel.JoinType], [SetRel.SetOp],
    [SortField.SortDirection], without their prefixes and the unspecified value. *)
Definition proto_join_types : list (string * Z) :=
  [("INNER", 1); ("OUTER", 2); ("LEFT", 3); ("RIGHT", 4);
   ("LEFT_SEMI", 5); ("LEFT_ANTI", 6); ("LEFT_SINGLE", 7);
   ("RIGHT_SEMI", 8); ("RIGHT_ANTI", 9); ("RIGHT_SINGLE", 10);
   ("LEFT_MARK", 11); ("RIGHT_MARK", 12)]%Z.
Definition proto_set_ops : list (string * Z) :=
  [("MINUS_PRIMARY", 1); ("MINUS_MULTISET", 2); ("INTERSECTION_PRIMARY", 3);
   ("INTERSECTION_MULTISET", 4); ("UNION_DISTINCT", 5); ("UNION_ALL", 6);
   ("MINUS_PRIMARY_ALL", 7); ("INTERSECTION_MULTISET_ALL", 8)]%Z.
Definition proto_sort_directions : list (string * Z) :=
  [("ASC_NULLS_FIRST", 1); ("ASC_NULLS_LAST", 2); ("DESC_NULLS_FIRST", 3);
   ("DESC_NULLS_LAST", 4); ("CLUSTERED", 5)]%Z.

(** A protobuf name in camel case: underscores dropped, the letters after the first
    of each word in lower case. *)
Fixpoint camel_from (first : bool) (s : list N) : list N :=
  match s with
  | [] => []
  | c :: r => if (c =? 95)%N then camel_from true r
              else (if first then c else (c + 32)%N) :: camel_from false r
  end.
Definition camel (s : string) : list N := camel_from true (L s).
