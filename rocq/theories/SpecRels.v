(** What the lines of a plan mean, independently of how the parser builds
    relations: emitted columns, denoted columns, child counts. *)
From Coq Require Import String List NArith ZArith Bool.
From Verif Require Import Base Names Anchors Types Literals Exprs ExprEq ExtArgs Registry Rels RelGrammar Tree.
Import ListNotations.

(** The columns a relation with [n] direct columns emits, as indices into them. *)
Definition emit_columns (k : emit_kind) (n : nat) : list Z :=
  match k with
  | EmDirect => map Z.of_nat (seq 0 n)
  | EmEmit m => m
  end.

(** The decimal value of a reference's text. *)
Definition ref_value (s : list N) (z : Z) : Prop := read_Z s = Some z.

(** The reference list that ends a line. *)
Definition line_refs (y : rline) : option (list (list N)) :=
  match y with
  | YFilter _ r | YSort _ r | YFetch _ r | YJoin _ _ _ r | YSet _ r | YCross r => Some r
  | _ => None
  end.

Definition rel_common_of (r : prel) : option rel_common :=
  match r with
  | RRead r => rd_common r
  | RFilter c _ _ _ | RProject c _ _ _ | RAggregate c _ _ _ _ _ | RSort c _ _ _ | RFetch c _ _ _ _
  | RJoin c _ _ _ _ _ _ | RSet c _ _ _ | RCross c _ _ _
  | RExtLeaf c _ | RExtSingle c _ _ | RExtMulti c _ _ => c
  | ROther _ | RNone => None
  end.
Definition rel_emit (r : prel) : option emit_kind :=
  match rel_common_of r with Some c => rc_emit c | None => None end.

(** How many columns the inputs of a line offer to its reference list, given the
    widths of the inputs: a set operation has the columns of one input, any other
    line those of all of them. *)
Definition offered (y : rline) (widths : list nat) : nat :=
  match y with
  | YSet _ _ => hd 0 widths
  | _ => list_sum widths
  end.

(** The number of columns an index can name ([i32]). *)
Definition column_limit : Z := 2147483648.

(** The inputs a relation has, and the relations below it. *)
Definition opt_list {A} (o : option A) : list A := match o with Some x => [x] | None => [] end.
Definition inputs (r : prel) : list prel :=
  match r with
  | RRead _ | RExtLeaf _ _ | ROther _ | RNone => []
  | RFilter _ i _ _ | RProject _ i _ _ | RAggregate _ i _ _ _ _ | RSort _ i _ _ | RFetch _ i _ _ _
  | RExtSingle _ _ i => opt_list i
  | RJoin _ l r _ _ _ _ | RCross _ l r _ => opt_list l ++ opt_list r
  | RSet _ l _ _ | RExtMulti _ _ l => l
  end.
Inductive subrel (x : prel) : prel -> Prop :=
| subrel_self : subrel x x
| subrel_input r i : In i (inputs r) -> subrel x i -> subrel x r.
Definition plan_inputs (p : plan_rel) : list prel :=
  match p with PRel r => [r] | PRoot _ i => opt_list i | PRNone => [] end.
(** A relation somewhere in a list of plan relations. *)
Definition in_plan_rels (x : prel) (l : list plan_rel) : Prop :=
  exists p r, In p l /\ In r (plan_inputs p) /\ subrel x r.

(** The number of inputs a relation needs. *)
Definition arity_ok (r : prel) : Prop :=
  match r with
  | RRead _ | RExtLeaf _ _ => length (inputs r) = 0
  | RFilter _ _ _ _ | RProject _ _ _ _ | RAggregate _ _ _ _ _ _ | RSort _ _ _ _ | RFetch _ _ _ _ _
  | RExtSingle _ _ _ => length (inputs r) = 1
  | RJoin _ _ _ _ _ _ _ | RCross _ _ _ _ => length (inputs r) = 2
  | RSet _ _ _ _ => 2 <= length (inputs r)
  | RExtMulti _ _ _ => True
  | ROther _ | RNone => False
  end.

(** A relation and the tree node it was read from have the same inputs, all the
    way down. *)
Inductive same_inputs : rnode rline acst -> prel -> Prop :=
| same_node y line ads cs r : Forall2 same_inputs cs (inputs r) -> same_inputs (RNode y line ads cs) r.
Definition same_plan_inputs (n : rnode rline acst) (p : plan_rel) : Prop :=
  match n with
  | RNode (YRoot _) _ _ cs => Forall2 same_inputs cs (plan_inputs p)
  | _ => Forall2 same_inputs [n] (plan_inputs p)
  end.

(** [columns r n]: relation [r] has [n] output columns, counting for a join all
    columns of both inputs.  What an extension relation puts out is known to its
    handler only. *)
Inductive columns : prel -> nat -> Prop :=
| col_emit r m : rel_emit r = Some (EmEmit m) -> columns r (length m)
| col_read r s : rd_schema r = Some s -> rel_emit (RRead r) = Some EmDirect ->
    columns (RRead r) (length (ns_names s))
| col_filter c i x a n : rel_emit (RFilter c (Some i) x a) = Some EmDirect -> columns i n ->
    columns (RFilter c (Some i) x a) n
| col_project c i xs a n : rel_emit (RProject c (Some i) xs a) = Some EmDirect -> columns i n ->
    columns (RProject c (Some i) xs a) (n + length xs)
| col_aggregate c i xs gs ms a : rel_emit (RAggregate c i xs gs ms a) = Some EmDirect ->
    columns (RAggregate c i xs gs ms a) (length xs + length ms)
| col_sort c i x a n : rel_emit (RSort c (Some i) x a) = Some EmDirect -> columns i n ->
    columns (RSort c (Some i) x a) n
| col_fetch c i x y a n : rel_emit (RFetch c (Some i) x y a) = Some EmDirect -> columns i n ->
    columns (RFetch c (Some i) x y a) n
| col_join c l r x p t a n m : rel_emit (RJoin c (Some l) (Some r) x p t a) = Some EmDirect ->
    columns l n -> columns r m -> columns (RJoin c (Some l) (Some r) x p t a) (n + m)
| col_cross c l r a n m : rel_emit (RCross c (Some l) (Some r) a) = Some EmDirect ->
    columns l n -> columns r m -> columns (RCross c (Some l) (Some r) a) (n + m)
| col_set c i l o a n : rel_emit (RSet c (i :: l) o a) = Some EmDirect -> columns i n ->
    columns (RSet c (i :: l) o a) n
| col_leaf c d n : columns (RExtLeaf c d) n
| col_single c d i n : columns (RExtSingle c d i) n
| col_multi c d l n : columns (RExtMulti c d l) n.

(** The inputs of a set operation have one width. *)
Definition set_widths_ok (r : prel) : Prop :=
  match r with
  | RSet _ l _ _ => exists n, Forall (fun i => columns i n) l
  | _ => True
  end.

(** The grouping sets as written. *)
Definition written_sets (g : groupc) : list (list ecst) :=
  match g with GSets l => l | GList l => [l] end.

(** The direct columns of a Project: those of its input, then its expressions. *)
Definition project_column (n : nat) (xs : list pexpr) (z : Z) : option (Z + pexpr) :=
  if (z <? Z.of_nat n)%Z then Some (inl z) else option_map inr (nth_error xs (Z.to_nat z - n)).
(** The expressions among the arguments of a Project. *)
Definition project_exprs (l : list pac) : list ecst :=
  concat (map (fun a => match a with PaRef _ => [] | PaExpr c => [c] end) l).

(** The direct columns of an Aggregate: grouping expressions, then measures. *)
Definition aggregate_column (xs : list pexpr) (ms : list measure) (z : Z) : option (pexpr + measure) :=
  if (z <? 0)%Z then None else nth_error (map inl xs ++ map inr ms) (Z.to_nat z).
Definition measures_of (l : list (pexpr + measure)) : list measure :=
  concat (map (fun i => match i with inl _ => [] | inr m => [m] end) l).

(** A limit or offset as the text format allows it: a non-negative integer, or an
    expression that is not a number. *)
Definition is_number (l : literal) : bool :=
  match l_type l with
  | Some (LI8 _ | LI16 _ | LI32 _ | LI64 _ | LFp32 _ | LFp64 _) => true
  | _ => false
  end.
Definition bound_ok (m : option fetch_mode) : Prop :=
  match m with
  | None => True
  | Some (FmExpr (ELit l)) => is_number l = true -> exists z, l_type l = Some (LI64 z) /\ (0 <= z)%Z
  | Some (FmExpr _) => True
  | Some (FmInt _) => False
  end.
Definition bounds_ok (r : prel) : Prop :=
  match r with
  | RFetch _ _ count offset _ => bound_ok count /\ bound_ok offset
  | _ => True
  end.

(** The distinct elements of a list, in the order of their first occurrence. *)
Definition firsts (l : list pexpr) : list pexpr :=
  fold_left (fun seen x => if existsb (pexpr_eqb x) seen then seen else seen ++ [x]) l [].

(** The output width of a join by the rules of GRAMMAR.md l.1172-1179: both sides,
    except that semi, anti and single joins keep the side they are named after and
    mark joins add one column to that side. *)
Local Open Scope string_scope.
Inductive join_output : string -> nat -> nat -> nat -> Prop :=
| jo_inner l r : join_output "Inner" l r (l + r)
| jo_outer l r : join_output "Outer" l r (l + r)
| jo_left l r : join_output "Left" l r (l + r)
| jo_right l r : join_output "Right" l r (l + r)
| jo_left_semi l r : join_output "LeftSemi" l r l
| jo_left_anti l r : join_output "LeftAnti" l r l
| jo_left_single l r : join_output "LeftSingle" l r l
| jo_right_semi l r : join_output "RightSemi" l r r
| jo_right_anti l r : join_output "RightAnti" l r r
| jo_right_single l r : join_output "RightSingle" l r r
| jo_left_mark l r : join_output "LeftMark" l r (l + 1)
| jo_right_mark l r : join_output "RightMark" l r (r + 1).

(** A join with direct output whose type does not give all columns of both inputs. *)
Definition narrow_join (r : prel) : Prop :=
  match r with
  | RJoin _ _ _ _ _ t _ => rel_emit r = Some EmDirect /\ (5 <= t <= 12)%Z
  | _ => False
  end.

(** Reading and then showing an extension relation keeps its number of columns. *)
Definition keeps_columns (reg : registry) : Prop :=
  forall name a d widths, parse_with_type reg XtRelation name a = Ok d ->
    exists name' a', decode_with_type reg XtRelation d widths = Ok (name', a') /\
      length (xa_columns a') = length (xa_columns a).
