(** The project's grammar, and what its pairs stand for: the shapes that the [parse_pair]
    functions of src/parser take apart. *)
From Coq Require Import String List NArith Bool.
From Verif Require Import Base Peg Names Anchors Types Literals Exprs ExtArgs Registry RelGrammar Pest PestText.
Import ListNotations.
Local Open Scope string_scope.
Local Open Scope list_scope.

(** src/parser/expression_grammar.pest, read. *)
Definition grammar_opt : option grammar := Eval lazy in read_pest pest_text.
Definition the_grammar : grammar := Eval cbv [grammar_opt] in match grammar_opt with Some G => G | None => [] end.

(** ** Names, anchors *)

(** [Name::parse_pair], src/parser/expressions.rs l.1028-1036. *)
Definition name_pairs (t : tree) (n : nm) : Prop :=
  match n with
  | NIdent s => is_node "name" (fun ch _ => ch = [leaf "identifier" s]) t tt
  | NQuoted s => is_node "name" (fun ch _ => ch = [leaf "quoted_name" s]) t tt
  end.

(** [anchor], [urn_anchor], [reference] and the like: a rule around an integer. *)
Definition integer_pairs (n : string) (t : tree) (s : list N) : Prop :=
  is_node n (fun ch s => ch = [leaf "integer" s]) t s.

(** [FunctionReference::parse_pair], src/parser/expressions.rs l.741-770. *)
Definition fref_pairs (t : tree) (f : fref_c) : Prop :=
  is_node "function_reference" (fun ch f =>
    exists a u, ch = leaf "function_signature" (fr_name f) :: a ++ u
                /\ maybe (one (integer_pairs "anchor")) a (fr_anchor f)
                /\ maybe (one (integer_pairs "urn_anchor")) u (fr_urn f)) t f.

(** ** Types *)

(** [Nullability::parse_pair], src/parser/types.rs l.69-77. *)
Definition null_text (n : nullability) : list N :=
  match n with NNullable => [63%N] | NUnspecified => [8265%N] | NRequired => [] end.
Definition null_pairs (t : tree) (n : nullability) : Prop := t = leaf "nullability" (null_text n).

(** [parse_precision_type], src/parser/types.rs l.223-252. *)
Definition prec_rule (k : preck) : string :=
  match k with
  | PkTimestampTz => "precision_timestamp_tz_type"
  | PkTimestamp => "precision_timestamp_type"
  | PkTime => "precision_time_type"
  end.

(** [Type::parse_pair] and what it calls, src/parser/types.rs l.80-363. *)
Inductive type_pairs : tree -> tcst -> Prop :=
| tp_simple x y s nt n : null_pairs nt n ->
    type_pairs (Node "type" x [Node "simple_type" y [leaf "simple_type_name" s; nt]]) (CSimple s n)
| tp_list x y z nt n t c : null_pairs nt n -> type_pairs t c ->
    type_pairs (Node "type" x [Node "compound_type" y [Node "list_type" z [nt; t]]]) (CList n c)
| tp_map x y z nt n t c u d : null_pairs nt n -> type_pairs t c -> type_pairs u d ->
    type_pairs (Node "type" x [Node "compound_type" y [Node "map_type" z [nt; t; u]]]) (CMap n c d)
| tp_struct x y z q nt n ts cs : null_pairs nt n -> Forall2 param_pairs ts cs ->
    type_pairs (Node "type" x [Node "compound_type" y [Node "struct_type" z [nt; Node "parameters" q ts]]])
               (CStruct n cs)
| tp_prec x y z k nt n s : null_pairs nt n ->
    type_pairs (Node "type" x [Node "compound_type" y [Node (prec_rule k) z [nt; leaf "integer" s]]])
               (CPrec k n s)
| tp_day x y z nt n s : null_pairs nt n ->
    type_pairs (Node "type" x [Node "compound_type" y [Node "interval_day_type" z [nt; leaf "integer" s]]])
               (CIntervalDay n s)
| tp_user x y s a oa u ou nt n :
    maybe (one (integer_pairs "anchor")) a oa -> maybe (one (integer_pairs "urn_anchor")) u ou ->
    null_pairs nt n ->
    type_pairs (Node "type" x [Node "user_defined_type" y (leaf "identifier" s :: a ++ u ++ [nt])])
               (CUser s oa ou n None)
| tp_user_with x y q s a oa u ou nt n ts cs :
    maybe (one (integer_pairs "anchor")) a oa -> maybe (one (integer_pairs "urn_anchor")) u ou ->
    null_pairs nt n -> Forall2 param_pairs ts cs ->
    type_pairs (Node "type" x [Node "user_defined_type" y
                                (leaf "identifier" s :: a ++ u ++ [nt; Node "parameters" q ts])])
               (CUser s oa ou n (Some cs))
with param_pairs : tree -> pcst -> Prop :=
| pp_type x t c : type_pairs t c -> param_pairs (Node "parameter" x [t]) (CPType c)
| pp_int x s : param_pairs (Node "parameter" x [leaf "integer" s]) (CPInt s)
| pp_name x t n : name_pairs t n -> param_pairs (Node "parameter" x [t]) (CPName n).

(** ** Expressions *)

(** The value of [Literal::parse_pair], src/parser/expressions.rs l.702-733. *)
Definition litval_pairs (t : tree) (c : litc) : Prop :=
  t = match c with
      | CFloat s => leaf "float" s
      | CInt s => leaf "integer" s
      | CBool s => leaf "boolean" s
      | CStr s => leaf "string_literal" s
      | CNull => leaf "null" (L "null")
      end.

(** [Expression::parse_pair] and what it calls, src/parser/expressions.rs l.794-1010. *)
Inductive expr_pairs : tree -> ecst -> Prop :=
| ep_if x y ts cs t c :
    Forall2 (fun t p => exists z a b, t = Node "if_clause" z [a; b]
                                      /\ expr_pairs a (fst p) /\ expr_pairs b (snd p)) ts cs ->
    expr_pairs t c ->
    expr_pairs (Node "expression" x [Node "if_then" y (ts ++ [t])]) (XIf cs c)
| ep_cast x y t c b ob u d :
    expr_pairs t c -> maybe (one (fun t k => t = leaf "cast_failure_behavior" [k])) b ob -> type_pairs u d ->
    expr_pairs (Node "expression" x [Node "cast_expression" y (t :: b ++ [u])]) (XCast c ob d)
| ep_call x y z f r ts cs u d :
    fref_pairs f r -> Forall2 expr_pairs ts cs -> type_pairs u d ->
    expr_pairs (Node "expression" x [Node "function_call" y [f; Node "argument_list" z ts; u]]) (XCall r cs d)
| ep_ref x t s : integer_pairs "reference" t s -> expr_pairs (Node "expression" x [t]) (XRef s)
| ep_lit x y t c u d : litval_pairs t c -> maybe (one type_pairs) u d ->
    expr_pairs (Node "expression" x [Node "expression_literal" y (t :: u)]) (XLit (c, d)).

(** [parse_interval_day_duration], src/parser/expressions.rs l.611-697. *)
Definition duration_pairs (t : tree) (d : durc) : Prop :=
  is_node "interval_day_duration" (fun ch d =>
    exists a b c, ch = a ++ b ++ c ++ [leaf "EOI" []]
      /\ maybe (one (integer_pairs "duration_days")) a (fst (fst d))
      /\ maybe (one (integer_pairs "duration_seconds")) b (snd (fst d))
      /\ maybe (one (is_node "duration_subseconds"
                       (fun ch p => ch = [leaf "integer" (fst p); leaf "subsecond_unit" (snd p)]))) c (snd d)) t d.

(** ** Extension arguments *)

(** [ExtensionValue::parse_pair], src/parser/extensions.rs l.278-329. *)
Inductive xarg_pairs : tree -> xacst -> Prop :=
| xp_enum x s : xarg_pairs (Node "extension_argument" x [leaf "enum_value" (38%N :: s)]) (VEnum s)
| xp_lit x y t c : litval_pairs t c ->
    xarg_pairs (Node "extension_argument" x [Node "parameter_literal" y [t]]) (VLit c)
| xp_ref x t s : integer_pairs "reference" t s -> xarg_pairs (Node "extension_argument" x [t]) (VRef s)
| xp_expr x t c : expr_pairs t c -> xarg_pairs (Node "extension_argument" x [t]) (VExpr c)
| xp_tuple x y ts cs : Forall2 xarg_pairs ts cs ->
    xarg_pairs (Node "extension_argument" x [Node "tuple" y ts]) (VTuple cs).

(** [parse_extension_args], src/parser/extensions.rs l.577-603. *)
Definition xnamed_pairs (t : tree) (p : nm * xacst) : Prop :=
  is_node "extension_named_argument" (fun ch p =>
    exists n a, ch = [n; a] /\ name_pairs n (fst p) /\ xarg_pairs a (snd p)) t p.
Definition xargs_pairs (t : tree) (a : xargsc) : Prop :=
  is_node "extension_args" (fun ch a =>
    (ch = [] \/ ch = [leaf "empty" [95%N]]) /\ a = ([], [])
    \/ one (is_node "extension_arguments" (Forall2 xarg_pairs)) ch (fst a) /\ snd a = []
    \/ (exists p n, ch = [p; n] /\ is_node "extension_arguments" (Forall2 xarg_pairs) p (fst a)
                    /\ is_node "extension_named_arguments" (Forall2 xnamed_pairs) n (snd a))
    \/ one (is_node "extension_named_arguments" (Forall2 xnamed_pairs)) ch (snd a) /\ fst a = []) t a.

(** [Column::parse_pair], src/parser/relations.rs l.138-158, and
    [ExtensionColumn::parse_pair], src/parser/extensions.rs l.341-372. *)
Definition column_pairs (t : tree) (c : colc) : Prop :=
  is_node "named_column" (fun ch c => exists n u, ch = [n; u] /\ name_pairs n (fst c) /\ type_pairs u (snd c)) t c.
Definition xcolumn_pairs (t : tree) (c : xcolc) : Prop :=
  is_node "extension_column" (one (fun t c =>
    match c with
    | KNamed c => column_pairs t c
    | KRef s => integer_pairs "reference" t s
    | KExpr x => expr_pairs t x
    end)) t c.

(** ** Relations *)

(** [NamedColumnList::parse_pair], [parse_output_mapping] and [parse_expression_list],
    src/parser/relations.rs l.171-186, l.210-217 and l.834-844. *)
Definition columns_pairs : tree -> list colc -> Prop := is_node "named_column_list" (Forall2 column_pairs).
Definition references_pairs : tree -> list (list N) -> Prop :=
  is_node "reference_list" (Forall2 (integer_pairs "reference")).
Definition expressions_pairs : tree -> list ecst -> Prop := is_node "expression_list" (Forall2 expr_pairs).
Definition empty_pair (t : tree) : Prop := t = leaf "empty" [95%N].

(** [parse_output] and [parse_emit_suffix], src/parser/relations.rs l.248-288. *)
Definition output_pairs (t : tree) (o : outc) : Prop :=
  is_node "output" (one (fun t o =>
    match o with
    | OImplicit c => is_node "implicit_output" (one columns_pairs) t c
    | ODirect c r =>
        is_node "direct_output" (fun ch _ =>
          exists a e, ch = [a; e] /\ columns_pairs a c
                      /\ is_node "emit_suffix" (maybe (one references_pairs)) e r) t tt
    end)) t o.

(** [parse_virtual_row] and [parse_virtual_read_rows], src/parser/relations.rs l.495-529. *)
Definition row_pairs (t : tree) (l : list ecst) : Prop :=
  is_node "virtual_row" (fun ch l => ch = [] /\ l = [] \/ one expressions_pairs ch l) t l.
Definition rows_pairs (t : tree) (l : list (list ecst)) : Prop :=
  is_node "virtual_read_rows" (one (fun t l =>
    is_node "virtual_row_list" (Forall2 row_pairs) t l \/ empty_pair t /\ l = [])) t l.

(** [parse_grouping_set] and [parse_grouping_sets], src/parser/relations.rs l.789-832. *)
Definition grouping_set_pairs (t : tree) (l : list ecst) : Prop :=
  is_node "grouping_set" (one (fun t l => expressions_pairs t l \/ empty_pair t /\ l = [])) t l.
Definition group_by_pairs (t : tree) (g : groupc) : Prop :=
  is_node "aggregate_group_by" (one (fun t g =>
    match g with
    | GSets l => is_node "grouping_set_list" (Forall2 grouping_set_pairs) t l
    | GList l => expressions_pairs t l
    end)) t g.

(** [SortField::parse_pair], src/parser/relations.rs l.884-904. *)
Definition sort_field_pairs (t : tree) (f : ecst * list N) : Prop :=
  is_node "sort_field" (fun ch f => exists x, ch = [x; leaf "sort_direction" (snd f)] /\ expr_pairs x (fst f)) t f.

(** [CountMode::parse_pair] and the loop of [FetchRel], src/parser/relations.rs l.963-1003
    and l.1080-1131. *)
Definition fetch_value_pairs (t : tree) (v : fvc) : Prop :=
  is_node "fetch_value" (one (fun t v =>
    match v with
    | FvInt s => t = leaf "integer" s
    | FvExpr c => expr_pairs t c
    end)) t v.
Definition fetch_arg_pairs (t : tree) (a : list N * fvc) : Prop :=
  is_node "fetch_named_arg" (fun ch a =>
    exists v, ch = [leaf "fetch_arg_name" (fst a); v] /\ fetch_value_pairs v (snd a)) t a.

(** [ProjectRel::parse_pair_with_context], src/parser/relations.rs l.594-643. *)
Definition project_arg_pairs (t : tree) (a : pac) : Prop :=
  is_node "project_argument" (one (fun t a =>
    match a with
    | PaRef s => integer_pairs "reference" t s
    | PaExpr c => expr_pairs t c
    end)) t a.

(** [ExtensionRelationKind::from_str], src/parser/extensions.rs l.383-394, and the kinds of
    [AddendumInvocation::parse_pair], l.541-572. *)
Definition xkind_text (k : xkind) : list N :=
  match k with XkLeaf => L "ExtensionLeaf" | XkSingle => L "ExtensionSingle" | XkMulti => L "ExtensionMulti" end.
Definition addendum_text (k : xtype) : option (list N) :=
  match k with
  | XtEnhancement => Some (L "Enh")
  | XtOptimization => Some (L "Opt")
  | XtTable => Some (L "Ext")
  | _ => None
  end.

(** The relation of a [planNode], src/parser/structural.rs l.505-530, by the
    [parse_pair_with_context] functions of src/parser/relations.rs l.290-1400. *)
Definition relation_pairs (t : tree) (y : rline) : Prop :=
  match y with
  | YRoot names =>
      is_node "root_relation" (one (is_node "root_name_list" (Forall2 name_pairs))) t names
  | YRead table o =>
      is_node "read_relation" (fun ch _ =>
        exists n u, ch = [n; u] /\ is_node "table_name" (Forall2 name_pairs) n table /\ output_pairs u o) t tt
  | YExtRead cols => is_node "extension_read_relation" (one columns_pairs) t cols
  | YVirtual rows filter cols =>
      is_node "virtual_read_relation" (fun ch _ =>
        exists r f c, ch = r :: f ++ [c; leaf "EOI" []] /\ rows_pairs r rows
          /\ maybe (one (is_node "virtual_read_filter" (one expr_pairs))) f filter
          /\ columns_pairs c cols) t tt
  | YFilter x refs =>
      is_node "filter_relation" (fun ch _ =>
        exists a b, ch = [a; b] /\ expr_pairs a x /\ references_pairs b refs) t tt
  | YProject args =>
      is_node "project_relation" (one (is_node "project_argument_list" (Forall2 project_arg_pairs))) t args
  | YAggregate g outs =>
      is_node "aggregate_relation" (fun ch _ =>
        exists a b, ch = [a; b] /\ group_by_pairs a g
          /\ is_node "aggregate_output" (Forall2 expr_pairs) b outs) t tt
  | YSort fields refs =>
      is_node "sort_relation" (fun ch _ =>
        exists a b, ch = [a; b] /\ is_node "sort_field_list" (Forall2 sort_field_pairs) a fields
          /\ references_pairs b refs) t tt
  | YFetch args refs =>
      is_node "fetch_relation" (fun ch _ =>
        exists a b, ch = [a; b]
          /\ (is_node "fetch_named_arg_list" (Forall2 fetch_arg_pairs) a args \/ empty_pair a /\ args = [])
          /\ references_pairs b refs) t tt
  | YJoin jtype x post refs =>
      is_node "join_relation" (fun ch _ =>
        exists a p b, ch = leaf "join_type" jtype :: a :: p ++ [b] /\ expr_pairs a x
          /\ maybe (one (is_node "join_post_join_filter" (one expr_pairs))) p post
          /\ references_pairs b refs) t tt
  | YSet o refs =>
      is_node "set_relation" (fun ch _ => exists b, ch = [leaf "set_op" o; b] /\ references_pairs b refs) t tt
  | YCross refs => is_node "cross_relation" (one references_pairs) t refs
  | YExt k name args cols =>
      is_node "extension_relation" (fun ch _ =>
        exists n a c, ch = n :: a :: c
          /\ is_node "extension_name" (fun ch _ =>
               exists u, ch = [leaf "extension_type" (xkind_text k); u] /\ name_pairs u name) n tt
          /\ xargs_pairs a args
          /\ (c = [] /\ cols = [] \/ one (is_node "extension_columns" (Forall2 xcolumn_pairs)) c cols)) t tt
  end.

(** [AddendumInvocation::parse_pair], src/parser/extensions.rs l.541-572. *)
Definition addendum_pairs (t : tree) (a : acst) : Prop :=
  match a with
  | Acst k name args =>
      is_node "addendum" (fun ch _ =>
        exists s n u, ch = [leaf "addendum_type" s; n; u]
          /\ addendum_text k = Some s /\ name_pairs n name /\ xargs_pairs u args) t tt
  end.

(** The readers keep the inner pair of [planNode] and of [top_level_relation],
    src/parser/structural.rs l.97-170. *)
Definition line_pairs (t : tree) (y : rline + acst) : Prop :=
  match y with inl r => relation_pairs t r | inr a => addendum_pairs t a end.
Definition is_root (y : rline + acst) : bool :=
  match y with inl (YRoot _) => true | _ => false end.
Definition node_pairs (t : tree) (y : rline + acst) : Prop :=
  is_root y = false /\ is_node "planNode" (one line_pairs) t y.
Definition top_pairs (t : tree) (y : rline + acst) : Prop :=
  is_node "top_level_relation" (one (fun t y => is_root y = true /\ line_pairs t y \/ node_pairs t y)) t y.

(** ** Declarations *)

(** [URNExtensionDeclaration::parse_pair] and [SimpleExtensionDeclaration::parse_from_kind],
    src/parser/extensions.rs l.193-263. *)
Definition urn_declaration_pairs (t : tree) (d : list N * list N) : Prop :=
  is_node "extension_urn_declaration" (fun ch d =>
    exists a, ch = [a; leaf "urn" (snd d)] /\ integer_pairs "urn_anchor" a (fst d)) t d.
Definition simple_extension_pairs (t : tree) (d : list N * list N * list N) : Prop :=
  is_node "simple_extension" (fun ch d =>
    exists a u, ch = [a; u; leaf "simple_extension_name" (snd d)]
      /\ integer_pairs "anchor" a (fst (fst d)) /\ integer_pairs "urn_anchor" u (snd (fst d))) t d.

(** ** Readers *)

(** [p] is the grammar's [rule], its pairs seen through [v]: the value and the unread text
    are those of the one way the rule matches, and [p] fails exactly where the rule does. *)
Definition follows {A} (rule : string) (v : tree -> A -> Prop) (p : peg A) : Prop :=
  forall s o, p s = o <->
    match o with
    | Some (a, r) => exists t, matches the_grammar rule s t r /\ v t a
    | None => rejects the_grammar rule s
    end.
