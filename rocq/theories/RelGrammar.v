(** Grammar of relation lines (src/parser/expression_grammar.pest l.217-418). *)
From Coq Require Import String List NArith ZArith Bool.
From Verif Require Import Base Peg Names Anchors Types Literals Exprs ExtArgs Registry.
Import ListNotations.
Local Open Scope string_scope.
Local Open Scope list_scope.
Local Open Scope peg_scope.

(** ** Pieces *)

(** [table_name], l.231. *)
Definition g_table_name : peg (list nm) := psep1 (ptok (L ".")) g_name.

(** [named_column_list], l.234. *)
Definition g_columns : peg (list colc) := psep0 (ptok (L ",") ;;; sp) g_named_column.

(** [reference_list], l.310, as the digits of its references. *)
Definition g_references : peg (list (list N)) := psep0 comma_sp g_reference.

Definition arrow : peg unit := sp ;;; ptok (L "=>") ;;; sp.

(** [output], [implicit_output], [direct_output] and [emit_suffix], l.240-243. *)
Inductive outc := OImplicit (cols : list colc) | ODirect (cols : list colc) (refs : option (list (list N))).
Definition g_output : peg outc :=
  pmap OImplicit (ptok (L "=>") ;;; sp ;;; g_columns)
  <|> (ptok (L "+>") ;;; sp ;;; c <- g_columns ;;
       r <- popt (sp ;;; ptok (L "|>") ;;; sp ;;; g_references) ;; pret (ODirect c r)).

(** [expression_list], l.328. *)
Definition g_expression_list : peg (list ecst) :=
  x <- g_expr ;; sp ;;; l <- pstar (ptok (L ",") ;;; sp ;;; g_expr) ;; pret (x :: l).

(** pest's NEWLINE. *)
Definition g_newline : peg unit := ptok [c_nl] <|> ptok [c_cr; c_nl] <|> ptok [c_cr].
(** [relation_line_cont], [relation_open], [relation_comma], [relation_arrow],
    [relation_end], l.284-289 and l.303. *)
Definition line_cont : peg unit := sp ;;; g_newline ;;; sp ;;; ptok (L "- ") ;;; sp.
Definition relation_open : peg unit := ptok (L "[") ;;; popt line_cont ;;; pret tt.
Definition relation_comma : peg unit := sp ;;; ptok (L ",") ;;; (line_cont <|> sp).
Definition relation_arrow : peg unit := (line_cont <|> sp) ;;; ptok (L "=>") ;;; sp.
Definition relation_end : peg unit := sp ;;; peoi.

(** ** Relations *)

(** [project_argument], l.314. *)
Inductive pac := PaRef (s : list N) | PaExpr (c : ecst).
(** [fetch_value], l.344. *)
Inductive fvc := FvInt (s : list N) | FvExpr (c : ecst).
(** [aggregate_group_by], l.325. *)
Inductive groupc := GSets (l : list (list ecst)) | GList (l : list ecst).
(** [extension_type], l.377, and [addendum_type], l.418. *)
Inductive xkind := XkLeaf | XkSingle | XkMulti.

(** A relation line, by grammar rule. *)
Inductive rline :=
| YRoot (names : list nm)
| YRead (table : list nm) (o : outc)
| YExtRead (cols : list colc)
| YVirtual (rows : list (list ecst)) (filter : option ecst) (cols : list colc)
| YFilter (x : ecst) (refs : list (list N))
| YProject (args : list pac)
| YAggregate (g : groupc) (outs : list ecst)
| YSort (fields : list (ecst * list N)) (refs : list (list N))
| YFetch (args : list (list N * fvc)) (refs : list (list N))
| YJoin (jtype : list N) (x : ecst) (post : option ecst) (refs : list (list N))
| YSet (o : list N) (refs : list (list N))
| YCross (refs : list (list N))
| YExt (k : xkind) (name : nm) (args : xargsc) (cols : list xcolc).
(** An addendum line. *)
Inductive acst := Acst (k : xtype) (name : nm) (args : xargsc).

(** [root_relation] and [root_name_list], l.270-271. *)
Definition g_root : peg rline :=
  ptok (L "Root") ;;; ptok (L "[") ;;; l <- psep0 comma_sp g_name ;; ptok (L "]") ;;; pret (YRoot l).

(** [read_relation], l.273. *)
Definition g_read : peg rline :=
  ptok (L "Read") ;;; ptok (L "[") ;;; t <- g_table_name ;; sp ;;; o <- g_output ;;
  ptok (L "]") ;;; pret (YRead t o).

(** [extension_read_relation], l.276. *)
Definition g_ext_read : peg rline :=
  ptok (L "Read:Extension") ;;; ptok (L "[") ;;; c <- g_columns ;; ptok (L "]") ;;; pret (YExtRead c).

(** [virtual_row], [virtual_row_list], [virtual_read_rows], [virtual_read_filter],
    l.304-307. *)
Definition g_virtual_row : peg (list ecst) :=
  ptok (L "(") ;;; sp ;;; l <- popt g_expression_list ;; sp ;;; ptok (L ")") ;;;
  pret (match l with Some l => l | None => [] end).
Definition g_virtual_rows : peg (list (list ecst)) :=
  psep1 relation_comma g_virtual_row <|> pmap (fun _ => []) g_empty.
Definition g_virtual_filter : peg ecst := ptok (L "filter") ;;; sp ;;; ptok (L "=") ;;; sp ;;; g_expr.
(** [virtual_read_relation], l.302. *)
Definition g_virtual : peg rline :=
  ptok (L "Read:Virtual") ;;; relation_open ;;; r <- g_virtual_rows ;;
  f <- popt (relation_comma ;;; g_virtual_filter) ;; relation_arrow ;;; c <- g_columns ;;
  ptok (L "]") ;;; relation_end ;;; pret (YVirtual r f c).

(** [filter_relation], l.309. *)
Definition g_filter : peg rline :=
  ptok (L "Filter") ;;; ptok (L "[") ;;; x <- g_expr ;; arrow ;;; r <- g_references ;;
  ptok (L "]") ;;; pret (YFilter x r).

(** [project_relation], [project_argument_list], [project_argument], l.312-314. *)
Definition g_project_arg : peg pac := pmap PaRef g_reference <|> pmap PaExpr g_expr.
Definition g_project : peg rline :=
  ptok (L "Project") ;;; ptok (L "[") ;;; l <- psep0 comma_sp g_project_arg ;;
  ptok (L "]") ;;; pret (YProject l).

(** [grouping_set] and [grouping_set_list], l.326-327. *)
Definition g_grouping_set : peg (list ecst) :=
  (ptok (L "(") ;;; sp ;;; l <- g_expression_list ;; sp ;;; ptok (L ")") ;;; pret l)
  <|> pmap (fun _ => []) g_empty.
Definition g_group_by : peg groupc :=
  (x <- g_grouping_set ;; sp ;;; l <- pstar (ptok (L ",") ;;; sp ;;; g_grouping_set) ;; pret (GSets (x :: l)))
  <|> pmap GList g_expression_list.
(** [aggregate_relation] and [aggregate_output], l.323 and l.331. *)
Definition g_aggregate : peg rline :=
  ptok (L "Aggregate") ;;; ptok (L "[") ;;; g <- g_group_by ;; arrow ;;;
  o <- psep0 comma_sp g_expr ;; ptok (L "]") ;;; pret (YAggregate g o).

(** [sort_direction], l.340. *)
Definition sort_toks : list (list N) :=
  [L "&AscNullsFirst"; L "&AscNullsLast"; L "&DescNullsFirst"; L "&DescNullsLast"].
(** [sort_field], [sort_field_list], [sort_relation], l.337-339. *)
Definition g_sort_field : peg (ecst * list N) :=
  ptok (L "(") ;;; sp ;;; x <- g_expr ;; comma_sp ;;; d <- ptoks sort_toks ;; sp ;;; ptok (L ")") ;;;
  pret (x, d).
Definition g_sort : peg rline :=
  ptok (L "Sort") ;;; ptok (L "[") ;;; l <- psep0 comma_sp g_sort_field ;; arrow ;;; r <- g_references ;;
  ptok (L "]") ;;; pret (YSort l r).

(** [fetch_arg_name], [fetch_value], [fetch_named_arg], [fetch_args] and
    [fetch_relation], l.343-348; [empty] is the empty list of arguments. *)
Definition g_fetch_value : peg fvc := pmap FvInt g_integer <|> pmap FvExpr g_expr.
Definition g_fetch_arg : peg (list N * fvc) :=
  n <- ptoks [L "limit"; L "offset"] ;; sp ;;; ptok (L "=") ;;; sp ;;; v <- g_fetch_value ;; pret (n, v).
Definition g_fetch : peg rline :=
  ptok (L "Fetch") ;;; ptok (L "[") ;;;
  l <- (psep1 comma_sp g_fetch_arg <|> pmap (fun _ => []) g_empty) ;; arrow ;;; r <- g_references ;;
  ptok (L "]") ;;; pret (YFetch l r).

(** [join_type], [join_post_join_filter], [join_relation], l.353-355. *)
Definition join_toks : list (list N) :=
  [L "&Inner"; L "&LeftSemi"; L "&LeftAnti"; L "&LeftSingle"; L "&LeftMark"; L "&Left"; L "&RightSemi";
   L "&RightAnti"; L "&RightSingle"; L "&RightMark"; L "&Right"; L "&Outer"].
Definition g_post_filter : peg ecst := ptok (L "post_filter") ;;; sp ;;; ptok (L "=") ;;; sp ;;; g_expr.
Definition g_join : peg rline :=
  ptok (L "Join") ;;; ptok (L "[") ;;; t <- ptoks join_toks ;; comma_sp ;;; x <- g_expr ;;
  p <- popt (comma_sp ;;; g_post_filter) ;; arrow ;;; r <- g_references ;;
  ptok (L "]") ;;; pret (YJoin t x p r).

(** [set_op] and [set_relation], l.360-361. *)
Definition set_toks : list (list N) :=
  [L "&IntersectionMultisetAll"; L "&IntersectionMultiset"; L "&IntersectionPrimary"; L "&MinusPrimaryAll";
   L "&MinusPrimary"; L "&MinusMultiset"; L "&UnionAll"; L "&UnionDistinct"].
Definition g_set : peg rline :=
  ptok (L "Set") ;;; ptok (L "[") ;;; o <- ptoks set_toks ;; arrow ;;; r <- g_references ;;
  ptok (L "]") ;;; pret (YSet o r).

(** [cross_relation], l.364. *)
Definition g_cross : peg rline :=
  ptok (L "Cross") ;;; ptok (L "[") ;;; r <- g_references ;; ptok (L "]") ;;; pret (YCross r).

(** [extension_relation], [extension_name], [extension_type], l.373-377. *)
Definition g_xkind : peg xkind :=
  pmap (fun _ => XkLeaf) (ptok (L "ExtensionLeaf"))
  <|> pmap (fun _ => XkSingle) (ptok (L "ExtensionSingle"))
  <|> pmap (fun _ => XkMulti) (ptok (L "ExtensionMulti")).
Definition g_ext : peg rline :=
  k <- g_xkind ;; ptok (L ":") ;;; n <- g_name ;; ptok (L "[") ;;; sp ;;; a <- g_xargs ;;
  c <- popt (arrow ;;; g_xcolumns) ;; ptok (L "]") ;;;
  pret (YExt k n a (match c with Some c => c | None => [] end)).

(** [addendum] and [addendum_type], l.417-418. *)
Definition g_addendum_type : peg xtype :=
  pmap (fun _ => XtEnhancement) (ptok (L "Enh"))
  <|> pmap (fun _ => XtOptimization) (ptok (L "Opt"))
  <|> pmap (fun _ => XtTable) (ptok (L "Ext")).
Definition g_addendum : peg acst :=
  ptok (L "+") ;;; sp ;;; k <- g_addendum_type ;; ptok (L ":") ;;; n <- g_name ;; ptok (L "[") ;;;
  a <- g_xargs ;; ptok (L "]") ;;; pret (Acst k n a).

(** [planNode], l.245-262. *)
Definition g_relation : peg rline :=
  g_ext_read <|> g_virtual <|> g_read <|> g_filter <|> g_project <|> g_aggregate <|> g_sort <|> g_fetch
  <|> g_join <|> g_set <|> g_cross <|> g_ext.
Definition g_node : peg (rline + acst) := pmap inl g_relation <|> pmap inr g_addendum.
(** [top_level_relation], l.265-268. *)
Definition g_top : peg (rline + acst) := pmap inl g_root <|> g_node.
