(** Extension arguments, relation lines and declarations against the grammar. *)
From Coq Require Import String List NArith Bool Lia Arith.
From Verif Require Import Base BaseFacts Peg PegFacts Names NamesFacts Anchors AnchorsFacts Types TypesFacts
  Literals Exprs ExprsFacts ExtLines ExtArgs ExtArgsFacts Registry RelGrammar ConsumedFacts Pest PestFacts
  PestText SpecGrammar GrammarFacts GrammarRules.
Import ListNotations.
Local Open Scope string_scope.
Local Open Scope list_scope.
Local Open Scope nat_scope.
Local Open Scope peg_scope.

(** ** Extension arguments *)

Section ArgRules.
  Variable w : list N.
  Notation rd := (reads the_grammar w).

  Lemma rd_empty n : rd false n (one (fun t _ => empty_pair t)) g_empty (QRef "empty").
  Proof.
    eapply reads_weaken.
    - eapply (reads_leaf the_grammar w n "empty" QNormal (fun t _ => t = [95%N]) quiet_v);
        [the_rule "empty"|discriminate|apply spells_tok|apply reads_tok|now intros ts a H _].
    - intros ts a (t & -> & text & -> & ->). now exists (leaf "empty" [95%N]).
  Qed.

  Definition under_a (t : tree) (c : xacst) : Prop := forall x, xarg_pairs (Node "extension_argument" x [t]) c.
  Lemma rd_parameter_literal m : rd false m (one (fun t c => under_a t (VLit c))) g_parameter_literal
    (QRef "parameter_literal").
  Proof.
    eapply reads_weaken; [fetch_rule reads_node; unfold g_parameter_literal; rd_go|].
    intros ts a H. views. eexists. split; [reflexivity|]. intros q. now constructor.
  Qed.

  Variable arg : peg xacst.
  Hypothesis arg_strict : strict arg.
  Variable n : nat.
  Hypothesis arg_rd : rd false n (one xarg_pairs) arg (QRef "extension_argument").

  Lemma rd_tuple : rd false (S n) (one (fun t c => under_a t (VTuple c))) (g_tuple arg) (QRef "tuple").
  Proof.
    eapply reads_weaken.
    - fetch_rule reads_node. unfold g_tuple. rd_go.
      eapply reads_plus_node; [peg_shrink|]. eapply reads_weaken; [rd_go|one_done].
    - intros ts a H. destruct H as (t & -> & y & ch & -> & [H|[H|H]]); views; (eexists; split; [reflexivity|]);
        intros q; constructor; auto.
      match goal with H : maybe _ ?t ?o |- _ => assert (t = []) as -> by (destruct o; views; auto) end.
      rewrite app_nil_r. constructor; auto.
  Qed.
  Lemma rd_xarg_F : rd false (S n) (one xarg_pairs) (xarg_F arg) (QRef "extension_argument").
  Proof.
    eapply reads_weaken.
    - fetch_rule reads_node. unfold xarg_F. pose proof rd_tuple. pose proof rd_parameter_literal. rd_go.
    - intros ts a H. destruct H as (t & -> & y & ch & -> & [H|[H|[H|[H|H]]]]); views; (eexists; split; [reflexivity|]);
        auto; now constructor.
  Qed.
End ArgRules.

Lemma rd_xarg w n : reads the_grammar w false n (one xarg_pairs) g_xarg (QRef "extension_argument").
Proof.
  induction n as [|n IH]; [intros s Hs; lia|].
  eapply reads_ext; [intros s; symmetry; apply g_xarg_eq|]. apply rd_xarg_F; auto. apply strict_xarg.
Qed.
Ltac rd_lemma6 := first [ apply rd_xarg | apply rd_empty | rd_lemma5 ].
Ltac rd_lemma ::= rd_lemma6.

Section ArgsRules.
  Variable w : list N.
  Notation rd := (reads the_grammar w).

  Lemma rd_xnamed n : rd false n (one xnamed_pairs) g_xnamed (QRef "extension_named_argument").
  Proof.
    eapply reads_weaken; [fetch_rule reads_node; unfold g_xnamed; rd_go|].
    intros ts a H. views. eexists. split; [reflexivity|]. eexists _, _. split; [reflexivity|]. eexists _, _. split; [reflexivity|]. auto.
  Qed.
  Lemma rd_xpositional n : rd false n (one (is_node "extension_arguments" (Forall2 xarg_pairs)))
    (psep1 comma_sp g_xarg) (QRef "extension_arguments").
  Proof. fetch_rule reads_node. sep_by @reads_sep1. Qed.
  Lemma strict_xnamed : strict g_xnamed.
  Proof. unfold g_xnamed. peg_shrink. Qed.
  Lemma rd_xnameds n : rd false n (one (is_node "extension_named_arguments" (Forall2 xnamed_pairs)))
    (psep1 comma_sp g_xnamed) (QRef "extension_named_arguments").
  Proof.
    fetch_rule reads_node. pose proof rd_xnamed. pose proof strict_xnamed. sep_by @reads_sep1.
  Qed.
  Lemma rd_xargs n : rd false n (one xargs_pairs) g_xargs (QRef "extension_args").
  Proof.
    eapply reads_weaken.
    - fetch_rule reads_node. pose proof rd_xpositional as Hp. pose proof rd_xnameds as Hn.
      unfold g_xargs.
      apply reads_alt_out, reads_alt_out. eapply reads_default. rd_go.
    - intros ts a H. destruct H as (t & -> & y & ch & -> & H). eexists. split; [reflexivity|].
      eexists _, _. split; [reflexivity|]. destruct H as [[H|[H|H]]|H]; views.
      + left. unfold empty_pair in *. subst. auto.
      + match goal with H : maybe _ ?t ?o |- _ => destruct o as [l|]; views end.
        * right. right. left. eexists _, _. split; [reflexivity|]. split; eexists _, _; (split; [reflexivity|]); assumption.
        * right. left. split; auto. eexists. split; [reflexivity|]. eexists _, _. split; [reflexivity|]. assumption.
      + right. right. right. split; auto. eexists. split; [reflexivity|]. eexists _, _. split; [reflexivity|]. assumption.
      + left. unfold empty_pair in *. subst. auto.
  Qed.
End ArgsRules.
Ltac rd_lemma7 := first [ apply rd_xargs | apply rd_xnamed | rd_lemma6 ].
Ltac rd_lemma ::= rd_lemma7.

(** ** Columns, references, lists of expressions *)

(** Rebuild nodes until something else is asked for. *)
Ltac rebuild :=
  repeat first
    [ match goal with |- one _ _ _ => eexists; split; [reflexivity|] end
    | match goal with |- is_node _ _ _ _ => eexists _, _; split; [reflexivity|] end
    | match goal with |- exists _, _ => eexists end
    | match goal with |- _ /\ _ => split end
    | reflexivity | assumption | eassumption ].
Ltac rule g := eapply reads_weaken; [fetch_rule reads_node; unfold g; rd_go|].
Ltac opened := intros ? ? ?; views; unfold word in *; subst.

Section Columns.
  Variable w : list N.
  Notation rd := (reads the_grammar w).

  Lemma rd_named_column n : rd false n (one column_pairs) g_named_column (QRef "named_column").
  Proof. rule g_named_column. opened. unfold column_pairs. rebuild. Qed.
  Lemma strict_named_column : strict g_named_column.
  Proof. unfold g_named_column. peg_shrink. Qed.
  Lemma rd_columns n : rd false n (one columns_pairs) g_columns (QRef "named_column_list").
  Proof.
    fetch_rule reads_node. unfold g_columns. pose proof rd_named_column. pose proof strict_named_column.
    sep_by @reads_sep0.
  Qed.
  Lemma rd_references n : rd false n (one references_pairs) g_references (QRef "reference_list").
  Proof. fetch_rule reads_node. unfold g_references. sep_by @reads_sep0. Qed.
  Lemma rd_xcolumn n : rd false n (one xcolumn_pairs) g_xcolumn (QRef "extension_column").
  Proof.
    pose proof rd_named_column. rule g_xcolumn. intros ts a H'. destruct H' as (t & -> & y & ch & -> & [H'|[H'|H']]); views;
      unfold xcolumn_pairs; rebuild.
  Qed.
  Lemma strict_xcolumn : strict g_xcolumn.
  Proof. unfold g_xcolumn, g_named_column. peg_shrink. Qed.
  Lemma rd_xcolumns n : rd false n (one (is_node "extension_columns" (Forall2 xcolumn_pairs))) g_xcolumns
    (QRef "extension_columns").
  Proof.
    fetch_rule reads_node. unfold g_xcolumns. pose proof rd_xcolumn. pose proof strict_xcolumn. sep_by @reads_sep0.
  Qed.
  Lemma rd_expression_list n : rd false n (one expressions_pairs) g_expression_list (QRef "expression_list").
  Proof.
    eapply reads_weaken.
    - fetch_rule reads_node. unfold g_expression_list. rd_go.
      apply reads_star_node; [peg_shrink|]. eapply reads_weaken; [rd_go|one_done].
    - opened. unfold expressions_pairs. rebuild. now constructor.
  Qed.
End Columns.
Ltac rd_lemma8 :=
  first [ apply rd_named_column | apply rd_columns | apply rd_references | apply rd_xcolumn | apply rd_xcolumns
        | apply rd_expression_list | rd_lemma7 ].
Ltac rd_lemma ::= rd_lemma8.

(** ** Relations *)

Section Layout.
  Variable w : list N.
  Notation rd := (reads the_grammar w).

  Lemma rd_line_cont n : rd false n quiet_v line_cont (QRef "relation_line_cont").
  Proof. fetch_rule reads_silent. eapply reads_weaken; [unfold line_cont; rd_go|]. now opened. Qed.
  Lemma maybe_quiet {A} ts (o : option A) : maybe quiet_v ts o -> ts = [].
  Proof. destruct o; auto. Qed.
  Lemma rd_relation_open n : rd false n quiet_v relation_open (QRef "relation_open").
  Proof.
    fetch_rule reads_silent. pose proof rd_line_cont. eapply reads_weaken; [unfold relation_open; rd_go|].
    opened. eapply maybe_quiet; eassumption.
  Qed.
  Lemma rd_cont_or_sp n : rd false n quiet_v (line_cont <|> sp) (QAlt (QRef "relation_line_cont") (QRef "sp")).
  Proof. pose proof rd_line_cont. eapply reads_weaken; [rd_go|]. intros ts a [H'|H']; exact H'. Qed.
  Lemma rd_relation_comma n : rd false n quiet_v relation_comma (QRef "relation_comma").
  Proof.
    fetch_rule reads_silent. pose proof rd_cont_or_sp. eapply reads_weaken; [unfold relation_comma; rd_go|]. now opened.
  Qed.
  Lemma rd_relation_arrow n : rd false n quiet_v relation_arrow (QRef "relation_arrow").
  Proof.
    fetch_rule reads_silent. pose proof rd_cont_or_sp. eapply reads_weaken; [unfold relation_arrow; rd_go|]. now opened.
  Qed.
  Lemma rd_relation_end n : rd false n (fun ts _ => ts = [leaf "EOI" []]) relation_end (QRef "relation_end").
  Proof. fetch_rule reads_silent. eapply reads_weaken; [unfold relation_end; rd_go|]. now opened. Qed.
End Layout.
Ltac rd_lemma9 :=
  first [ apply rd_relation_open | apply rd_relation_comma | apply rd_relation_arrow | apply rd_relation_end
        | rd_lemma8 ].
Ltac rd_lemma ::= rd_lemma9.

Section Relations.
  Variable w : list N.
  Notation rd := (reads the_grammar w).

  (** Read. *)
  Lemma rd_table_name n : rd false n (one (is_node "table_name" (Forall2 name_pairs))) g_table_name (QRef "table_name").
  Proof. fetch_rule reads_node. unfold g_table_name. sep_by @reads_sep1. Qed.
  Lemma rd_implicit n : rd false n (one (is_node "implicit_output" (one columns_pairs)))
    (ptok (L "=>") ;;; sp ;;; g_columns) (QRef "implicit_output").
  Proof. eapply reads_weaken; [fetch_rule reads_node; rd_go|]. opened. unfold columns_pairs. rebuild. Qed.
  Lemma rd_emit n : rd false n (one (is_node "emit_suffix" (maybe (one references_pairs))))
    (popt (sp ;;; ptok (L "|>") ;;; sp ;;; g_references)) (QRef "emit_suffix").
  Proof.
    eapply reads_weaken; [fetch_rule reads_node; rd_go|]. intros ts a H.
    destruct H as (t & -> & y & ch & -> & H). rebuild. destruct a; views; cbn [maybe]; unfold references_pairs; rebuild.
  Qed.
  Lemma rd_direct n : rd false n (one (fun t o => forall y, output_pairs (Node "output" y [t]) o))
    (ptok (L "+>") ;;; sp ;;; c <- g_columns ;;
     r <- popt (sp ;;; ptok (L "|>") ;;; sp ;;; g_references) ;; pret (ODirect c r)) (QRef "direct_output").
  Proof.
    pose proof rd_emit. eapply reads_weaken; [fetch_rule reads_node; rd_go|].
    intros ts a H'. views. eexists. split; [reflexivity|]. intros z. unfold output_pairs, columns_pairs. rebuild.
  Qed.
  Lemma rd_output n : rd false n (one output_pairs) g_output (QRef "output").
  Proof.
    pose proof rd_implicit. pose proof rd_direct. rule g_output.
    intros ts a H'. destruct H' as (t & -> & y & ch & -> & [H'|H']); views; [|eexists; split; [reflexivity|auto]].
    unfold output_pairs. rebuild.
  Qed.
  Lemma rd_read n : rd false n (one relation_pairs) g_read (QRef "read_relation").
  Proof.
    pose proof rd_table_name. pose proof rd_output. rule g_read.
    opened. eexists. split; [reflexivity|]. cbn [relation_pairs]. rebuild.
  Qed.
  Lemma rd_ext_read n : rd false n (one relation_pairs) g_ext_read (QRef "extension_read_relation").
  Proof.
    rule g_ext_read. opened. eexists. split; [reflexivity|]. cbn [relation_pairs]. unfold columns_pairs. rebuild.
  Qed.

  (** Root. *)
  Lemma rd_root_names n : rd false n (one (is_node "root_name_list" (Forall2 name_pairs))) (psep0 comma_sp g_name)
    (QRef "root_name_list").
  Proof. fetch_rule reads_node. sep_by @reads_sep0. Qed.
  Lemma rd_root n : rd false n (one relation_pairs) g_root (QRef "root_relation").
  Proof.
    pose proof rd_root_names. rule g_root. opened. eexists. split; [reflexivity|]. cbn [relation_pairs]. rebuild.
  Qed.

  (** Virtual tables. *)
  Lemma rd_virtual_row n : rd false n (one row_pairs) g_virtual_row (QRef "virtual_row").
  Proof.
    rule g_virtual_row. opened. eexists. split; [reflexivity|]. eexists _, _. split; [reflexivity|].
    match goal with |- context [match ?o with _ => _ end] => destruct o as [l|]; views end.
    - right. unfold expressions_pairs. rebuild.
    - left. auto.
  Qed.
  Lemma rd_virtual_row_list n : rd false n (one (is_node "virtual_row_list" (Forall2 row_pairs)))
    (psep1 relation_comma g_virtual_row) (QRef "virtual_row_list").
  Proof.
    fetch_rule reads_node. pose proof rd_virtual_row.
    assert (strict g_virtual_row) by (unfold g_virtual_row; peg_shrink).
    eapply reads_sep1; [unfold relation_comma; peg_shrink|rd_go|eapply reads_weaken; [rd_go|one_done]].
  Qed.
  Lemma rd_virtual_rows n : rd false n (one rows_pairs) g_virtual_rows (QRef "virtual_read_rows").
  Proof.
    pose proof rd_virtual_row_list. rule g_virtual_rows.
    intros ts a H'. destruct H' as (t & -> & y & ch & -> & [H'|H']); views; (eexists; split; [reflexivity|]);
      unfold rows_pairs; (eexists _, _; split; [reflexivity|]); (eexists; split; [reflexivity|]).
    - left. rebuild.
    - right. auto.
  Qed.
  Lemma rd_virtual_filter n : rd false n (one (is_node "virtual_read_filter" (one expr_pairs))) g_virtual_filter
    (QRef "virtual_read_filter").
  Proof. rule g_virtual_filter. opened. rebuild. Qed.
  Lemma rd_virtual n : rd false n (one relation_pairs) g_virtual (QRef "virtual_read_relation").
  Proof.
    pose proof rd_virtual_rows. pose proof rd_virtual_filter. rule g_virtual.
    opened. eexists. split; [reflexivity|]. cbn [relation_pairs].
    eexists _, _. split; [reflexivity|]. eexists _, _, _. split; [reflexivity|]. split; [assumption|].
    split; [eapply maybe_imp; [|eassumption]; opened; rebuild|unfold columns_pairs; rebuild].
  Qed.

  (** Filter and project. *)
  Ltac relation_done := eexists; split; [reflexivity|]; cbn [relation_pairs addendum_pairs]; unfold references_pairs in *; rebuild.
  Lemma rd_filter n : rd false n (one relation_pairs) g_filter (QRef "filter_relation").
  Proof. rule g_filter. opened. relation_done. Qed.
  Lemma rd_project_arg n : rd false n (one project_arg_pairs) g_project_arg (QRef "project_argument").
  Proof.
    rule g_project_arg. intros ts a H. destruct H as (t & -> & y & ch & -> & [H|H]); views;
      unfold project_arg_pairs; rebuild.
  Qed.
  Lemma rd_project_args n : rd false n (one (is_node "project_argument_list" (Forall2 project_arg_pairs)))
    (psep0 comma_sp g_project_arg) (QRef "project_argument_list").
  Proof.
    fetch_rule reads_node. pose proof rd_project_arg. assert (strict g_project_arg) by (unfold g_project_arg; peg_shrink).
    sep_by @reads_sep0.
  Qed.
  Lemma rd_project n : rd false n (one relation_pairs) g_project (QRef "project_relation").
  Proof. pose proof rd_project_args. rule g_project. opened. relation_done. Qed.

  (** Aggregate. *)
  Lemma rd_grouping_set n : rd false n (one grouping_set_pairs) g_grouping_set (QRef "grouping_set").
  Proof.
    rule g_grouping_set. intros ts a H. destruct H as (t & -> & y & ch & -> & [H|H]); views;
      (eexists; split; [reflexivity|]); unfold grouping_set_pairs; (eexists _, _; split; [reflexivity|]);
      (eexists; split; [reflexivity|]).
    - left. unfold expressions_pairs. rebuild.
    - right. auto.
  Qed.
  Lemma strict_grouping_set : strict g_grouping_set.
  Proof. unfold g_grouping_set, g_empty. pose proof strict_expression_list. peg_shrink. Qed.
  Lemma rd_grouping_sets n : rd false n (one (fun t g => forall y, group_by_pairs (Node "aggregate_group_by" y [t]) g))
    (x <- g_grouping_set ;; sp ;;; l <- pstar (ptok (L ",") ;;; sp ;;; g_grouping_set) ;; pret (GSets (x :: l)))
    (QRef "grouping_set_list").
  Proof.
    pose proof rd_grouping_set. pose proof strict_grouping_set. eapply reads_weaken.
    - fetch_rule reads_node. rd_go. apply reads_star_node; [peg_shrink|]. eapply reads_weaken; [rd_go|one_done].
    - opened. eexists. split; [reflexivity|]. intros z. unfold group_by_pairs. rebuild. now constructor.
  Qed.
  Lemma rd_group_by n : rd false n (one group_by_pairs) g_group_by (QRef "aggregate_group_by").
  Proof.
    pose proof rd_grouping_sets. rule g_group_by.
    intros ts a H'. destruct H' as (t & -> & y & ch & -> & [H'|H']); views; (eexists; split; [reflexivity|]); auto.
    unfold group_by_pairs, expressions_pairs. rebuild.
  Qed.
  Lemma rd_aggregate_output n : rd false n (one (is_node "aggregate_output" (Forall2 expr_pairs)))
    (psep0 comma_sp g_expr) (QRef "aggregate_output").
  Proof. fetch_rule reads_node. sep_by @reads_sep0. Qed.
  Lemma rd_aggregate n : rd false n (one relation_pairs) g_aggregate (QRef "aggregate_relation").
  Proof. pose proof rd_group_by. pose proof rd_aggregate_output. rule g_aggregate. opened. relation_done. Qed.

  (** Sort. *)
  Lemma rd_sort_direction n : rd false n (one (word "sort_direction")) (ptoks sort_toks) (QRef "sort_direction").
  Proof. apply choice_rule; [the_rule "sort_direction"|discriminate]. Qed.
  Lemma rd_sort_field n : rd false n (one sort_field_pairs) g_sort_field (QRef "sort_field").
  Proof. pose proof rd_sort_direction. rule g_sort_field. opened. unfold sort_field_pairs. rebuild. Qed.
  Lemma rd_sort_fields n : rd false n (one (is_node "sort_field_list" (Forall2 sort_field_pairs)))
    (psep0 comma_sp g_sort_field) (QRef "sort_field_list").
  Proof.
    fetch_rule reads_node. pose proof rd_sort_field. assert (strict g_sort_field) by (unfold g_sort_field; peg_shrink).
    sep_by @reads_sep0.
  Qed.
  Lemma rd_sort n : rd false n (one relation_pairs) g_sort (QRef "sort_relation").
  Proof. pose proof rd_sort_fields. rule g_sort. opened. relation_done. Qed.

  (** Fetch. *)
  Lemma rd_fetch_value n : rd false n (one fetch_value_pairs) g_fetch_value (QRef "fetch_value").
  Proof.
    rule g_fetch_value. intros ts a H. destruct H as (t & -> & y & ch & -> & [H|H]); views;
      unfold fetch_value_pairs; rebuild.
  Qed.
  Lemma rd_fetch_name n : rd false n (one (word "fetch_arg_name")) (ptoks [L "limit"; L "offset"]) (QRef "fetch_arg_name").
  Proof. apply choice_rule; [the_rule "fetch_arg_name"|discriminate]. Qed.
  Lemma rd_fetch_arg n : rd false n (one fetch_arg_pairs) g_fetch_arg (QRef "fetch_named_arg").
  Proof. pose proof rd_fetch_value. pose proof rd_fetch_name. rule g_fetch_arg. opened. unfold fetch_arg_pairs. rebuild. Qed.
  Lemma rd_fetch_named n : rd false n (one (is_node "fetch_named_arg_list" (Forall2 fetch_arg_pairs)))
    (psep1 comma_sp g_fetch_arg) (QRef "fetch_named_arg_list").
  Proof.
    fetch_rule reads_node. pose proof rd_fetch_arg.
    assert (strict g_fetch_arg) by (unfold g_fetch_arg, g_fetch_value; peg_shrink).
    sep_by @reads_sep1.
  Qed.
  Lemma rd_fetch_args n : rd false n (one (fun t l => is_node "fetch_named_arg_list" (Forall2 fetch_arg_pairs) t l
                                                      \/ empty_pair t /\ l = []))
    (psep1 comma_sp g_fetch_arg <|> pmap (fun _ => []) g_empty) (QRef "fetch_args").
  Proof.
    pose proof rd_fetch_named. fetch_rule reads_silent. eapply reads_weaken; [rd_go|].
    intros ts a [H'|H'].
    - destruct H' as (t & -> & H'). eexists. split; [reflexivity|auto].
    - views. eexists. split; [reflexivity|auto].
  Qed.
  Lemma rd_fetch n : rd false n (one relation_pairs) g_fetch (QRef "fetch_relation").
  Proof. pose proof rd_fetch_args. rule g_fetch. opened. relation_done. Qed.

  (** Join, set, cross. *)
  Lemma rd_join_type n : rd false n (one (word "join_type")) (ptoks join_toks) (QRef "join_type").
  Proof. apply choice_rule; [the_rule "join_type"|discriminate]. Qed.
  Lemma rd_post_filter n : rd false n (one (is_node "join_post_join_filter" (one expr_pairs))) g_post_filter
    (QRef "join_post_join_filter").
  Proof. rule g_post_filter. opened. rebuild. Qed.
  Lemma rd_join n : rd false n (one relation_pairs) g_join (QRef "join_relation").
  Proof.
    pose proof rd_join_type. pose proof rd_post_filter. rule g_join. opened.
    eexists. split; [reflexivity|]. cbn [relation_pairs].
    eexists _, _. split; [reflexivity|]. eexists _, _, _. split; [reflexivity|]. split; [assumption|].
    split; [eapply maybe_imp; [|eassumption]; opened; rebuild|unfold references_pairs; rebuild].
  Qed.
  Lemma rd_set_op n : rd false n (one (word "set_op")) (ptoks set_toks) (QRef "set_op").
  Proof. apply choice_rule; [the_rule "set_op"|discriminate]. Qed.
  Lemma rd_set n : rd false n (one relation_pairs) g_set (QRef "set_relation").
  Proof. pose proof rd_set_op. rule g_set. opened. relation_done. Qed.
  Lemma rd_cross n : rd false n (one relation_pairs) g_cross (QRef "cross_relation").
  Proof. rule g_cross. opened. relation_done. Qed.

  (** Extension relations and addenda. *)
  Lemma rd_xkind n : rd false n (one (fun t k => t = leaf "extension_type" (xkind_text k))) g_xkind (QRef "extension_type").
  Proof.
    eapply reads_weaken.
    - eapply (reads_leaf the_grammar w n "extension_type" QNormal (fun t k => t = xkind_text k) quiet_v);
        [the_rule "extension_type"|discriminate| | |now intros ts a H _].
      + unfold g_xkind. sp_all.
      + eapply reads_weaken; [unfold g_xkind; rd_go|]. intros ts a [H|[H|H]]; now views.
    - intros ts a (t & -> & text & -> & ->). now exists (leaf "extension_type" (xkind_text a)).
  Qed.
  Lemma rd_xname n : rd false n (one (fun t p => is_node "extension_name" (fun ch _ =>
               exists u, ch = [leaf "extension_type" (xkind_text (fst p)); u] /\ name_pairs u (snd p)) t tt))
    (k <- g_xkind ;; ptok (L ":") ;;; n <- g_name ;; pret (k, n)) (QRef "extension_name").
  Proof. pose proof rd_xkind. eapply reads_weaken; [fetch_rule reads_node; rd_go|]. opened. rebuild. Qed.
  Lemma rd_ext n : rd false n (one relation_pairs) g_ext (QRef "extension_relation").
  Proof.
    pose proof rd_xname. eapply reads_weaken.
    - fetch_rule reads_node.
      eapply reads_ext with (p := p <- (k <- g_xkind ;; ptok (L ":") ;;; n <- g_name ;; pret (k, n)) ;;
        ptok (L "[") ;;; sp ;;; a <- g_xargs ;;
        c <- popt (arrow ;;; g_xcolumns) ;; ptok (L "]") ;;;
        pret (YExt (fst p) (snd p) a (match c with Some c => c | None => [] end))).
      { intros s. unfold g_ext, pthen, pbind, pret. destruct (g_xkind s) as [[k r]|]; auto.
        destruct (ptok (L ":") r) as [[? r']|]; auto. destruct (g_name r') as [[? r'']|]; auto. }
      eapply reads_bind; [apply H|intro p; cbv beta]. rd_go.
    - intros ts a H'. destruct H' as (t & -> & y & ch & -> & H'). views. eexists. split; [reflexivity|].
      cbn [relation_pairs]. eexists _, _. split; [reflexivity|]. eexists _, _, _. split; [reflexivity|].
      split; [rebuild|]. split; [assumption|].
      match goal with |- context [match ?o with _ => _ end] => destruct o as [l|]; views end.
      + right. rebuild.
      + left. auto.
  Qed.
  Lemma rd_addendum_type n : rd false n (one (fun t k => exists s, t = leaf "addendum_type" s /\ addendum_text k = Some s))
    g_addendum_type (QRef "addendum_type").
  Proof.
    eapply reads_weaken.
    - eapply (reads_leaf the_grammar w n "addendum_type" QNormal (fun t k => addendum_text k = Some t) quiet_v);
        [the_rule "addendum_type"|discriminate| | |now intros ts a H _].
      + unfold g_addendum_type. sp_all.
      + eapply reads_weaken; [unfold g_addendum_type; rd_go|]. intros ts a [H|[H|H]]; now views.
    - intros ts a (t & -> & text & -> & E). eexists. split; [reflexivity|]. now exists text.
  Qed.
  Lemma rd_addendum n : rd false n (one addendum_pairs) g_addendum (QRef "addendum").
  Proof. pose proof rd_addendum_type. rule g_addendum. opened. relation_done. Qed.
End Relations.
Ltac rd_lemma10 :=
  first [ apply rd_root | apply rd_ext_read | apply rd_virtual | apply rd_read | apply rd_filter | apply rd_project
        | apply rd_aggregate | apply rd_sort | apply rd_fetch | apply rd_join | apply rd_set | apply rd_cross
        | apply rd_ext | apply rd_addendum | rd_lemma9 ].
Ltac rd_lemma ::= rd_lemma10.

Section Lines.
  Variable w : list N.
  Notation rd := (reads the_grammar w).

  Lemma reads_map_alt {A B} at_ n v (f : A -> B) (p q : peg A) r x :
    rd at_ n v (pmap f p <|> (pmap f q <|> r)) x -> rd at_ n v (pmap f (p <|> q) <|> r) x.
  Proof.
    apply reads_ext. intros s. unfold palt, pmap. destruct (p s) as [[a z]|]; auto.
  Qed.

  (** Only [root_relation] gives a root. *)
  Definition rooted_v (b : bool) (t : tree) (y : rline + acst) : Prop := is_root y = b /\ line_pairs t y.
  Lemma rd_rooted n g nm : rd false n (one relation_pairs) g (QRef nm) ->
    (exists x, lookup the_grammar nm = Some (QNormal, x)) ->
    rd false n (one (rooted_v (String.eqb nm "root_relation"))) (pmap inl g) (QRef nm).
  Proof.
    intros H (e & Hl) s Hs. pose proof (reads_map the_grammar w false n _ (@inl rline acst) g _ H s Hs) as R.
    destruct (pmap inl g s) as [[a r]|]; auto. destruct R as (ts & D & y & (t & -> & P) & ->).
    eexists. split; [exact D|]. exists t. split; [reflexivity|]. split; [|exact P].
    assert (exists x ch, t = Node nm x ch) as (x & ch & ->).
    { inversion D; subst. match goal with H1 : lookup _ _ = Some (?k, _), H2 : wrap _ ?k _ _ _ = [t] |- _ =>
        rewrite Hl in H1; injection H1 as <- <-; cbn in H2; injection H2 as <- end. eauto. }
    destruct y; cbn in P; destruct P as (? & ? & [= -> _ _] & _); reflexivity.
  Qed.
  Lemma rd_rooted_addendum n : rd false n (one (rooted_v false)) (pmap inr g_addendum) (QRef "addendum").
  Proof. eapply reads_weaken; [rd_go|]. opened. eexists. split; [reflexivity|]. split; auto. Qed.
  Ltac rooted := apply rd_rooted; [rd_go|eexists; match goal with |- lookup _ ?n = _ => the_rule n end].
  Lemma rd_node n : rd false n (one node_pairs) g_node (QRef "planNode").
  Proof.
    eapply reads_weaken.
    - fetch_rule reads_node. unfold g_node, g_relation.
      repeat (try apply reads_map_alt; eapply reads_alt; [rooted|]).
      apply rd_rooted_addendum.
    - intros ts a H. destruct H as (t & -> & y & ch & -> & H). eexists. split; [reflexivity|].
      assert (one (rooted_v false) ch a) as (u & -> & Hr & Hu) by (cbn [String.eqb Ascii.eqb Bool.eqb] in H; tauto).
      split; [exact Hr|]. rebuild.
  Qed.
  Lemma rd_top n : rd false n (one top_pairs) g_top (QRef "top_level_relation").
  Proof.
    eapply reads_weaken.
    - fetch_rule reads_node. unfold g_top. eapply reads_alt; [rooted|apply rd_node].
    - intros ts a H. destruct H as (t & -> & y & ch & -> & [H|H]);
        destruct H as (u & -> & H); eexists; (split; [reflexivity|]); eexists _, _; (split; [reflexivity|]);
        eexists; (split; [reflexivity|]); auto.
  Qed.

  (** ** Declarations *)

  Lemma rd_urn_declaration n : rd false n (one urn_declaration_pairs) g_urn_declaration (QRef "extension_urn_declaration").
  Proof. rule g_urn_declaration. opened. unfold urn_declaration_pairs. rebuild. Qed.
  Lemma rd_simple_extension n : rd false n (one simple_extension_pairs) g_simple_extension (QRef "simple_extension").
  Proof. rule g_simple_extension. opened. unfold simple_extension_pairs. rebuild. Qed.

  (** ** Durations *)
  Lemma rd_duration_days n : rd false n (one (integer_pairs "duration_days")) g_duration_days (QRef "duration_days").
  Proof. rule g_duration_days. opened. unfold integer_pairs. rebuild. Qed.
  Lemma rd_duration_seconds n : rd false n (one (integer_pairs "duration_seconds")) g_duration_seconds
    (QRef "duration_seconds").
  Proof. rule g_duration_seconds. opened. unfold integer_pairs. rebuild. Qed.
  Lemma rd_unit n : rd false n (one (word "subsecond_unit")) (ptoks [L "ms"; L "us"; L "ns"; L "ps"])
    (QRef "subsecond_unit").
  Proof. apply choice_rule; [the_rule "subsecond_unit"|discriminate]. Qed.
  Definition subseconds_pairs : tree -> list N * list N -> Prop :=
    is_node "duration_subseconds" (fun ch p => ch = [leaf "integer" (fst p); leaf "subsecond_unit" (snd p)]).
  Lemma rd_duration_subseconds n : rd false n (one subseconds_pairs)
    g_duration_subseconds (QRef "duration_subseconds").
  Proof. pose proof rd_unit. rule g_duration_subseconds. opened. unfold subseconds_pairs. rebuild. Qed.
  Lemma rd_blank n : rd false n quiet_v (ptok (L " ")) (QRef "whitespace").
  Proof. eapply reads_silent; [the_rule "whitespace"|]. apply reads_tok. Qed.

  (** [SOI]: only at the start of the input. *)
  Definition whole {A} (p : peg A) : peg A := fun s => if length s =? length w then p s else None.
  Lemma reads_whole {A} n v (p : peg A) x : rd false n v p x -> rd false n v (whole p) (QSeq QSoi x).
  Proof.
    intros H s Hs. unfold whole. destruct (length s =? length w) eqn:E.
    - apply Nat.eqb_eq in E. specialize (H s Hs). destruct (p s) as [[a r]|].
      + destruct H as (ts & D & V). exists ts. split; auto. apply (d_seq _ _ _ _ _ _ [] s ts); [now constructor|exact D].
      + eapply d_seq_no2; [now constructor|exact H].
    - apply Nat.eqb_neq in E. apply d_seq_no1. now constructor.
  Qed.
  Ltac one_now := cbn [maybe]; eexists; split; [reflexivity|eassumption].
  Lemma rd_duration n : rd false n (one duration_pairs) (whole g_interval_duration) (QRef "interval_day_duration").
  Proof.
    eapply reads_weaken.
    - fetch_rule reads_node. apply reads_whole. unfold g_interval_duration.
      pose proof rd_duration_days. pose proof rd_duration_seconds. pose proof rd_duration_subseconds.
      pose proof rd_blank. rd_go.
    - intros ts a H. destruct H as (t & -> & y & ch & -> & H). views.
      match goal with H : _ \/ _ |- _ => destruct H as [H|[H|H]] end; views;
        (eexists; split; [reflexivity|]); (eexists _, _; split; [reflexivity|]).
      + exists [x9], x5, x6. rewrite <- app_assoc. split; [reflexivity|]. cbn [fst snd].
        split; [one_now|]. split; maybe_done.
      + match goal with |- context [?t :: ?l ++ _] => exists [], [t], l end. split; [reflexivity|]. cbn [fst snd].
        split; [reflexivity|]. split; [one_now|maybe_done].
      + match goal with |- context [[?t; _]] => exists [], [], [t] end. split; [reflexivity|]. cbn [fst snd].
        split; [reflexivity|]. split; [reflexivity|one_now].
  Qed.
  (** From the start of the input. *)
  Lemma rd_duration_whole :
    match g_interval_duration w with
    | Some (d, r) => exists ts, derives the_grammar w false (QRef "interval_day_duration") w (Some (ts, r))
                                /\ one duration_pairs ts d
    | None => derives the_grammar w false (QRef "interval_day_duration") w None
    end.
  Proof.
    pose proof (rd_duration (S (length w)) w (le_n _)) as H. unfold whole in H. now rewrite Nat.eqb_refl in H.
  Qed.
End Lines.
