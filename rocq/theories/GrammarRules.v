(** Types, expressions, extension arguments and lines against the grammar. *)
From Coq Require Import String List NArith Bool Lia Arith.
From Verif Require Import Base BaseFacts Peg PegFacts Names NamesFacts Anchors AnchorsFacts Types TypesFacts
  Literals Exprs ExprsFacts ExtLines ExtArgs ExtArgsFacts Registry RelGrammar ConsumedFacts Pest PestFacts
  PestText SpecGrammar GrammarFacts.
Import ListNotations.
Local Open Scope string_scope.
Local Open Scope list_scope.
Local Open Scope nat_scope.
Local Open Scope peg_scope.

(** An element after a separator. *)
Ltac one_done := intros ? ? ?; views; eexists; split; [reflexivity|eassumption].
Lemma maybe_imp {A} (v v' : list tree -> A -> Prop) ts o :
  (forall ts a, v ts a -> v' ts a) -> maybe v ts o -> maybe v' ts o.
Proof. destruct o; cbn; auto. Qed.
Ltac maybe_done := eapply maybe_imp; [|eassumption]; one_done.
Ltac sep_by lem := eapply lem; [peg_shrink|rd_go|eapply reads_weaken; [rd_go|one_done]].

Section Rules.
  Variable w : list N.
  Notation rd := (reads the_grammar w).

  Lemma rd_null_suffix n : rd false n (one null_pairs) g_null_suffix (QRef "nullability").
  Proof.
    eapply reads_weaken.
    - eapply (reads_leaf the_grammar w n "nullability" QNormal (fun t n => t = null_text n) quiet_v);
        [the_rule "nullability"|discriminate|apply spells_null_suffix| |now intros ts a H _].
      intros s Hs. unfold g_null_suffix. change c_unspec with 8265%N.
      pose proof (reads_tok the_grammar w false n (L "?") s Hs) as H1.
      pose proof (reads_tok the_grammar w false n [8265%N] s Hs) as H2. unfold palt, pmap, pret.
      destruct (ptok (L "?") s) as [[a r]|].
      + destruct H1 as (ts & D & ->). exists []. split; [|reflexivity]. apply d_opt, d_alt_l, D.
      + destruct (ptok [8265%N] s) as [[a r]|].
        * destruct H2 as (ts & D & ->). exists []. split; [|reflexivity]. apply d_opt, d_alt_r; assumption.
        * exists []. split; [|reflexivity]. apply d_opt_no, d_alt_r; assumption.
    - intros ts a (t & -> & text & -> & ->). now exists (leaf "nullability" (null_text a)).
  Qed.
  Lemma rd_anchor n : rd false n (one (integer_pairs "anchor")) g_anchor (QRef "anchor").
  Proof.
    eapply reads_weaken; [fetch_rule reads_node; unfold g_anchor; rd_go|].
    intros ts a H. views. eexists. split; [reflexivity|]. unfold word in *. subst. eexists _, _. split; reflexivity.
  Qed.
  Lemma rd_urn_anchor n : rd false n (one (integer_pairs "urn_anchor")) g_urn_anchor (QRef "urn_anchor").
  Proof.
    eapply reads_weaken; [fetch_rule reads_node; unfold g_urn_anchor; rd_go|].
    intros ts a H. views. eexists. split; [reflexivity|]. unfold word in *. subst. eexists _, _. split; reflexivity.
  Qed.
  Lemma rd_reference n : rd false n (one (integer_pairs "reference")) g_reference (QRef "reference").
  Proof.
    eapply reads_weaken; [fetch_rule reads_node; unfold g_reference; rd_go|].
    intros ts a H. views. eexists. split; [reflexivity|]. unfold word in *. subst. eexists _, _. split; reflexivity.
  Qed.
End Rules.

Ltac rd_lemma2 :=
  first [ apply rd_null_suffix | apply rd_anchor | apply rd_urn_anchor | apply rd_reference | rd_lemma1 ].
Ltac rd_lemma ::= rd_lemma2.


Section TypeRules.
  Variable w : list N.
  Notation rd := (reads the_grammar w).
  Variable ty : peg tcst.
  Hypothesis ty_strict : strict ty.
  Variable n : nat.
  Hypothesis ty_rd : rd false n (one type_pairs) ty (QRef "type").

  Lemma rd_parameter : rd false n (one param_pairs) (g_parameter ty) (QRef "parameter").
  Proof.
    eapply reads_weaken; [fetch_rule reads_node; unfold g_parameter; rd_go|].
    intros ts a H. destruct H as (t & -> & x & ch & -> & [H|[H|H]]); views; unfold word in *; subst;
      (eexists; split; [reflexivity|]); now constructor.
  Qed.
  Lemma rd_parameters : rd false n (one (is_node "parameters" (Forall2 param_pairs))) (g_parameters ty) (QRef "parameters").
  Proof.
    eapply reads_weaken.
    - fetch_rule reads_node. unfold g_parameters. pose proof rd_parameter. rd_go.
      pose proof (strict_parameter ty ty_strict). sep_by @reads_sep0.
    - intros ts a H. views. eexists. split; [reflexivity|]. eexists _, _. split; [reflexivity|]. assumption.
  Qed.
End TypeRules.

(** Close the view of a rule: rebuild the node. *)
Ltac node_done :=
  unfold word, null_pairs in *; subst;
  repeat match goal with |- one _ _ _ => eexists; split; [reflexivity|] end;
  repeat match goal with |- is_node _ _ _ _ => eexists _, _; split; [reflexivity|] end.

Section TypeRule.
  Variable w : list N.
  Notation rd := (reads the_grammar w).
  Variable ty : peg tcst.
  Hypothesis ty_strict : strict ty.
  Variable n : nat.
  Hypothesis ty_rd : rd false n (one type_pairs) ty (QRef "type").

  Definition under (nm : string) (t : tree) (c : tcst) : Prop := forall x, type_pairs (Node "type" x [t]) c.

  Lemma rd_simple_type m : rd false m (one (under "simple_type")) g_simple_type (QRef "simple_type").
  Proof.
    eapply reads_weaken.
    - fetch_rule reads_node. unfold g_simple_type. rd_go. apply choice_rule; [the_rule "simple_type_name"|discriminate].
    - intros ts a H. views. node_done. intros z. now constructor.
  Qed.

  Definition under2 (t : tree) (c : tcst) : Prop :=
    forall x y, type_pairs (Node "type" x [Node "compound_type" y [t]]) c.
  Lemma rd_kw_int nm kw k x : lookup the_grammar nm = Some (QNormal,
      QSeq (QTokCI kw) (QSeq (QRef "nullability") (QSeq (QTok [60%N]) (QSeq (QRef "integer") (QTok [62%N]))))) ->
    forallb (fun c => negb (is_upper c)) kw = true ->
    (forall y a b n s, null_pairs a n -> word "integer" b s -> under2 (Node nm y [a; b]) (k n s)) ->
    rd false x (one under2) (g_kw_int kw k) (QRef nm).
  Proof.
    intros Hl Hk Hu. eapply reads_weaken.
    - eapply reads_node; [exact Hl|]. unfold g_kw_int, g_kw. rd_go.
    - intros ts a H. views. eexists. split; [reflexivity|]. now apply Hu.
  Qed.
  Lemma rd_prec m : rd false m (one under2)
    (g_kw_int (L "precisiontimestamptz") (CPrec PkTimestampTz)) (QRef "precision_timestamp_tz_type").
  Proof.
    eapply rd_kw_int; [the_rule "precision_timestamp_tz_type"|reflexivity|].
    intros y a b x s Ha Hb. red in Hb. subst. intros p q. exact (tp_prec p q y PkTimestampTz a x s Ha).
  Qed.
  Lemma rd_prec' m : rd false m (one under2)
    (g_kw_int (L "precisiontimestamp") (CPrec PkTimestamp)) (QRef "precision_timestamp_type").
  Proof.
    eapply rd_kw_int; [the_rule "precision_timestamp_type"|reflexivity|].
    intros y a b x s Ha Hb. red in Hb. subst. intros p q. exact (tp_prec p q y PkTimestamp a x s Ha).
  Qed.
  Lemma rd_prec'' m : rd false m (one under2)
    (g_kw_int (L "precisiontime") (CPrec PkTime)) (QRef "precision_time_type").
  Proof.
    eapply rd_kw_int; [the_rule "precision_time_type"|reflexivity|].
    intros y a b x s Ha Hb. red in Hb. subst. intros p q. exact (tp_prec p q y PkTime a x s Ha).
  Qed.
  Lemma rd_day m : rd false m (one under2) (g_kw_int (L "interval_day") CIntervalDay) (QRef "interval_day_type").
  Proof.
    eapply rd_kw_int; [the_rule "interval_day_type"|reflexivity|].
    intros y a b x s Ha Hb. red in Hb. subst. intros p q. now constructor.
  Qed.

  Lemma rd_list_type : rd false (S n) (one under2)
    (m <- g_kw (L "list") ;; t <- ty ;; ptok (L ">") ;;; pret (CList m t)) (QRef "list_type").
  Proof.
    eapply reads_weaken.
    - fetch_rule reads_node. unfold g_kw. rd_go.
    - intros ts a H. views. eexists. split; [reflexivity|]. intros p q. now constructor.
  Qed.
  Lemma rd_map_type : rd false (S n) (one under2)
    (m <- g_kw (L "map") ;; k <- ty ;; ptok (L ",") ;;; sp ;;; v <- ty ;; ptok (L ">") ;;;
     pret (CMap m k v)) (QRef "map_type").
  Proof.
    eapply reads_weaken.
    - fetch_rule reads_node. unfold g_kw. rd_go.
    - intros ts a H. views. eexists. split; [reflexivity|]. intros p q. now constructor.
  Qed.
  Lemma rd_struct_type : rd false (S n) (one under2)
    (ptok_ci (L "struct") ;;; m <- g_null_suffix ;; ps <- g_parameters ty ;; pret (CStruct m ps)) (QRef "struct_type").
  Proof.
    eapply reads_weaken.
    - fetch_rule reads_node. pose proof (rd_parameters w ty ty_strict n ty_rd). rd_go.
    - intros ts a H. views. eexists. split; [reflexivity|]. intros p q. now constructor.
  Qed.
  Lemma rd_compound_type : rd false (S n) (one (under "compound_type")) (g_compound_type ty) (QRef "compound_type").
  Proof.
    eapply reads_weaken.
    - fetch_rule reads_node. unfold g_compound_type.
      repeat (eapply reads_alt;
        [first [apply rd_list_type|apply rd_map_type|apply rd_struct_type|apply rd_prec|apply rd_prec'|apply rd_prec'']|]).
      apply rd_day.
    - intros ts a H. destruct H as (t & -> & y & ch & -> & H).
      assert (one under2 ch a) as (u & -> & Hu) by tauto.
      eexists. split; [reflexivity|]. intros p. apply Hu.
  Qed.
  Lemma rd_user_type : rd false (S n) (one (under "user_defined_type")) (g_user_type ty) (QRef "user_defined_type").
  Proof.
    eapply reads_weaken.
    - fetch_rule reads_node. unfold g_user_type. pose proof (rd_parameters w ty ty_strict n ty_rd). rd_go.
    - intros ts a H. views. eexists. split; [reflexivity|]. intros p.
      match goal with H : maybe quiet_v ?t ?x |- _ => assert (t = []) by (destruct x; exact H); subst t end.
      cbn [app].
      match goal with |- context [CUser _ _ _ _ ?o] => destruct o as [l|] end; views; unfold word in *; subst.
      + now constructor.
      + now constructor.
  Qed.

  Lemma rd_type_F : rd false (S n) (one type_pairs) (type_F ty) (QRef "type").
  Proof.
    eapply reads_weaken.
    - fetch_rule reads_node. unfold type_F.
      eapply reads_alt; [apply rd_simple_type|eapply reads_alt; [apply rd_compound_type|apply rd_user_type]].
    - intros ts a H. destruct H as (t & -> & y & ch & -> & [H|[H|H]]); destruct H as (u & -> & Hu);
        (eexists; split; [reflexivity|apply Hu]).
  Qed.
End TypeRule.

Lemma rd_type w n : reads the_grammar w false n (one type_pairs) g_type (QRef "type").
Proof.
  induction n as [|n IH]; [intros s Hs; lia|].
  eapply reads_ext; [intros s; symmetry; apply g_type_eq|]. apply rd_type_F; auto. apply strict_type.
Qed.
Ltac rd_lemma3 := first [ apply rd_type | rd_lemma2 ].
Ltac rd_lemma ::= rd_lemma3.

Section ExprRules.
  Variable w : list N.
  Notation rd := (reads the_grammar w).

  Lemma rd_function_reference n : rd false n (one fref_pairs) g_function_reference (QRef "function_reference").
  Proof.
    eapply reads_weaken; [fetch_rule reads_node; unfold g_function_reference; rd_go|].
    intros ts a H. views. node_done. eexists _, _. split; [reflexivity|]. eexists _, _. split; [reflexivity|]. split; eassumption.
  Qed.
  Lemma rd_litval n : rd false n (one litval_pairs) g_litval
    (QAlt (QRef "float") (QAlt (QRef "integer") (QAlt (QRef "boolean") (QAlt (QRef "string_literal") (QRef "null"))))).
  Proof.
    eapply reads_weaken; [unfold g_litval; rd_go|].
    intros ts a [H|[H|[H|[H|H]]]]; views; unfold word in *; subst; (eexists; split; [reflexivity|reflexivity]).
  Qed.
End ExprRules.
Ltac rd_lemma4 := first [ apply rd_function_reference | apply rd_litval | rd_lemma3 ].
Ltac rd_lemma ::= rd_lemma4.

Section ExprRule.
  Variable w : list N.
  Notation rd := (reads the_grammar w).
  Variable ex : peg ecst.
  Hypothesis ex_strict : strict ex.
  Variable n : nat.
  Hypothesis ex_rd : rd false n (one expr_pairs) ex (QRef "expression").

  Definition under_e (t : tree) (c : ecst) : Prop := forall x, expr_pairs (Node "expression" x [t]) c.

  Definition clause_v (t : tree) (p : ecst * ecst) : Prop :=
    exists z a b, t = Node "if_clause" z [a; b] /\ expr_pairs a (fst p) /\ expr_pairs b (snd p).
  Lemma rd_if_clause : rd false n (one clause_v) (g_if_clause ex) (QRef "if_clause").
  Proof.
    eapply reads_weaken; [fetch_rule reads_node; unfold g_if_clause; rd_go|].
    intros ts a H. views. eexists. split; [reflexivity|]. eexists _, _, _. split; [reflexivity|]. auto.
  Qed.
  Lemma rd_if_then : rd false (S n) (one under_e) (g_if_then ex) (QRef "if_then").
  Proof.
    eapply reads_weaken.
    - fetch_rule reads_node. unfold g_if_then. pose proof rd_if_clause. rd_go.
      eapply reads_plus_node; [unfold g_if_clause; peg_shrink|]. eapply reads_weaken; [rd_go|one_done].
    - intros ts a H. views. eexists. split; [reflexivity|]. intros q. now constructor.
  Qed.
  Lemma rd_behavior m : rd false m (one (fun t k => t = leaf "cast_failure_behavior" [k])) g_behavior
    (QRef "cast_failure_behavior").
  Proof.
    eapply reads_weaken.
    - eapply (reads_leaf the_grammar w m "cast_failure_behavior" QNormal (fun t n => t = [n]) quiet_v);
        [the_rule "cast_failure_behavior"|discriminate|unfold g_behavior; sp_all| |now intros ts a H _].
      eapply reads_weaken; [unfold g_behavior; rd_go|]. intros ts a [H|H]; now views.
    - intros ts a (t & -> & text & -> & ->). now exists (leaf "cast_failure_behavior" [a]).
  Qed.
  Lemma rd_cast : rd false (S n) (one under_e) (g_cast ex) (QRef "cast_expression").
  Proof.
    eapply reads_weaken.
    - fetch_rule reads_node. unfold g_cast. pose proof rd_behavior. rd_go.
    - intros ts a H. views. eexists. split; [reflexivity|]. intros q. now constructor.
  Qed.
  Lemma rd_argument_list : rd false n (one (is_node "argument_list" (Forall2 expr_pairs))) (g_argument_list ex)
    (QRef "argument_list").
  Proof.
    eapply reads_weaken.
    - fetch_rule reads_node. unfold g_argument_list. rd_go. sep_by @reads_sep0.
    - intros ts a H. views. node_done. assumption.
  Qed.
  Lemma rd_function_call : rd false (S n) (one (fun t c => under_e t (let '(f, a, t) := c in XCall f a t)))
    (g_function_call ex) (QRef "function_call").
  Proof.
    eapply reads_weaken.
    - fetch_rule reads_node. unfold g_function_call. pose proof rd_argument_list. rd_go.
    - intros ts a H. views. eexists. split; [reflexivity|]. intros q. now constructor.
  Qed.
  Lemma rd_literal m : rd false m (one (fun t c => under_e t (XLit c))) g_literal (QRef "expression_literal").
  Proof.
    eapply reads_weaken.
    - fetch_rule reads_node. unfold g_literal. rd_go.
    - intros ts a H. views. eexists. split; [reflexivity|]. intros q. constructor; [assumption|maybe_done].
  Qed.
  Lemma rd_expr_F : rd false (S n) (one expr_pairs) (expr_F ex) (QRef "expression").
  Proof.
    eapply reads_weaken.
    - fetch_rule reads_node. unfold expr_F. pose proof rd_if_then. pose proof rd_cast. pose proof rd_function_call.
      pose proof rd_literal. rd_go.
    - intros ts a H. destruct H as (t & -> & y & ch & -> & [H|[H|[H|[H|H]]]]); views; (eexists; split; [reflexivity|]); auto.
      now constructor.
  Qed.
End ExprRule.

Lemma rd_expr w n : reads the_grammar w false n (one expr_pairs) g_expr (QRef "expression").
Proof.
  induction n as [|n IH]; [intros s Hs; lia|].
  eapply reads_ext; [intros s; symmetry; apply g_expr_eq|]. apply rd_expr_F; auto. apply strict_expr.
Qed.
Ltac rd_lemma5 := first [ apply rd_expr | rd_lemma4 ].
Ltac rd_lemma ::= rd_lemma5.
