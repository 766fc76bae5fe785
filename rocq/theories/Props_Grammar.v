(** C51: the readers implement the grammar file. *)
From Coq Require Import String List NArith Bool Lia.
From Verif Require Import Base Peg Names Anchors Types Literals Exprs ExtLines ExtArgs Registry RelGrammar
  Pest PestFacts PestText SpecGrammar GrammarFacts GrammarRules GrammarLines GrammarUnique.
Import ListNotations.
Local Open Scope string_scope.
Local Open Scope list_scope.

(** The grammar is what the file says; every rule it names is there, each once. *)
Theorem C51_grammar_read : read_pest pest_text = Some the_grammar /\ closed_grammar the_grammar = true.
Proof. split; [|vm_compute; reflexivity]. transitivity grammar_opt; [vm_compute; reflexivity|reflexivity]. Qed.

(** A grammar gives one answer. *)
Theorem C51_one_answer G w at_ x s : forall o o', derives G w at_ x s o -> derives G w at_ x s o' -> o = o'.
Proof. intros o o' H H'. eapply derives_unique; eassumption. Qed.

Lemma follows_intro {A} rule (v : tree -> A -> Prop) p : functional v ->
  (forall s, match p s with
             | Some (a, r) => exists ts, derives the_grammar s false (QRef rule) s (Some (ts, r)) /\ one v ts a
             | None => derives the_grammar s false (QRef rule) s None
             end) -> follows rule v p.
Proof.
  intros Hf H s o. specialize (H s). split.
  - intros <-. destruct (p s) as [[a r]|]; auto. destruct H as (ts & D & t & -> & V). eauto.
  - destruct o as [[a r]|]; intros Ho.
    + destruct Ho as (t & D & V). destruct (p s) as [[b q]|].
      * destruct H as (ts & D' & u & -> & V'). pose proof (derives_unique _ _ _ _ _ _ D _ D') as [= <- <-].
        now rewrite (Hf _ _ _ V V').
      * pose proof (derives_unique _ _ _ _ _ _ D _ H) as [=].
    + destruct (p s) as [[b q]|]; auto. destruct H as (ts & D' & _).
      pose proof (derives_unique _ _ _ _ _ _ Ho _ D') as [=].
Qed.
Lemma follows_reads {A} rule (v : tree -> A -> Prop) p : functional v ->
  (forall w n, reads the_grammar w false n (one v) p (QRef rule)) -> follows rule v p.
Proof. intros Hf H. apply follows_intro; auto. intros s. exact (H s (S (length s)) s (le_n _)). Qed.

(** Relation lines, at the top level and below: [ExpressionParser::parse] with
    [Rule::top_level_relation] and [Rule::planNode], src/parser/structural.rs l.97-170. *)
Theorem C51_lines : follows "top_level_relation" top_pairs g_top /\ follows "planNode" node_pairs g_node.
Proof.
  split; apply follows_reads; auto using fun_top, fun_plan_node, rd_top, rd_node.
Qed.

(** Declarations: [Rule::extension_urn_declaration] and [Rule::simple_extension],
    src/parser/extensions.rs l.193-263. *)
Theorem C51_declarations : follows "extension_urn_declaration" urn_declaration_pairs g_urn_declaration
  /\ follows "simple_extension" simple_extension_pairs g_simple_extension.
Proof.
  split; apply follows_reads; auto using fun_urn_declaration, fun_simple_extension, rd_urn_declaration,
    rd_simple_extension.
Qed.

(** The text of an interval: [Rule::interval_day_duration], src/parser/expressions.rs l.616. *)
Theorem C51_durations : follows "interval_day_duration" duration_pairs g_interval_duration.
Proof. apply follows_intro; [apply fun_duration|]. intros s. apply rd_duration_whole. Qed.

(** The rules inside lines, as the crate's own tests call them. *)
Theorem C51_parts : follows "expression" expr_pairs g_expr /\ follows "type" type_pairs g_type
  /\ follows "name" name_pairs g_name /\ follows "extension_argument" xarg_pairs g_xarg
  /\ follows "extension_args" xargs_pairs g_xargs.
Proof.
  repeat match goal with |- _ /\ _ => split end; apply follows_reads; auto using fun_expr, fun_type, fun_name, fun_xarg, fun_xargs, rd_expr, rd_type,
    rd_name, rd_xarg, rd_xargs.
Qed.

(** ** Examples *)

(** A tree by hand: [$10] is a [reference] with an [integer] inside. *)
Example ex_reference : matches the_grammar "reference" (L "$10 x")
  (Node "reference" (L "$10") [leaf "integer" (L "10")]) (L " x").
Proof.
  eapply (d_ref _ _ false "reference" QNormal _ _ (L "$10") [leaf "integer" (L "10")] (L " x"));
    [the_rule "reference"| |reflexivity].
  apply (d_seq _ _ _ _ _ _ [] (L "10 x") [leaf "integer" (L "10")]); [exact (d_tok _ _ _ (L "$") (L "10 x"))|].
  pose proof (rd_integer (L "$10 x") 9 (L "10 x") ltac:(vm_compute; lia)) as H.
  change (g_integer (L "10 x")) with (Some (L "10", L " x")) in H. cbv iota beta in H.
  destruct H as (ts & D & t & -> & ->). exact D.
Qed.

(** A filter over a function call, with its value. *)
Example ex_line : exists t, matches the_grammar "planNode" (L "Filter[gt($1, 10:i64):boolean? => $0, $1] ") t (L " ")
  /\ node_pairs t (inl (YFilter
       (XCall (mk_fref (L "gt") None None)
          [XRef (L "1"); XLit (CInt (L "10"), Some (CSimple (L "i64") NRequired))]
          (CSimple (L "boolean") NNullable))
       [L "0"; L "1"])).
Proof. apply (proj2 C51_lines _ (Some (_, _))). vm_compute. reflexivity. Qed.

(** Lines that are refused: a comma too many, a root below the top level. *)
Example ex_refused : rejects the_grammar "planNode" (L "Filter[$1, => $0]")
  /\ rejects the_grammar "planNode" (L "Root[a]").
Proof. split; apply (proj2 C51_lines _ None); vm_compute; reflexivity. Qed.
Example ex_root : exists t, matches the_grammar "top_level_relation" (L "Root[a, ""b c""]") t []
  /\ top_pairs t (inl (YRoot [NIdent (L "a"); NQuoted (L """b c""")])).
Proof. apply (proj1 C51_lines _ (Some (_, _))). vm_compute. reflexivity. Qed.

(** Durations are read from the start of the text to its end. *)
Example ex_duration : exists t, matches the_grammar "interval_day_duration" (L "5d 100ns") t []
  /\ duration_pairs t (Some (L "5"), None, Some (L "100", L "ns")).
Proof. apply (C51_durations _ (Some (_, _))). vm_compute. reflexivity. Qed.
Example ex_no_duration : rejects the_grammar "interval_day_duration" (L "3s 5d").
Proof. apply (C51_durations _ None). vm_compute. reflexivity. Qed.
