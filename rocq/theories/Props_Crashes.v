(** Properties of crashes while a text is read: exactly which texts crash. *)
From Coq Require Import String List NArith ZArith Bool Lia.
From Verif Require Import Base Peg Names SimpleExt SimpleExtFacts Types Literals Exprs Registry Rels RelGrammar RelRead Tree SpecTree Structural Plan SpecCrash CrashFacts Props_Crash
  SpecGrammar SpecRels SpecMeaning MeaningExprs MeaningRels SpecText Props_Text SpecCrashes CrashesFacts CrashesRels CrashesTrees CrashesText.
Import ListNotations.
Local Open Scope string_scope.
Local Open Scope list_scope.

(** ** C64: exactly the texts of SpecCrashes.v crash, with the messages given there *)

Theorem C64_texts : forall (F : Floats) reg s m, parse reg s = Panic m <-> text_crashes reg s m.
Proof. intros F reg s m. apply text_crash. Qed.
(** Types and expressions, as they come from a text. *)
Theorem C64_types : forall e, wf_exts e -> forall c m, lower_type e c = Panic m <-> type_crashes e c m.
Proof. intros e He c m. now apply type_crash. Qed.
Theorem C64_expressions : forall (F : Floats) e s c r, wf_exts e -> g_expr s = Some (c, r) ->
  forall m, lower_expr e c = Panic m <-> expr_crashes e c m.
Proof. intros F e s c r He H m. apply expr_crash; auto. eapply yields_expr; eauto. Qed.

(** So a text has exactly one outcome: it means a plan, it crashes with a message, or it
    is refused. *)
Theorem C64_one_outcome : forall (F : Floats) reg s,
  (forall m m', text_crashes reg s m -> text_crashes reg s m' -> m = m')
  /\ (forall p m, text_means reg s p -> ~ text_crashes reg s m)
  /\ ((exists er, parse reg s = Err er) <-> (~ exists p, text_means reg s p) /\ ~ exists m, text_crashes reg s m).
Proof.
  intros F reg s. split; [|split].
  - intros m m' H H'. apply C64_texts in H, H'. congruence.
  - intros p m H H'. apply C64_texts in H'. apply C55_texts in H. congruence.
  - split.
    + intros (er & E). split; intros (x & H); [apply C55_texts in H|apply C64_texts in H]; congruence.
    + intros [H1 H2]. destruct (parse reg s) as [p|er|m] eqn:E; [|eauto|].
      * destruct H1. exists p. now apply C55_texts.
      * destruct H2. exists m. now apply C64_texts.
Qed.

(** What is only an error in a projection is a crash in a filter: there the columns after
    the arrow have not been looked at when the condition fails. *)
Theorem C64_filters : forall (F : Floats) reg e line t r n c refs,
  tree_means reg e t r n -> (forall m, ~ tree_crashes reg e t m) ->
  (~ exists x, expr_means e c x) -> (forall m, ~ expr_crashes e c m) ->
  (forall m, tree_crashes reg e (RNode (YFilter c refs) line [] [t]) m <-> m = unread)
  /\ (forall m, ~ tree_crashes reg e (RNode (YProject [PaExpr c]) line [] [t]) m).
Proof.
  intros F reg e line t r n c refs Ht Hc Hx Hm. assert (Hr : exists r n, tree_means reg e t r n) by eauto. split; intros m.
  - cbn [tree_crashes map app length node_parts concat payload_parts line_parts first_of refused pending expr_part fst snd]. split.
    + intros [H|[_ [[]|[_ [[H|[H _]]|[H _]]]]]]; auto; [now apply Hc in H|now apply Hm in H|contradiction].
    + intros ->. right. split; auto. right. split; [reflexivity|]. left. right. auto.
  - cbn [tree_crashes map app length node_parts concat payload_parts line_parts first_of refused expr_part fst snd].
    intros [H|[_ [[]|[_ [H|[H _]]]]]]; [now apply Hc in H|now apply Hm in H|contradiction].
Qed.

(** ** Examples *)

(** Every text of Props_Crash.v crashes as specified. *)
Example C64_all_places : forall (F : Floats) m t, In (m, t) crash_texts -> text_crashes registry_new (crash_text t) m.
Proof.
  intros F m t H. apply C64_texts. unfold crash_texts in H.
  repeat (destruct H as [H|H]; [injection H as <- <-; vm_compute; reflexivity|]). destruct H.
Qed.
(** The first part without a meaning decides: the function, the index, or the number of
    inputs. *)
Example C64_first_part : forall F : Floats,
  text_crashes registry_new (crash_text ["=== Plan"; "Filter[f():i64 => $2147483648]"; "  Read[t => a:i64]"]) unread
  /\ text_crashes registry_new (crash_text ["=== Plan"; "Filter[$2147483648 => $0]"; "  Read[t => a:u8]"])
       "type exists in parser but not implemented in code"
  /\ (forall m, ~ text_crashes registry_new (crash_text ["=== Plan"; "Filter[$2147483648 => $0]"]) m)
  /\ (forall m, ~ text_crashes registry_new (crash_text ["=== Plan"; "Project[f():i64]"; "  Read[t => a:i64]"]) m).
Proof.
  intros F. split; [|split; [|split]].
  - apply C64_texts. vm_compute. reflexivity.
  - apply C64_texts. vm_compute. reflexivity.
  - intros m H. apply C64_texts in H. vm_compute in H. discriminate.
  - intros m H. apply C64_texts in H. vm_compute in H. discriminate.
Qed.
(** A call of a function that is not declared, and a table to read. *)
Definition undeclared : ecst := match g_expr (L "f():i64") with Some (c, _) => c | None => XRef [] end.
Definition a_table : rnode rline acst := RNode (YRead [NIdent (L "t")] (OImplicit [])) 2 [] [].
Example C64_filters_case : forall F : Floats,
  (exists r n, tree_means registry_new exts_empty a_table r n) /\ (forall m, ~ tree_crashes registry_new exts_empty a_table m)
  /\ (~ exists x, expr_means exts_empty undeclared x) /\ (forall m, ~ expr_crashes exts_empty undeclared m).
Proof.
  intros F. assert (W : wf_exts exts_empty) by apply wf_empty. split; [|split; [|split]].
  - do 2 eexists. apply tree_iff; auto. vm_compute. reflexivity.
  - intros m H. apply tree_crash in H; auto; [vm_compute in H; discriminate|]. cbn. repeat (split || constructor).
  - intros (x & H). apply expr_iff in H; auto. vm_compute in H. discriminate.
  - intros m H. apply (C64_expressions F exts_empty (L "f():i64") undeclared [] W eq_refl) in H. vm_compute in H. discriminate.
Qed.
