(** C54: what the readers make of the parts of a plan is what the parts mean. *)
From Coq Require Import String List NArith ZArith Bool Lia.
From Verif Require Import Base BaseFacts Peg Names SpecNames SimpleExt SimpleExtFacts Out Anchors Types Lines Calendar
  SpecLiterals Literals Exprs ExtArgs Registry SpecRegistry Rels RelGrammar Tree Structural RelRead Plan
  SpecRels SpecAggregate SpecMeaning MeaningFacts MeaningTimes MeaningExprs MeaningRels Props_Ext Props_Registry Props_Parse.
Import ListNotations.
Local Open Scope string_scope.
Local Open Scope list_scope.
Local Open Scope nat_scope.

(** Types, literals, expressions, and the arguments and columns of extensions: a
    reader succeeds with a message exactly if the form means that message. *)
Theorem C54_types : forall e, loaded e -> forall c t, lower_type e c = Ok t <-> type_means e c t.
Proof. intros e H. apply type_iff. now apply loaded_wf. Qed.
Theorem C54_literals : forall (F : Floats) e, loaded e -> forall c l, lower_literal e c = Ok l <-> literal_means e c l.
Proof. intros F e H c l. apply literal_iff. now apply loaded_wf. Qed.
Theorem C54_expressions : forall (F : Floats) e, loaded e -> forall c x, lower_expr e c = Ok x <-> expr_means e c x.
Proof. intros F e H. apply expr_iff. now apply loaded_wf. Qed.
Theorem C54_arguments : forall (F : Floats) e, loaded e -> forall c xcs a, lower_invocation e c xcs = Ok a <->
  exists cols, Forall2 (xcolumn_means e) xcs cols /\ arguments_mean e c cols a.
Proof. intros F e H. apply invocation_iff. now apply loaded_wf. Qed.

(** Lines over their inputs, trees of lines with their addenda, and the trees of a
    plan. *)
Theorem C54_lines : forall (F : Floats) e, loaded e -> forall y ins adv r n,
  lower_rel e y ins adv = Ok (r, n) <-> line_means e y ins adv r n.
Proof. intros F e H. apply line_iff. now apply loaded_wf. Qed.
Theorem C54_trees : forall (F : Floats) reg e, loaded e -> forall t r n,
  build_rel reg e t = Ok (r, n) <-> tree_means reg e t r n.
Proof. intros F reg e H. apply tree_iff. now apply loaded_wf. Qed.
Theorem C54_plan_trees : forall (F : Floats) reg e, loaded e -> forall t p,
  build_plan_rel reg e t = Ok p <-> plan_tree_means reg e t p.
Proof. intros F reg e H. apply plan_tree_iff. now apply loaded_wf. Qed.

(** No tree means two relations, and none has two widths. *)
Theorem C54_one_meaning : forall (F : Floats) reg e, loaded e -> forall t,
  (forall p p', plan_tree_means reg e t p -> plan_tree_means reg e t p' -> p = p') /\
  (forall r n r' n', tree_means reg e t r n -> tree_means reg e t r' n' -> r = r' /\ n = n').
Proof.
  intros F reg e H t. split.
  - intros p p' H1 H2. apply C54_plan_trees in H1, H2; auto. congruence.
  - intros r n r' n' H1 H2. apply C54_trees in H1, H2; auto. split; congruence.
Qed.

(** What counts as white space. *)
Theorem C54_white_space : forall c, is_ws c = true <-> In c white_space.
Proof. apply white_space_iff. Qed.

(** ** Examples *)

Section Examples.
  #[local] Existing Instance toy_floats.

  Definition me_exts : exts := fst (from_extensions [mk_urn 1 (L "urn:a")]
    [Some (mk_decl KFunction 1 10 (L "gt:any_any")); Some (mk_decl KFunction 1 11 (L "count"))]).
  Lemma me_loaded : loaded me_exts. Proof. eexists _, _. reflexivity. Qed.
  Definition me_name (s : string) : nm := NIdent (L s).
  Definition me_i64 : tcst := CSimple (L "i64") NRequired.
  Definition me_read : rnode rline acst :=
    RNode (YRead [me_name "t"] (OImplicit [(me_name "a", me_i64); (me_name "b", me_i64)])) 5 [] [].
  (** [gt($1, 10):boolean], and the same with a base name that fits nothing. *)
  Definition me_gt (f : string) : ecst :=
    XCall (mk_fref (L f) None None) [XRef (L "1"); XLit (CInt (L "10"), None)] (CSimple (L "boolean") NRequired).
  Definition me_gt_message : pexpr :=
    EFunc 10 [AValue (column 1); AValue (ELit (mk_lit (Some (LI64 10)) false 0))] [] (Some (TSimple SBool NRequired 0)).
  (** By the rules of meaning, not by running the reader. *)
  Example ex_call_means : expr_means me_exts (me_gt "gt") me_gt_message.
  Proof.
    apply (em_call me_exts _ _ [column 1; ELit (mk_lit (Some (LI64 10)) false 0)] _ (TSimple SBool NRequired 0)).
    - exists None, None. split; [constructor|]. split; [constructor|].
      eapply fm_only with (u := 1%N) (n := L "gt:any_any"); [reflexivity| |].
      + right. split; [vm_compute; intuition discriminate|]. right. exists (L "any_any"). split; [reflexivity|]. vm_compute. intuition discriminate.
      + intros a u n Hd Hc. apply (decl_get_in _ KFunction a u n (loaded_wf _ me_loaded)) in Hd.
        vm_compute in Hd. destruct Hd as [Hd|[Hd|[]]]; injection Hd as <- <- <-; [reflexivity|]. exfalso.
        destruct Hc as [[_ Hc]|[_ [[Hc _]|(sig & Hc & _)]]]; discriminate.
    - constructor; [|constructor; [|constructor]].
      + constructor. split; [apply (nb_plain (L "1")); split; [discriminate|]; repeat constructor; vm_compute; intuition discriminate|]. vm_compute. intuition discriminate.
      + constructor. constructor. apply vm_int; [|vm_compute; intuition discriminate].
        apply (nb_plain (L "10")). split; [discriminate|]. repeat constructor; vm_compute; intuition discriminate.
    - apply (tm_simple _ "boolean" SBool). cbn. tauto.
  Qed.
  Example ex_call_read : lower_expr me_exts (me_gt "gt") = Ok me_gt_message.
  Proof. apply C54_expressions; [exact me_loaded|exact ex_call_means]. Qed.
  Example ex_call_no_meaning : ~ exists x, expr_means me_exts (me_gt "lt") x.
  Proof. intros (x & H). apply C54_expressions in H; [|exact me_loaded]. vm_compute in H. discriminate. Qed.

  (** [Root[x]] over [Filter[gt($1, 10):boolean => $1]] over a read. *)
  Example ex_tree_means : exists r, plan_tree_means registry_new me_exts
    (RNode (YRoot [me_name "x"]) 3 [] [RNode (YFilter (me_gt "gt") [L "1"]) 4 [] [me_read]]) (PRoot [L "x"] (Some r)) /\
    match r with RFilter (Some (mk_common (Some (EmEmit [1%Z])) false)) (Some (RRead _)) (Some x) None => x = me_gt_message | _ => False end.
  Proof. eexists. split; [apply C54_plan_trees; [exact me_loaded|vm_compute; reflexivity]|vm_compute; reflexivity]. Qed.
  (** A filter over two inputs means nothing, nor does a root below the top. *)
  Example ex_tree_no_meaning : ~ exists p, plan_tree_means registry_new me_exts
    (RNode (YFilter (me_gt "gt") [L "1"]) 4 [] [me_read; me_read]) p.
  Proof. intros (p & H). apply C54_plan_trees in H; [|exact me_loaded]. vm_compute in H. discriminate. Qed.

  (** An extension relation with a quoted name: the handler registered under the
      name without quotes is not found, one registered with the quotes is. *)
  Definition me_ext : rnode rline acst := RNode (YExt XkLeaf (NQuoted (L """Scan""")) ([VLit (CStr (L "'p'"))], []) []) 3 [] [].
  Example ex_raw_name :
    (exists r, plan_tree_means (run_regs [(XtRelation, ex_handler """Scan""" "u/1")]) me_exts me_ext r) /\
    ~ exists r, plan_tree_means (run_regs [(XtRelation, ex_handler "Scan" "u/1")]) me_exts me_ext r.
  Proof.
    split.
    - eexists. apply C54_plan_trees; [exact me_loaded|]. vm_compute. reflexivity.
    - intros (r & H). apply C54_plan_trees in H; [|exact me_loaded]. vm_compute in H. discriminate.
  Qed.

  (** A literal with a type: the text of a date, and its day. *)
  Example ex_date_means : literal_means me_exts (CStr (L "'2000-02-29'"), Some (CSimple (L "date") NRequired))
    (mk_lit (Some (LDate 11016)) false 0).
  Proof. apply C54_literals; [exact me_loaded|]. vm_compute. reflexivity. Qed.
  Example ex_no_date : ~ exists l, literal_means me_exts (CStr (L "'1999-02-29'"), Some (CSimple (L "date") NRequired)) l.
  Proof. intros (l & H). apply C54_literals in H; [|exact me_loaded]. vm_compute in H. discriminate. Qed.
  (** Of two arguments with one name the last counts, in the place of the first. *)
  Example ex_arguments : arguments_mean me_exts
    ([], [(me_name "k", VLit (CInt (L "1"))); (me_name "l", VLit CNull); (me_name "k", VLit (CInt (L "2")))]) []
    (mk_xargs [] [(L "k", XInteger 2); (L "l", XNull)] []).
  Proof. apply (xargs_iff me_exts (loaded_wf _ me_loaded)). vm_compute. reflexivity. Qed.
  (** The ideographic space is white space, the character after it is not. *)
  Example ex_white : In 12288%N white_space /\ ~ In 12289%N white_space.
  Proof. rewrite <- !C54_white_space. split; [reflexivity|discriminate]. Qed.
End Examples.
