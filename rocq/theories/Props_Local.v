(** Properties of formatting part by part: errors are marked where they occur, and what
    is written for an expression or a relation does not depend on what is around it. *)
From Coq Require Import String List NArith ZArith Bool Lia Permutation.
From Verif Require Import Base BaseFacts Names SpecNames SimpleExt Out Anchors Types Calendar Literals SpecLiterals Exprs
  ExtArgs Registry Rels Version Plan Structural OutClosed SpecFormat SpecLocal LocalFacts.
Import ListNotations.
Local Open Scope string_scope.
Local Open Scope list_scope.
Local Open Scope nat_scope.

(** ** C59: errors are marked *)
Lemma marks_before s ms t : marks ms t -> marks ms (s ++ t).
Proof. intros [u|a m l b H]; [constructor|]. rewrite app_assoc. now constructor. Qed.
Lemma marks_app ms s ns t : marks ms s -> marks ns t -> marks (ms ++ ns) (s ++ t).
Proof.
  intros H K. induction H as [u|a m l b H IH]; cbn [app]; [now apply marks_before|]. rewrite <- !app_assoc. now constructor.
Qed.

(** Every error that formatting reports is marked in the text by its message, each by a
    mark of its own, except for those of three kinds. *)
Theorem C59_marks : forall (U : Unicode) (F : Floats) reg op p,
  exists shown others, Permutation (o_errs (format reg op p)) (shown ++ others) /\
    marks (map ferr_message shown) (o_text (format reg op p)) /\ Forall unmarked others.
Proof.
  intros U F reg op p. apply (closed_format U F reg op (fun o => exists shown others, Permutation (o_errs o) (shown ++ others) /\
    marks (map ferr_message shown) (o_text o) /\ Forall unmarked others)).
  - intros s. exists [], []. repeat split; constructor.
  - intros a b (s & u & H1 & H2 & H3) (s' & u' & K1 & K2 & K3). exists (s ++ s'), (u ++ u'). cbn [oapp o_errs o_text]. split; [|split].
    + rewrite H1, K1, <- !app_assoc. apply Permutation_app_head. rewrite !app_assoc. apply Permutation_app_tail, Permutation_app_comm.
    + rewrite map_app. now apply marks_app.
    + now apply Forall_app.
  - intros e H. exists [], [e]. split; [apply Permutation_refl|]. split; [constructor|]. constructor; [|constructor].
    destruct e; cbn [pushed] in H; try (destruct H as [->| ->]; constructor). constructor.
  - intros e. exists [e], []. split; [apply Permutation_refl|]. split; [|constructor]. cbn [map ofail o_text token_text].
    rewrite <- (app_nil_r (token_text _)). unfold token_text. rewrite <- !app_assoc. apply (ma_one [] _ [] []). constructor.
  - exists [], []. repeat split; constructor.
  - intros. exists [], []. repeat split; constructor.
Qed.
(** So an error that is not of these kinds is to be seen in the text. *)
Corollary C59_seen : forall (U : Unicode) (F : Floats) reg op p e,
  In e (o_errs (format reg op p)) -> ~ unmarked e ->
  exists a b, o_text (format reg op p) = a ++ L "!{" ++ L (ferr_message e) ++ L "}" ++ b.
Proof.
  intros U F reg op p e H N. destruct (C59_marks U F reg op p) as (s & o & P & M & A). apply (Permutation_in e P) in H.
  apply in_app_or in H as [H|H]; [|rewrite Forall_forall in A; now elim N; apply A].
  apply (in_map ferr_message) in H. revert H. generalize (ferr_message e) as m. induction M as [t|a n l b M IH]; intros m H; [destruct H|].
  destruct H as [<-|H]; [now exists a, b|]. destruct (IH m H) as (c & d & ->). exists (a ++ L "!{" ++ L n ++ L "}" ++ c), d. now rewrite <- !app_assoc.
Qed.

(** ** C59: expressions *)
Lemma ofill_text t o : o_text (ofill t o) = fill (map (option_map o_text) t) (o_text o).
Proof.
  unfold ofill, fill. induction t as [|[p|] t IH]; cbn [map fold_right option_map concat oapp o_text]; [reflexivity| |]; now rewrite IH.
Qed.
Lemma ofill_list {A} (g : out -> list A) t o : g onil = [] -> (forall a b, g (a +++ b) = g a ++ g b) ->
  Permutation (g (ofill t o)) (concat (map (fun p => match p with Some x => g x | None => [] end) t) ++ times (holes (map (option_map o_text) t)) (g o)).
Proof.
  intros E0 E. unfold ofill, holes. induction t as [|[p|] t IH]; cbn [map fold_right option_map filter length concat times app].
  - rewrite E0. constructor.
  - rewrite E, IH, app_assoc. reflexivity.
  - rewrite E, IH. apply Permutation_app_swap_app.
Qed.

(** For given declarations and options there is one text for each expression: wherever
    the expression stands in the relations of a plan, that text is written there, and
    the rest is the same for all expressions; the same for errors and crashes. *)
Theorem C59_expressions : forall (U : Unicode) (F : Floats) reg op v us ds,
  exists (text : pexpr -> list N) (errs : pexpr -> list ferr) (crashes : pexpr -> list string),
  forall C, pctx C -> exists t es cs, forall x,
    let o := format reg op (mk_plan _ v us ds (C x)) in
    o_text o = fill t (text x) /\
    Permutation (o_errs o) (es ++ times (holes t) (errs x)) /\
    Permutation (o_panics o) (cs ++ times (holes t) (crashes x)).
Proof.
  intros U F reg op v us ds. unfold format. cbn [pl_urns pl_decls pl_version pl_rels]. destruct (from_extensions us ds) as [e el].
  exists (fun x => o_text (expr_out op e x)), (fun x => o_errs (expr_out op e x)), (fun x => o_panics (expr_out op e x)). intros C H.
  assert (T : tpl (expr_out op e) (fun x => mk_out [] (map FInsert el) [] []
    +++ txt (lines_text (version_lines (op_indent op) v)) +++ txt (lines_text (exts_lines (op_indent op) e))
    +++ txt (if exts_is_empty e then [] else [c_nl]) +++ relations_out op reg e (C x) +++ txt [c_nl])).
  { repeat (apply tpl_app; [try apply tpl_same; now apply pctx_tpl|]). apply tpl_same. }
  destruct T as (t & T). exists (map (option_map o_text) t), (concat (map (fun p => match p with Some x => o_errs x | None => [] end) t)),
    (concat (map (fun p => match p with Some x => o_panics x | None => [] end) t)).
  intros x. cbn zeta. rewrite T. split; [apply ofill_text|]. split; now apply ofill_list.
Qed.
(** So expressions that are written alike in one place are written alike in all. *)
Corollary C59_alike : forall (U : Unicode) (F : Floats) reg op v us ds C x y,
  let plan_of (r : plan_rel) := mk_plan _ v us ds [r] in
  let filter_of z := PRel (RFilter None None (Some z) None) in
  o_text (format reg op (plan_of (filter_of x))) = o_text (format reg op (plan_of (filter_of y))) ->
  pctx C -> o_text (format reg op (mk_plan _ v us ds (C x))) = o_text (format reg op (mk_plan _ v us ds (C y))).
Proof.
  intros U F reg op v us ds C x y plan_of filter_of H HC. unfold plan_of, filter_of, format in *. cbn [pl_urns pl_decls pl_version pl_rels] in *.
  destruct (from_extensions us ds) as [e el]. apply (pctx_tpl reg op e) in HC as (t & T). rewrite !T. cbn [oapp o_text] in H |- *. rewrite !ofill_text.
  do 4 f_equal. cbn [txt o_text] in H. do 4 apply app_inv_head in H. apply app_inv_tail in H.
  unfold relations_out in H. cbn in H. injection H as H.
  apply app_inv_tail in H. apply app_inv_tail in H.
  match type of H with _ ++ ?a = _ ++ ?b => change b with a in H end. apply app_inv_tail in H. now rewrite H.
Qed.

(** ** C59: relations at the top *)

(** For given declarations and options there is one text for each relation at the top
    of a plan, and these are written one after the other with an empty line between
    them. *)
Theorem C59_relations : forall (U : Unicode) (F : Floats) reg op v us ds,
  exists (top : list N) (text : plan_rel -> list N) (es : list ferr) (errs : plan_rel -> list ferr) (crashes : plan_rel -> list string),
  forall rs, let o := format reg op (mk_plan _ v us ds rs) in
    o_text o = top ++ join [c_nl; c_nl] (map text rs) ++ [c_nl] /\
    Permutation (o_errs o) (es ++ flat_map errs rs) /\
    Permutation (o_panics o) (flat_map crashes rs).
Proof.
  intros U F reg op v us ds. unfold format. cbn [pl_urns pl_decls pl_version pl_rels]. destruct (from_extensions us ds) as [e el].
  exists (lines_text (version_lines (op_indent op) v) ++ lines_text (exts_lines (op_indent op) e) ++ (if exts_is_empty e then [] else [c_nl]) ++ hdr_plan ++ [c_nl]),
    (fun r => o_text (plan_rel_out reg op e r)), (map FInsert el), (fun r => o_errs (plan_rel_out reg op e r)), (fun r => o_panics (plan_rel_out reg op e r)).
  intros rs. cbn [oapp o_text o_errs o_panics txt relations_out app]. rewrite !app_nil_r. split; [|split].
  - rewrite <- !app_assoc. do 5 f_equal. f_equal. induction rs as [|r rs IH]; [reflexivity|]. destruct rs as [|r' rs]; [reflexivity|].
    cbn [map osep join oapp o_text txt] in IH |- *. now rewrite IH.
  - apply Permutation_app_head. induction rs as [|r rs IH]; [constructor|]. destruct rs as [|r' rs]; [cbn; now rewrite app_nil_r|].
    cbn [map osep oapp o_errs txt app flat_map] in IH |- *. now apply Permutation_app_head.
  - induction rs as [|r rs IH]; [constructor|]. destruct rs as [|r' rs]; [cbn; now rewrite app_nil_r|].
    cbn [map osep oapp o_panics txt app flat_map] in IH |- *. now apply Permutation_app_head.
Qed.

(** ** Examples *)
Section Examples.
  #[local] Existing Instance ascii_tables.
  #[local] Existing Instance toy_floats.

  (** A call inside a conditional inside a sort key, and beside it a projection. *)
  Definition lx_read : prel := RRead (mk_read None (Some (mk_named_struct [L "a"] (Some ([TSimple SI64 NRequired 0], 0%N, NRequired)))) None (ReadNamed [L "t"]) None false).
  Definition lx_one : pexpr := ELit (mk_lit (Some (LI64 1)) false 0).
  Definition lx_ctx (x : pexpr) : list plan_rel :=
    [PRel lx_read; PRoot [L "r"] (Some (RSort None (Some (RProject None (Some lx_read) [lx_one] None))
      [mk_sort_field (Some (EIf [(Some lx_one, Some (EFunc 3 [AValue x; AValue lx_one] [] None))] (Some lx_one))) (Some (SkDirection 1))] None))].
  Example lx_pctx : pctx lx_ctx.
  Proof.
    apply (pc_root [PRel lx_read] [L "r"] (fun x => RSort None (Some (RProject None (Some lx_read) [lx_one] None))
      [mk_sort_field (Some (EIf [(Some lx_one, Some (EFunc 3 [AValue x; AValue lx_one] [] None))] (Some lx_one))) (Some (SkDirection 1))] None) []).
    apply (rc_sort None _ [] (fun x => EIf [(Some lx_one, Some (EFunc 3 [AValue x; AValue lx_one] [] None))] (Some lx_one)) _ []).
    apply (ec_then [] (Some lx_one) (fun x => EFunc 3 [AValue x; AValue lx_one] [] None) []).
    apply (ec_arg 3 [] (fun x => x) [AValue lx_one] [] None). constructor.
  Qed.
  Definition lx_text (call : string) : list N := join [c_nl] (map L ["=== Plan"; "Read[t => a:i64]"; ""; "Root[r]";
    "  Sort[(if_then(1 -> !{function}#3(" ++ call ++ ", 1)!{OutputType}, _ -> 1), &AscNullsFirst) => $0, $1]";
    "    Project[$0, 1]"; "      Read[t => a:i64]"; ""])%string.
  Definition lx_format (x : pexpr) : out := format registry_new opts_default (mk_plan _ None [] [] (lx_ctx x)).
  Definition lx_errors : list ferr := [FLookup (MissingAnchor KFunction 3); FPlan FInvalid "OutputType"].
  Example lx_texts : o_text (lx_format lx_one) = lx_text "1" /\ o_errs (lx_format lx_one) = lx_errors /\
    o_text (lx_format ENone) = lx_text "!{RexType}" /\ Permutation (o_errs (lx_format ENone)) (lx_errors ++ [FPlan FInvalid "RexType"]).
  Proof.
    split; [vm_compute; reflexivity|]. split; [vm_compute; reflexivity|]. split; [vm_compute; reflexivity|].
    vm_compute. apply perm_skip, perm_swap.
  Qed.
  (** The two errors are marked. *)
  Example lx_marked : marks (map ferr_message lx_errors) (lx_text "1").
  Proof.
    apply (ma_one (firstn 56 (lx_text "1")) "function" ["OutputType"] (skipn 67 (lx_text "1"))).
    apply (ma_one (firstn 8 (skipn 67 (lx_text "1"))) "OutputType" [] (skipn 88 (lx_text "1"))). constructor.
  Qed.
  (** Errors without a mark: the second URN is refused, the nullability of the type is
      not specified, and the literal has picoseconds. *)
  Definition lx_unmarked : pplan := mk_plan _ None [mk_urn 1 (L "a"); mk_urn 1 (L "b")] []
    [PRel (RFilter None None (Some (ECast 0 (Some (ELit (mk_lit (Some (LPrecisionTimestamp 12 0)) false 0))) (Some (TSimple SI64 NUnspecified 0)))) None)].
  Example lx_unmarked_errors : o_errs (format registry_new opts_default lx_unmarked) =
    [FInsert (DuplicateUrnAnchor 1 (L "a") (L "b")); FPlan FInvalid "LiteralType"; FPlan FInvalid "Nullability"] /\
    o_text (format registry_new opts_default lx_unmarked) = join [c_nl] (map L ["=== Extensions"; "URNs:"; "  @  1: a"; ""; "=== Plan";
      "Filter[('1970-01-01T00:00:00.000000000':precisiontimestamp<12>)::i64"])%string ++ [8265%N] ++ L " => ]" ++ [c_nl].
  Proof. split; vm_compute; reflexivity. Qed.
  (** Deprecated groupings are no such places: [1] beside another [1] is written once
      among the columns, [2] beside [1] is written besides. *)
  Definition lx_two : pexpr := ELit (mk_lit (Some (LI64 2)) false 0).
  Definition lx_group (x : pexpr) : pplan := mk_plan _ None [] []
    [PRel (RAggregate None (Some lx_read) [] [mk_grouping [] [x; lx_one]] [] None)].
  Definition lx_group_text (line : string) : list N := join [c_nl] (map L ["=== Plan"; line; "  Read[t => a:i64]"; ""]).
  Lemma lx_group_texts : o_text (format registry_new opts_default (lx_group lx_one)) = lx_group_text "Aggregate[1, 1 => 1]" /\
    o_text (format registry_new opts_default (lx_group lx_two)) = lx_group_text "Aggregate[2, 1 => 2, 1]".
  Proof. split; vm_compute; reflexivity. Qed.
  Lemma fill_length t a b : length a = length b -> length (fill t a) = length (fill t b).
  Proof. intros E. unfold fill. induction t as [|[x|] t IH]; cbn [map concat]; rewrite ?app_length; auto. Qed.
  Example lx_deprecated : forall t text, length (text lx_one) = length (text lx_two) ->
    ~ forall x, o_text (format registry_new opts_default (lx_group x)) = fill t (text x).
  Proof.
    intros t text E H. pose proof (fill_length t _ _ E) as K. rewrite <- !H, (proj1 lx_group_texts), (proj2 lx_group_texts) in K. discriminate K.
  Qed.
End Examples.
