(** Properties of expressions: C03. *)
From Coq Require Import String List NArith ZArith Bool Lia.
From Verif Require Import Base BaseFacts Peg PegFacts Names SpecNames NamesFacts Props_Names SimpleExt Out
  Anchors SimpleExtFacts SpecExt AnchorsFacts FromExtFacts Props_Ext Types SpecTypes TypesFacts Props_Types Lines
  Calendar CalendarFacts Literals SpecLiterals LiteralsFacts Props_Literals Exprs SpecExprs ExprsFacts.
Import ListNotations.

(** C03.  What is written for an expression is read back as that expression, and
    exactly the written text is consumed. *)
Theorem C03_expression_round_trip :
  forall (U : Unicode) (F : Floats) op e x rest,
    ascii_sane U -> loaded e -> op_anchors op <> VNever -> op_literal_types op <> VNever ->
    expr_ok e x = true ->
    expr_follow rest = true ->
    exists c, g_expr (o_text (expr_out op e x) ++ rest) = Some (c, rest) /\ lower_expr e c = Ok x.
Proof.
  intros U F op e x rest Hu He Ha Ht Hx Hr.
  destruct (expr_back U F Hu op e (loaded_wf _ He) Ha Ht x Hx) as (_ & c & Hc & G).
  exists c. split; [now apply G|exact Hc].
Qed.
Print Assumptions C03_expression_round_trip.

(** The same for the measures of an aggregate. *)
Theorem C03_measure_round_trip :
  forall (U : Unicode) (F : Floats) op e a rest,
    ascii_sane U -> loaded e -> op_anchors op <> VNever -> op_literal_types op <> VNever ->
    aggfn_ok e a = true ->
    hd_not type_stop rest = true ->
    exists c, g_function_call g_expr (o_text (aggfn_out op e a) ++ rest) = Some (c, rest) /\ lower_measure e c = Ok a.
Proof.
  intros U F op e a rest Hu He Ha Ht Hx Hr.
  destruct (measure_back U F Hu op e (loaded_wf _ He) Ha Ht a Hx) as (_ & c & Hc & G).
  exists c. split; [now apply G|exact Hc].
Qed.
Print Assumptions C03_measure_round_trip.

(** Different expressions have different texts, also across output options. *)
Theorem C03_expressions_distinct :
  forall (U : Unicode) (F : Floats) op op' e x y,
    ascii_sane U -> loaded e -> op_anchors op <> VNever -> op_literal_types op <> VNever ->
    op_anchors op' <> VNever -> op_literal_types op' <> VNever ->
    expr_ok e x = true -> expr_ok e y = true ->
    o_text (expr_out op e x) = o_text (expr_out op' e y) -> x = y.
Proof.
  intros U F op op' e x y Hu He Ha Ht Ha' Ht' Hx Hy E.
  destruct (C03_expression_round_trip U F op e x [] Hu He Ha Ht Hx eq_refl) as (c & G & Hc).
  destruct (C03_expression_round_trip U F op' e y [] Hu He Ha' Ht' Hy eq_refl) as (c' & G' & Hc').
  rewrite E in G. rewrite G in G'. assert (c = c') by congruence. subst. congruence.
Qed.
Print Assumptions C03_expressions_distinct.

(** Nothing is reported for such an expression, no placeholder is written and
    nothing panics, when its types state their nullability and its intervals are
    usual. *)
Theorem C03_expression_quiet :
  forall (U : Unicode) (F : Floats) op e x,
    ascii_sane U -> loaded e -> expr_ok e x = true -> expr_clean x = true ->
    o_errs (expr_out op e x) = [] /\ o_toks (expr_out op e x) = [] /\ o_panics (expr_out op e x) = [].
Proof. intros U F op e x Hu He Hx Hc. exact (expr_quiet U F Hu op e (loaded_wf _ He) x Hx Hc). Qed.
Print Assumptions C03_expression_quiet.

(** ** Where it fails *)

#[local] Existing Instance ascii_tables.
#[local] Existing Instance toy_floats.

Definition ex_call (r : N) (args : list parg) : pexpr := EFunc r args [] (Some (TSimple SI64 NRequired 0)).
Definition ex_field (i : Z) : pexpr := ESel (field_reference i).

(** A function option is written but never read: the call is refused. *)
Theorem C03_options_refuted :
  exists x, x = EFunc 13 [AValue (ex_field 0)] [mk_fnopt (L "overflow") [L "ERROR"]] (Some (TSimple SI64 NRequired 0)) /\
    quiet (expr_out opts_default ex_exts x) /\ g_expr (o_text (expr_out opts_default ex_exts x)) = None.
Proof. eexists. split; [reflexivity|]. split; [now repeat split|]. vm_compute. reflexivity. Qed.
Print Assumptions C03_options_refuted.

(** An enum argument is written but never read. *)
Theorem C03_enum_argument_refuted :
  exists x, x = ex_call 13 [AEnum (L "YEAR")] /\
    quiet (expr_out opts_default ex_exts x) /\ g_expr (o_text (expr_out opts_default ex_exts x)) = None.
Proof. eexists. split; [reflexivity|]. split; [now repeat split|]. vm_compute. reflexivity. Qed.
Print Assumptions C03_enum_argument_refuted.

(** A conditional without conditions is written as text that is not a conditional. *)
Theorem C03_empty_if_refuted :
  exists x, x = EIf [] (Some (ex_field 0)) /\
    quiet (expr_out opts_default ex_exts x) /\ g_expr (o_text (expr_out opts_default ex_exts x)) = None.
Proof. eexists. split; [reflexivity|]. split; [now repeat split|]. vm_compute. reflexivity. Qed.
Print Assumptions C03_empty_if_refuted.

(** The path below a column is dropped without a report. *)
Theorem C03_nested_field_refuted :
  exists x c y, x = ESel (mk_fieldref (RefDirect (SegField 2 (Some (SegField 5 None)))) RootRef) /\
    quiet (expr_out opts_default ex_exts x) /\
    g_expr (o_text (expr_out opts_default ex_exts x)) = Some (c, []) /\ lower_expr ex_exts c = Ok y /\ x <> y.
Proof.
  eexists _, _, _. split; [reflexivity|]. split; [now repeat split|]. split; [vm_compute; reflexivity|].
  split; [vm_compute; reflexivity|]. discriminate.
Qed.
Print Assumptions C03_nested_field_refuted.

(** ** Examples *)

Definition ex_expr : pexpr :=
  EIf [(Some (ex_call 10 [AValue (ex_field 0); AValue (ELit (mk_lit (Some (LI64 (-3))) false 0))]),
        Some (ECast 1 (Some (ex_field 4)) (Some (TSimple SString NNullable 0))));
       (Some (ELit (mk_lit (Some (LBool true)) true 0)), Some (ex_call 13 []))]
      (Some (ECast 2 (Some (EIf [(Some (ex_field 1), Some (ex_call 11 [AValue (ex_call 12 [AValue (ex_field 7)])]))]
                               (Some (ELit (mk_lit (Some (LString (L "a(b)"))) false 0)))))
               (Some (TList (Some (TUser 10 [] NNullable 0)) NRequired 0)))).
Example ex_expr_ok : expr_ok ex_exts ex_expr = true /\ expr_clean ex_expr = true.
Proof. vm_compute. auto. Qed.
Example ex_expr_text : o_text (expr_out opts_default ex_exts ex_expr) =
  L "if_then(add:i64_i64#10($0, -3):i64 -> ($4)::?string?, true:boolean? -> count():i64, _ -> (if_then($1 -> add:i64_i64#11(add#12($7):i64):i64, _ -> 'a(b)'))::!list<json?>)".
Proof. vm_compute. reflexivity. Qed.
Example ex_expr_back :
  match g_expr (o_text (expr_out opts_default ex_exts ex_expr) ++ L ", x") with
  | Some (c, r) => r = L ", x" /\ lower_expr ex_exts c = Ok ex_expr
  | None => False
  end.
Proof. vm_compute. auto. Qed.

(** A function whose name is the keyword of a conditional. *)
Definition if_exts : exts := fst (from_extensions ex_us [Some (mk_decl KFunction 1 1 (L "if_then"))]).
Example ex_if_function :
  let x := ex_call 1 [AValue (ex_field 0); AValue (ex_field 1)] in
  expr_ok if_exts x = true /\ o_text (expr_out opts_default if_exts x) = L "if_then($0, $1):i64".
Proof. vm_compute. auto. Qed.
