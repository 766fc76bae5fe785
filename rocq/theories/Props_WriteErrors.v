(** C67: exactly which errors are reported when a plan is formatted. *)
From Coq Require Import String List NArith ZArith Bool Lia.
From Verif Require Import Base Names SpecNames SimpleExt Out Types Literals SpecLiterals Exprs ExtArgs Registry SpecRegistry Rels
  SpecRels SpecAddenda Plan Structural SpecLits SpecVisible SpecNotation NotationLits SpecFormat SpecWriteCrash
  SpecWriteErrors WriteErrors WriteErrorsRels SpecLayout Props_Layout Props_WriteCrash.
Import ListNotations.
Local Open Scope string_scope.
Local Open Scope list_scope.
Local Open Scope nat_scope.

(** The errors of formatting a plan are those of its declarations and of what is
    written of its relations. *)
Theorem C67_errors : forall (U : Unicode) (F : Floats) reg op p er,
  In er (o_errs (format reg op p)) <-> plan_error reg op p er.
Proof. exact err_format. Qed.

(** So a plan is formatted without an error exactly when it has none. *)
Theorem C67_no_errors : forall (U : Unicode) (F : Floats) reg op p,
  o_errs (format reg op p) = [] <-> forall er, ~ plan_error reg op p er.
Proof.
  intros U F reg op p. split.
  - intros H s K. apply (C67_errors U F) in K. rewrite H in K. destruct K.
  - intros H. destruct (o_errs (format reg op p)) as [|s l] eqn:E; [reflexivity|exfalso].
    apply (H s), (C67_errors U F). rewrite E. now left.
Qed.

(** Nothing else keeps a plan from being shown: it has a text (C57) exactly when it has
    no errors and no crash waits in it (C66). *)
Theorem C67_shown : forall (U : Unicode) (F : Floats) reg op p,
  (exists s, plan_text reg op p s) <-> (forall er, ~ plan_error reg op p er) /\ (forall s, ~ plan_crashes reg op s p).
Proof.
  intros U F reg op p. rewrite <- (C67_no_errors U F), <- (C66_no_crash U F). split.
  - intros (s & H). apply C57_plans in H as (H1 & H2 & _). auto.
  - intros [H1 H2]. exists (o_text (format reg op p)). apply C57_plans. repeat split; auto.
Qed.

Section Options.
  Context {U : Unicode} {F : Floats}.
  Variables (e : exts) (reg : registry) (op op' : options).
  Lemma value_text_opts v s : value_text op v s -> exists s', value_text op' v s'.
  Proof.
    intros H. destruct H; try (eexists; econstructor; eassumption).
    all: destruct (op_binaries op') eqn:B;
      [exists (L "0x" ++ concat (map hex2 b)); apply vt_bytes; [exact B|now apply bytes_iff]|exists (L "{binary}"); now apply vt_binary].
  Qed.
End Options.
Scheme expr_error_mut := Induction for expr_error Sort Prop
  with part_error_mut := Induction for part_error Sort Prop
  with call_error_mut := Induction for call_error Sort Prop.
Section Options.
  Context {U : Unicode} {F : Floats}.
  Variables (e : exts) (reg : registry) (op op' : options).
  Lemma literal_error_opts er l : literal_error op e er l -> literal_error op' e er l.
  Proof.
    unfold literal_error. destruct (l_type l) as [[]|]; try exact (fun H => H).
    all: intros [E H]; (split; [exact E|]); intros (w & K); apply H; exact (value_text_opts op' op _ _ K).
  Qed.
  Lemma call_error_opts er r a t : call_error op e er r a t -> call_error op' e er r a t.
  Proof.
    revert r a t. apply (call_error_mut U F op e er (fun x _ => expr_error op' e er x) (fun x _ => part_error op' e er x)
      (fun r a t _ => call_error op' e er r a t)); intros;
      [apply xe_literal, literal_error_opts|apply xe_reference|apply xe_call|eapply xe_if|apply xe_cast|apply xe_cast_type|
       apply xe_cast_behavior|apply xe_other|apply xe_none|apply pe_some|apply pe_none|apply ce_function|eapply ce_value|eapply ce_type|
       apply ce_missing|apply ce_output]; eauto.
  Qed.
  Lemma expr_error_opts er x : expr_error op e er x -> expr_error op' e er x.
  Proof.
    revert x. apply (expr_error_mut U F op e er (fun x _ => expr_error op' e er x) (fun x _ => part_error op' e er x)
      (fun r a t _ => call_error op' e er r a t)); intros;
      [apply xe_literal, literal_error_opts|apply xe_reference|apply xe_call|eapply xe_if|apply xe_cast|apply xe_cast_type|
       apply xe_cast_behavior|apply xe_other|apply xe_none|apply pe_some|apply pe_none|apply ce_function|eapply ce_value|eapply ce_type|
       apply ce_missing|apply ce_output]; eauto.
  Qed.
  Lemma value_error_opts er v : value_error op e er v -> value_error op' e er v.
  Proof.
    intros H. induction H as [s E|x H|vs v I H IH]; [now apply ve_error|apply ve_expr; now apply expr_error_opts|eapply ve_tuple; eauto].
  Qed.
  Lemma args_error_opts er a : args_error op e er a -> args_error op' e er a.
  Proof.
    intros [(v & Hv & H)|(c & Hc & H)]; [left; exists v; split; [exact Hv|now apply value_error_opts]|right; exists c; split; [exact Hc|]].
    destruct c; cbn [column_error] in *; [exact H|now apply expr_error_opts].
  Qed.
  Lemma addendum_error_opts er t d : addendum_error op e reg er t d -> addendum_error op' e reg er t d.
  Proof.
    intros []; [now apply ae_absent|now apply ae_undecodable|eapply ae_columns; eauto|eapply ae_args; eauto using args_error_opts].
  Qed.
  Lemma extension_error_opts er d ws : extension_error op e reg er d ws -> extension_error op' e reg er d ws.
  Proof. intros []; [now apply ee_absent|now apply ee_undecodable|eapply ee_args; eauto using args_error_opts]. Qed.
  Hypothesis Same : op_show_emit op = op_show_emit op'.
  Lemma column_opts r j : column_written op r j -> column_written op' r j.
  Proof. unfold column_written. now rewrite Same. Qed.
  Lemma expr_written_opts x r : expr_written reg op x r -> expr_written reg op' x r.
  Proof.
    intros W. destruct W;
      [eapply ew_row|eapply ew_rows|apply ew_filter|eapply ew_project|eapply ew_old|eapply ew_group|eapply ew_key|
      eapply ew_measure|eapply ew_sort|apply ew_limit|apply ew_offset|apply ew_join|apply ew_post]; eauto using column_opts.
  Qed.
  Lemma rel_error_opts er r : rel_error op e reg er r -> rel_error op' e reg er r.
  Proof.
    intros H. assert (N : forall r j, is_named r \/ column_written op r j -> is_named r \/ column_written op' r j)
      by (intros ? ? [?|?]; auto using column_opts).
    destruct H; [eapply re_expr; eauto using expr_written_opts, expr_error_opts|eapply re_measure; eauto using column_opts, call_error_opts|
      eapply re_emit; eauto; now rewrite <- Same|apply re_no_schema; auto|eapply re_field; eauto|apply re_read; auto|apply re_filter|eapply re_group|
      eapply re_sort|eapply re_direction|apply re_join|apply re_join_type|apply re_set|apply re_other|apply re_none]; eauto.
  Qed.
  Lemma write_error_opts er r : write_error op e reg er r -> write_error op' e reg er r.
  Proof.
    intros H. induction H as [r H|r H|i r I H IH]; [apply we_rel; now apply rel_error_opts|apply we_message|eapply we_input; eauto].
    destruct H; [eapply me_enhancement|eapply me_optimization|eapply me_table|apply me_leaf|apply me_single|apply me_multi];
      eauto using addendum_error_opts, extension_error_opts.
  Qed.
End Options.

(** Of the options only whether chosen columns are shown matters. *)
Theorem C67_options : forall (U : Unicode) (F : Floats) reg op op' p er,
  op_show_emit op = op_show_emit op' -> (In er (o_errs (format reg op p)) <-> In er (o_errs (format reg op' p))).
Proof.
  intros U F reg op op' p er E. rewrite !C67_errors. unfold plan_error. destruct (from_extensions (pl_urns _ p) (pl_decls _ p)) as [x l].
  split; (intros [H|[H|(r & Hr & H)]]; [now left|right; now left|right; right; exists r; split; [exact Hr|]]).
  - exact (write_error_opts x reg op op' E er r H).
  - exact (write_error_opts x reg op' op (eq_sym E) er r H).
Qed.

(** Showing the choice of columns instead of carrying it out hides only the choices of
    columns that do not exist: every other error is reported then too. *)
Theorem C67_show_emit : forall (U : Unicode) (F : Floats) reg op op' p er,
  op_show_emit op' = true -> er <> FPlan FInvalid "Emitted" ->
  In er (o_errs (format reg op p)) -> In er (o_errs (format reg op' p)).
Proof.
  intros U F reg op op' p er Show NE. rewrite !C67_errors. unfold plan_error.
  destruct (from_extensions (pl_urns _ p) (pl_decls _ p)) as [e l].
  intros [H|[H|(r & Hr & H)]]; [now left|right; now left|right; right; exists r; split; [exact Hr|]]. clear Hr.
  assert (C : forall r j, column_written op' r j) by (intros; now left).
  assert (W : forall x r, expr_written reg op x r -> expr_written reg op' x r).
  { intros x r' W. destruct W;
      [eapply ew_row|eapply ew_rows|apply ew_filter|eapply ew_project|eapply ew_old|eapply ew_group|eapply ew_key|
      eapply ew_measure|eapply ew_sort|apply ew_limit|apply ew_offset|apply ew_join|apply ew_post]; eauto. }
  induction H as [r H|r H|i r I H IH]; [apply we_rel|apply we_message|eapply we_input; eauto].
  - destruct H; [eapply re_expr; eauto using expr_error_opts|eapply re_measure; eauto using call_error_opts|
      contradiction|apply re_no_schema; auto|eapply re_field; eauto|apply re_read; auto|apply re_filter|eapply re_group|
      eapply re_sort|eapply re_direction|apply re_join|apply re_join_type|apply re_set|apply re_other|apply re_none]; eauto.
  - destruct H; [eapply me_enhancement|eapply me_optimization|eapply me_table|apply me_leaf|apply me_single|apply me_multi];
      eauto using addendum_error_opts, extension_error_opts.
Qed.

Section Lookups.
  Context {U : Unicode} {F : Floats}.
  Variables (e : exts) (reg : registry) (op : options) (m : missing_ref).
  Let er := FLookup m.
  Definition truly_missing : Prop := exists k a, decl_get e k a = None /\ m = MissingAnchor k a.
  Lemma lookup_undeclared k a : undeclared e k a er -> truly_missing.
  Proof. intros [H E]. injection E as E. exists k, a. auto. Qed.
  Lemma lookup_type t : type_error e er t -> truly_missing.
  Proof. intros H. induction H; try discriminate; eauto using lookup_undeclared. Qed.
  Lemma lookup_type_in s t : type_error_in e s er t -> truly_missing.
  Proof. destruct t; cbn [type_error_in]; [apply lookup_type|discriminate]. Qed.
  Lemma lookup_literal l : literal_error op e er l -> truly_missing.
  Proof.
    unfold literal_error. destruct (l_type l) as [[]|]; try discriminate; try (intros [[=] _]); try contradiction. apply lookup_type.
  Qed.
  Lemma lookup_reference f : reference_error er f -> truly_missing.
  Proof. unfold reference_error. destruct (fr_root f), (fr_ref f) as [[]| |]; try discriminate; contradiction. Qed.
  Lemma lookup_expr x : expr_error op e er x -> truly_missing.
  Proof.
    revert x. apply (expr_error_mut U F op e er (fun _ _ => truly_missing) (fun _ _ => truly_missing) (fun _ _ _ _ => truly_missing)); intros;
      try discriminate; eauto using lookup_literal, lookup_reference, lookup_type, lookup_type_in, lookup_undeclared.
  Qed.
  Lemma lookup_call r a t : call_error op e er r a t -> truly_missing.
  Proof.
    intros []; try discriminate; eauto using lookup_expr, lookup_type, lookup_type_in, lookup_undeclared.
  Qed.
  Lemma lookup_value v : value_error op e er v -> truly_missing.
  Proof. intros H. induction H; try discriminate; eauto using lookup_expr. Qed.
  Lemma lookup_args a : args_error op e er a -> truly_missing.
  Proof.
    intros [(v & _ & H)|(c & _ & H)]; [eapply lookup_value; eauto|]. destruct c; [eapply lookup_type|eapply lookup_expr]; exact H.
  Qed.
  Lemma lookup_addendum t d : addendum_error op e reg er t d -> truly_missing.
  Proof. intros []; try discriminate; eauto using lookup_args. Qed.
  Lemma lookup_extension d ws : extension_error op e reg er d ws -> truly_missing.
  Proof. intros []; try discriminate; eauto using lookup_args. Qed.
  Lemma lookup_number l z a b : number_error er l z a b -> truly_missing.
  Proof. intros [_ [[_ [=]]|[_ [=]]]]. Qed.
  Lemma lookup_rel r : rel_error op e reg er r -> truly_missing.
  Proof.
    intros []; try discriminate; eauto using lookup_expr, lookup_call, lookup_number.
    match goal with K : _ \/ type_error_in _ _ _ _ |- _ => destruct K as [[_ [=]]|K]; eapply lookup_type_in; exact K end.
  Qed.
  Lemma lookup_write r : write_error op e reg er r -> truly_missing.
  Proof.
    intros H. induction H as [r H|r H|i r I H IH]; [eapply lookup_rel; eauto|destruct H; eauto using lookup_addendum, lookup_extension|exact IH].
  Qed.
End Lookups.

(** What is reported as not declared is not declared: each such error names the kind
    and anchor of something that is absent from the declarations that were loaded. *)
Theorem C67_lookups : forall (U : Unicode) (F : Floats) reg op p m,
  In (FLookup m) (o_errs (format reg op p)) ->
  exists k a, m = MissingAnchor k a /\ decl_get (fst (from_extensions (pl_urns _ p) (pl_decls _ p))) k a = None.
Proof.
  intros U F reg op p m H. apply C67_errors in H. unfold plan_error in H. destruct (from_extensions (pl_urns _ p) (pl_decls _ p)) as [x l].
  destruct H as [(y & _ & [=])|[[_ [=]]|(r & _ & H)]]. apply lookup_write in H as (k & a & H & E). exists k, a. auto.
Qed.

Section Declared.
  Context {U : Unicode} {F : Floats}.
  Variables (e e' : exts) (reg : registry) (op : options) (er : ferr).
  Hypothesis Keep : forall k a, undeclared e k a er -> undeclared e' k a er.
  Lemma type_error_decls t : type_error e er t -> type_error e' er t.
  Proof.
    intros H. induction H; [eapply te_nullability|eapply te_variation|eapply te_user|apply te_missing|eapply te_part|apply te_func|apply te_alias|
      apply te_none]; eauto.
  Qed.
  Lemma type_error_in_decls s t : type_error_in e s er t -> type_error_in e' s er t.
  Proof. destruct t; cbn [type_error_in]; [apply type_error_decls|exact (fun H => H)]. Qed.
  Lemma literal_error_decls l : literal_error op e er l -> literal_error op e' er l.
  Proof. unfold literal_error. destruct (l_type l) as [[]|]; try exact (fun H => H). apply type_error_decls. Qed.
  Lemma call_error_decls r a t : call_error op e er r a t -> call_error op e' er r a t.
  Proof.
    revert r a t. apply (call_error_mut U F op e er (fun x _ => expr_error op e' er x) (fun x _ => part_error op e' er x)
      (fun r a t _ => call_error op e' er r a t)); intros;
      [apply xe_literal, literal_error_decls|apply xe_reference|apply xe_call|eapply xe_if|apply xe_cast|apply xe_cast_type|
       apply xe_cast_behavior|apply xe_other|apply xe_none|apply pe_some|apply pe_none|apply ce_function|eapply ce_value|eapply ce_type|
       apply ce_missing|apply ce_output]; eauto using type_error_decls, type_error_in_decls.
  Qed.
  Lemma expr_error_decls x : expr_error op e er x -> expr_error op e' er x.
  Proof.
    revert x. apply (expr_error_mut U F op e er (fun x _ => expr_error op e' er x) (fun x _ => part_error op e' er x)
      (fun r a t _ => call_error op e' er r a t)); intros;
      [apply xe_literal, literal_error_decls|apply xe_reference|apply xe_call|eapply xe_if|apply xe_cast|apply xe_cast_type|
       apply xe_cast_behavior|apply xe_other|apply xe_none|apply pe_some|apply pe_none|apply ce_function|eapply ce_value|eapply ce_type|
       apply ce_missing|apply ce_output]; eauto using type_error_decls, type_error_in_decls.
  Qed.
  Lemma value_error_decls v : value_error op e er v -> value_error op e' er v.
  Proof.
    intros H. induction H as [s E|x H|vs v I H IH]; [now apply ve_error|apply ve_expr; now apply expr_error_decls|eapply ve_tuple; eauto].
  Qed.
  Lemma args_error_decls a : args_error op e er a -> args_error op e' er a.
  Proof.
    intros [(v & Hv & H)|(c & Hc & H)]; [left; exists v; split; [exact Hv|now apply value_error_decls]|right; exists c; split; [exact Hc|]].
    destruct c; cbn [column_error] in *; [now apply type_error_decls|now apply expr_error_decls].
  Qed.
  Lemma addendum_error_decls t d : addendum_error op e reg er t d -> addendum_error op e' reg er t d.
  Proof.
    intros []; [now apply ae_absent|now apply ae_undecodable|eapply ae_columns; eauto|eapply ae_args; eauto using args_error_decls].
  Qed.
  Lemma extension_error_decls d ws : extension_error op e reg er d ws -> extension_error op e' reg er d ws.
  Proof. intros []; [now apply ee_absent|now apply ee_undecodable|eapply ee_args; eauto using args_error_decls]. Qed.
  Lemma rel_error_decls r : rel_error op e reg er r -> rel_error op e' reg er r.
  Proof.
    intros H. destruct H; [eapply re_expr; eauto using expr_error_decls|eapply re_measure; eauto using call_error_decls|
      eapply re_emit; eauto|apply re_no_schema; auto|eapply re_field; eauto|apply re_read; auto|apply re_filter|eapply re_group|
      eapply re_sort|eapply re_direction|apply re_join|apply re_join_type|apply re_set|apply re_other|apply re_none]; eauto.
    match goal with K : _ \/ type_error_in _ _ _ _ |- _ => destruct K as [K|K]; [now left|right; now apply type_error_in_decls] end.
  Qed.
  Lemma write_error_decls r : write_error op e reg er r -> write_error op e' reg er r.
  Proof.
    intros H. induction H as [r H|r H|i r I H IH]; [apply we_rel; now apply rel_error_decls|apply we_message|eapply we_input; eauto].
    destruct H; [eapply me_enhancement|eapply me_optimization|eapply me_table|apply me_leaf|apply me_single|apply me_multi];
      eauto using addendum_error_decls, extension_error_decls.
  Qed.
End Declared.

(** The declarations that a plan's own lists give. *)
Definition loaded (p : pplan) : exts := fst (from_extensions (pl_urns _ p) (pl_decls _ p)).
Lemma plan_error_decls {U : Unicode} {F : Floats} reg op p p' er :
  pl_rels _ p = pl_rels _ p' -> (forall x, er <> FInsert x) ->
  (forall k a, undeclared (loaded p) k a er -> undeclared (loaded p') k a er) ->
  plan_error reg op p er -> plan_error reg op p' er.
Proof.
  unfold plan_error, loaded. destruct (from_extensions (pl_urns _ p) (pl_decls _ p)) as [x l],
    (from_extensions (pl_urns _ p') (pl_decls _ p')) as [x' l']. cbn [fst]. intros R I K [(y & _ & E)|[H|(r & Hr & H)]].
  - destruct (I y E).
  - right. left. now rewrite <- R.
  - right. right. exists r. rewrite <- R. split; [exact Hr|]. exact (write_error_decls x x' reg op er K r H).
Qed.

(** Between plans that differ in their declarations only, the errors of relations are
    the same, apart from those about something that is not declared. *)
Theorem C67_declarations : forall (U : Unicode) (F : Floats) reg op p p' er,
  pl_rels _ p = pl_rels _ p' -> (forall x, er <> FInsert x) -> (forall m, er <> FLookup m) ->
  (In er (o_errs (format reg op p)) <-> In er (o_errs (format reg op p'))).
Proof.
  intros U F reg op p p' er R I L. rewrite !C67_errors. split; apply plan_error_decls; auto.
  all: intros k a [_ E]; destruct (L _ E).
Qed.
(** And such an error goes away exactly when that very thing is declared: whatever
    else is declared, it is reported for both plans or is declared in one of them. *)
Theorem C67_declared : forall (U : Unicode) (F : Floats) reg op p p' k a,
  pl_rels _ p = pl_rels _ p' -> In (FLookup (MissingAnchor k a)) (o_errs (format reg op p)) ->
  (In (FLookup (MissingAnchor k a)) (o_errs (format reg op p')) <-> decl_get (loaded p') k a = None).
Proof.
  intros U F reg op p p' k a R H. split; intros K.
  - apply C67_lookups in K as (k' & a' & [= -> ->] & K). exact K.
  - apply C67_errors in H. apply C67_errors. revert H. apply plan_error_decls; [exact R|discriminate|].
    intros k' a' [_ [= <- <-]]. split; [exact K|reflexivity].
Qed.

(** ** Examples *)
Section Examples.
  #[local] Existing Instance ascii_tables.
  #[local] Existing Instance toy_floats.

  Definition er_i64 : ptype := TSimple SI64 NRequired 0.
  Definition er_read : prel :=
    RRead (mk_read None (Some (mk_named_struct [L "a"] (Some ([er_i64], 0%N, NRequired)))) None (ReadNamed [L "t"]) None false).
  Definition er_plan (r : prel) : pplan := mk_plan _ None [] [] [PRoot [L "a"] (Some r)].
  Definition er_call (a : N) : pexpr := EFunc a [AValue (ESel (mk_fieldref (RefDirect (SegField 0 None)) RootRef)); ANone] [] (Some er_i64).
  Definition er_project (m : list Z) : prel :=
    RProject (Some (mk_common (Some (EmEmit m)) false)) (Some er_read) [ENone; er_call 7] None.
  Definition er_shown : options := mk_options VRequired VRequired true false (L "  ") 3.

  (** Columns that are not put out have no errors, and a chosen column that does not
      exist is one, unless the choice is shown. *)
  Example er_hidden :
    o_errs (format registry_new opts_default (er_plan (er_project [0]%Z))) = [] /\
    o_errs (format registry_new opts_default (er_plan (er_project [0; 3]%Z))) = [FPlan FInvalid "Emitted"] /\
    o_errs (format registry_new opts_default (er_plan (er_project [1; 0]%Z))) = [FPlan FInvalid "RexType"] /\
    o_errs (format registry_new er_shown (er_plan (er_project [3]%Z))) =
      [FPlan FInvalid "RexType"; FLookup (MissingAnchor KFunction 7); FPlan FInvalid "ArgType"].
  Proof. vm_compute. auto. Qed.
  Example er_hidden_spec : plan_error registry_new opts_default (er_plan (er_project [0; 2]%Z)) (FLookup (MissingAnchor KFunction 7)).
  Proof.
    unfold plan_error. cbn. right. right. exists (er_project [0; 2]%Z). split; [right; eexists; now left|]. apply we_rel.
    apply re_expr with (x := er_call 7).
    - apply (ew_project _ _ _ _ _ _ _ 1); [reflexivity|]. right. intros m [= <-]. right. now left.
    - apply xe_call, ce_function. split; reflexivity.
  Qed.
  (** A named read has no missing columns, whatever is chosen; a virtual one has. *)
  Definition er_table (t : read_type) (m : list Z) : prel :=
    RRead (mk_read (Some (mk_common (Some (EmEmit m)) false))
      (Some (mk_named_struct [L "a"] (Some ([er_i64; TFunc], 0%N, NRequired)))) None t None false).
  Example er_reads :
    o_errs (format registry_new opts_default (er_plan (er_table (ReadNamed [L "t"]) [5]%Z))) =
      [FPlan FInvalid "Name"; FPlan FUnimplemented "FuncType"] /\
    o_errs (format registry_new opts_default (er_plan (er_table (ReadVirtual []) [5; 0]%Z))) = [FPlan FInvalid "Emitted"].
  Proof. vm_compute. auto. Qed.
  (** The hypothesis of [C67_options] met by options that differ in all else. *)
  Example er_options : op_show_emit opts_default = op_show_emit opts_verbose /\
    o_errs (format registry_new opts_verbose (er_plan (er_project [2]%Z))) =
      [FLookup (MissingAnchor KFunction 7); FPlan FInvalid "ArgType"].
  Proof. vm_compute. auto. Qed.
  (** A plan that is clean. *)
  Example er_clean : forall er, ~ plan_error registry_new opts_default (er_plan (er_project [0]%Z)) er.
  Proof. apply (C67_no_errors ascii_tables toy_floats). vm_compute. reflexivity. Qed.
  Example er_clean_shown : exists s, plan_text registry_new opts_default (er_plan (er_project [0]%Z)) s.
  Proof.
    apply (C67_shown ascii_tables toy_floats). split; [exact er_clean|]. apply (C66_no_crash ascii_tables toy_floats). vm_compute. reflexivity.
  Qed.
  (** Declaring function 8 leaves the errors as they are; declaring 7 takes its error away. *)
  Definition er_declared (l : list N) : pplan :=
    mk_plan _ None [mk_urn 1 (L "urn")] (map (fun a => Some (mk_decl KFunction 1 a (L "f"))) l) [PRoot [L "a"] (Some (er_project [1; 2]%Z))].
  Example er_declarations :
    o_errs (format registry_new opts_default (er_declared [8%N])) =
      [FPlan FInvalid "RexType"; FLookup (MissingAnchor KFunction 7); FPlan FInvalid "ArgType"] /\
    o_errs (format registry_new opts_default (er_declared [8%N; 7%N])) = [FPlan FInvalid "RexType"; FPlan FInvalid "ArgType"] /\
    decl_get (loaded (er_declared [8%N])) KFunction 7 = None.
  Proof. vm_compute. auto. Qed.
  (** The hypotheses of [C67_show_emit] met, and what it leaves out. *)
  Example er_show_emit :
    o_errs (format registry_new opts_default (er_plan (er_project [1; 9]%Z))) = [FPlan FInvalid "RexType"; FPlan FInvalid "Emitted"] /\
    o_errs (format registry_new er_shown (er_plan (er_project [1; 9]%Z))) =
      [FPlan FInvalid "RexType"; FLookup (MissingAnchor KFunction 7); FPlan FInvalid "ArgType"].
  Proof. vm_compute. auto. Qed.
End Examples.
Print Assumptions C67_errors.
Print Assumptions C67_no_errors.
Print Assumptions C67_shown.
Print Assumptions C67_options.
Print Assumptions C67_lookups.
Print Assumptions C67_declarations.
Print Assumptions C67_declared.
Print Assumptions C67_show_emit.
