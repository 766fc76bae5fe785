(** Tests, not proofs: the unit tests of /repo/src/extensions/{registry,args,examples}.rs,
    /repo/src/parser/chunks.rs, /repo/src/textify/{plan,extensions}.rs, run through the
    model. *)
From Coq Require Import String List NArith ZArith Bool.
From Verif Require Import Base Peg Names SpecNames NamesFacts SimpleExt Out Anchors Types Literals Exprs ExtArgs Registry RegistryNames
  Rels RelGrammar RelRead Tree ExtLines Lines Structural Version Plan Wire Bundled Tests_Base Tests_Handlers.
Import ListNotations.
Local Open Scope string_scope. Local Open Scope list_scope.
#[local] Existing Instance ascii_tables. #[local] Existing Instance text_floats.

(** ** src/extensions/registry.rs *)

(** The mock types, l.748-808, l.1007-1057 and l.1137-1174; the bytes hold the names of
    the fields, and decoding looks for these only. *)
Definition mentions (word s : list N) : bool := existsb (fun n => starts_with word (skipn n s)) (seq 0 (S (length s))).
Definition test_url : list N := L "test.TestExtension".
Definition test_extension : extension :=
  mk_extension (list N * Z) (L "TestExtension") test_url
    (expect_named as_string (L "path") (fun p => expect_named as_i64 (L "batch_size") (fun z => PReturn (Ok (p, z)))))
    (fun '(p, z) ctx => Ok (mk_xargs [] ([(L "path", XString p); (L "batch_size", XInteger z)]
        ++ match ctx with [] => [] | _ => [(L "input_count", XInteger (Z.of_nat (length ctx)))] end) []))
    (fun '(p, z) => Ok (mk_any test_url (L "{""path"":""" ++ p ++ L """,""batch_size"":" ++ show_Z z ++ L "}")))
    (fun d => if mentions (L "path") (any_value d) && mentions (L "batch_size") (any_value d)
              then Ok (L "test.parquet", 1024%Z) else Err (XCustom (L "Missing fields"))).
Definition test_enhancement : extension :=
  mk_extension (list N) (L "TestEnhancement") test_url
    (expect_named as_string (L "hint") (fun h => PReturn (Ok h)))
    (fun h _ => Ok (mk_xargs [] [(L "hint", XString h)] []))
    (fun h => Ok (mk_any test_url (L "{""hint"":""" ++ h ++ L """}")))
    (fun d => if mentions (L "hint") (any_value d) then Ok (L "test_hint") else Err (XCustom (L "Missing hint field"))).
Definition conflicting_extension : extension :=
  mk_extension unit (L "ConflictingExtension") test_url (PReturn (Ok tt)) (fun _ _ => Ok xargs_default)
    (fun _ => Ok (mk_any test_url [])) (fun _ => Ok tt).

(** [ExtensionArgs::insert] and [push]. *)
Definition args_of (ps : list xvalue) (ns : list (string * xvalue)) : xargs :=
  mk_xargs ps (fold_left (fun m p => imap_insert (L (fst p)) (snd p) m) ns []) [].
Definition scan_args : xargs := args_of [] [("path", XString (L "data.parquet")); ("batch_size", XInteger 2048)].
Definition relations := with_extensions [(XtRelation, test_extension)].
Definition tables := with_extensions [(XtTable, test_extension)].
Definition names_of (r : registry) (t : xtype) : list (list N) := extension_names r t.
(** Parsed under a name, then decoded: the URL, the name and the named arguments. *)
Definition there_and_back (r : registry) (t : xtype) (name : string) (a : xargs) (ctx : list nat) : res xerror (list N * list N * list (list N * xvalue)) :=
  let? d := parse_with_type r t (L name) a in
  let? (n, a') := decode_with_type r t d ctx in
  Ok (any_url d, n, xa_named a').

Example test_extension_registry_basic :
  names_of registry_new XtRelation = [] /\ names_of registry_new XtTable = [] /\ has_extension registry_new XtRelation (L "TestExtension") = false /\
  length (names_of relations XtRelation) = 1%nat /\ has_extension relations XtRelation (L "TestExtension") = true /\
  there_and_back relations XtRelation "TestExtension" scan_args []
  = Ok (test_url, L "TestExtension", [(L "path", XString (L "test.parquet")); (L "batch_size", XInteger 1024)]).
Proof. vm_compute. repeat split. Qed.
Example test_extension_registry_decode_with_context :
  there_and_back relations XtRelation "TestExtension" scan_args [4%nat]
  = Ok (test_url, L "TestExtension", [(L "path", XString (L "test.parquet")); (L "batch_size", XInteger 1024); (L "input_count", XInteger 1)]).
Proof. vm_compute. reflexivity. Qed.
Example argument_error_takes_precedence_over_unhandled_arguments :
  parse_with_type relations XtRelation (L "TestExtension") (args_of [] [("unexpected", XBoolean true)]) = Err (XMissingArgument (L "path")).
Proof. vm_compute. reflexivity. Qed.
Example successful_decode_rejects_unhandled_named_arguments :
  parse_with_type relations XtRelation (L "TestExtension")
    (args_of [] [("path", XString (L "data.parquet")); ("batch_size", XInteger 2048); ("unexpected", XBoolean true)])
  = Err (XInvalidArgument "Unknown named arguments").
Proof. vm_compute. reflexivity. Qed.
Example successful_decode_rejects_unhandled_positional_arguments :
  parse_with_type relations XtRelation (L "TestExtension")
    (args_of [XBoolean true] [("path", XString (L "data.parquet")); ("batch_size", XInteger 2048)])
  = Err (XInvalidArgument "Unhandled positional arguments").
Proof. vm_compute. reflexivity. Qed.
Example test_extension_table_registry_basic :
  names_of tables XtTable = [L "TestExtension"] /\ has_extension tables XtTable (L "TestExtension") = true /\
  there_and_back tables XtTable "TestExtension" scan_args []
  = Ok (test_url, L "TestExtension", [(L "path", XString (L "test.parquet")); (L "batch_size", XInteger 1024)]).
Proof. vm_compute. repeat split. Qed.
Example test_extension_args :
  let a := mk_xargs [XExpr (ESel (mk_fieldref (RefDirect (SegField 0 None)) RootRef))]
             (xa_named (args_of [] [("path", XString (L "data/*.parquet")); ("batch_size", XInteger 1024)]))
             [XNamed (L "col1") i32_type] in
  args_parse (get_named as_string (L "path") (fun p => get_named as_i64 (L "batch_size") (fun z =>
    PPositional (fun vs => PReturn (Ok (p, z, length vs)))))) a = Ok (Some (L "data/*.parquet"), Some 1024%Z, 1%nat).
Proof. vm_compute. reflexivity. Qed.
Example test_extension_error_cases :
  parse_with_type registry_new XtRelation (L "NonExistent") xargs_default = Err (XNotFound (L "NonExistent")) /\
  args_parse (get_named as_i64 (L "missing") (fun v => PReturn (Ok v))) xargs_default = Ok None /\
  args_parse (get_named as_i64 (L "test") (fun v => PReturn (Ok v))) (args_of [] [("test", XInteger 42)]) = Ok (Some 42%Z).
Proof. vm_compute. repeat split. Qed.
Example test_namespace_separation :
  let r := with_extensions [(XtRelation, test_extension); (XtTable, test_extension); (XtEnhancement, test_enhancement)] in
  has_extension r XtRelation (L "TestExtension") = true /\ has_extension r XtTable (L "TestExtension") = true /\
  has_extension r XtEnhancement (L "TestEnhancement") = true /\
  map (fun t => length (names_of r t)) [XtRelation; XtTable; XtEnhancement] = [1; 1; 1]%nat /\
  (exists d, parse_with_type r XtRelation (L "TestExtension") scan_args = Ok d /\ any_url d = test_url) /\
  (exists d, parse_with_type r XtTable (L "TestExtension") scan_args = Ok d /\ any_url d = test_url) /\
  there_and_back r XtEnhancement "TestEnhancement" (args_of [] [("hint", XString (L "optimize"))]) []
  = Ok (test_url, L "TestEnhancement", [(L "hint", XString (L "test_hint"))]).
Proof. vm_compute. repeat split; eexists; split; reflexivity. Qed.
Definition twice (t : xtype) (h h' : extension) : res reg_error unit * registry :=
  register t h' (snd (register t h registry_new)).
Example test_enhancement_duplicate_registration_returns_error :
  fst (twice XtEnhancement test_enhancement test_enhancement) = Err (RDuplicateName XtEnhancement (L "TestEnhancement")).
Proof. vm_compute. reflexivity. Qed.
Example test_extension_table_duplicate_registration_returns_error :
  fst (twice XtTable test_extension test_extension) = Err (RDuplicateName XtTable (L "TestExtension")).
Proof. vm_compute. reflexivity. Qed.
Example test_extension_table_not_found_error :
  parse_with_type registry_new XtTable (L "NonExistentExtensionTable") xargs_default = Err (XNotFound (L "NonExistentExtensionTable")).
Proof. vm_compute. reflexivity. Qed.
Example test_enhancement_not_found_error :
  parse_with_type registry_new XtEnhancement (L "NonExistentEnhancement") xargs_default = Err (XNotFound (L "NonExistentEnhancement")).
Proof. vm_compute. reflexivity. Qed.
(** Also [test_extension_table_conflicting_type_url_leaves_registry_unchanged]. *)
Example test_conflicting_type_url_leaves_registry_unchanged :
  Forall (fun t =>
    let (o, r) := twice t test_extension conflicting_extension in
    o = Err (RConflictingUrl test_url t (L "TestExtension")) /\
    has_extension r t (L "TestExtension") = true /\ has_extension r t (L "ConflictingExtension") = false /\
    names_of r t = [L "TestExtension"]) [XtRelation; XtTable].
Proof. repeat constructor. Qed.

(** ** src/extensions/args.rs; the kinds in conversion errors are not modelled *)

Example get_named_converts_present_values_and_returns_none_for_missing_values :
  args_parse (get_named as_i64 (L "count") (fun c => get_named as_i64 (L "missing") (fun m => PReturn (Ok (c, m))))) (args_of [] [("count", XInteger 8)])
  = Ok (Some 8%Z, None).
Proof. vm_compute. reflexivity. Qed.
Example get_named_contextualizes_conversion_errors :
  args_parse (get_named as_i64 (L "count") (fun c => PReturn (Ok c))) (args_of [] [("count", XNull)]) = Err (XNamedConversion (L "count") XInvalidType).
Proof. vm_compute. reflexivity. Qed.
Example get_named_tuple_converts_present_values_and_returns_none_for_missing_values :
  args_parse (get_named_tuple as_string (L "missing") (fun m => get_named_tuple as_string (L "names") (fun n => PReturn (Ok (m, n)))))
    (args_of [] [("names", XTuple [XString (L "first"); XString (L "second")])])
  = Ok (None, Some [L "first"; L "second"]).
Proof. vm_compute. reflexivity. Qed.
Example get_named_tuple_contextualizes_invalid_outer_value :
  args_parse (get_named_tuple as_string (L "names") (fun n => PReturn (Ok n))) (args_of [] [("names", XString (L "not a tuple"))])
  = Err (XNamedConversion (L "names") XInvalidType).
Proof. vm_compute. reflexivity. Qed.
Example get_named_tuple_contextualizes_invalid_element :
  args_parse (get_named_tuple as_string (L "names") (fun n => PReturn (Ok n))) (args_of [] [("names", XTuple [XString (L "first"); XInteger 2])])
  = Err (XNamedConversion (L "names") XInvalidType).
Proof. vm_compute. reflexivity. Qed.
Example expect_named_reports_missing_argument_name :
  args_parse (expect_named as_i64 (L "count") (fun n => PReturn (Ok n))) xargs_default = Err (XMissingArgument (L "count")).
Proof. vm_compute. reflexivity. Qed.

(** ** src/extensions/examples.rs *)

Definition hash_range := mk_hint [1; 2]%Z 4.
Example round_trip_via_any : (let? d := xe_to_any hint_extension hash_range in xe_from_any hint_extension d) = Ok hash_range.
Proof. vm_compute. reflexivity. Qed.
Example to_args_produces_enum_and_named : hint_to_args (mk_hint [1%Z] 8) [] = Ok (mk_xargs [XEnum (L "HASH")] [(L "count", XInteger 8)] []).
Proof. vm_compute. reflexivity. Qed.
Example to_args_omits_zero_count : hint_to_args (mk_hint [3%Z] 0) [] = Ok (mk_xargs [XEnum (L "BROADCAST")] [] []).
Proof. vm_compute. reflexivity. Qed.
Example from_args_round_trip :
  map (fun h => let? a := hint_to_args h [] in args_parse hint_from_args a) [mk_hint [1; 2]%Z 16; mk_hint [] 0] = [Ok (mk_hint [1; 2]%Z 16); Ok (mk_hint [] 0)].
Proof. vm_compute. reflexivity. Qed.
Definition refused {X} (r : res xerror X) : bool := match r with Err _ => true | _ => false end.
Example from_args_rejects :
  map (fun a => refused (args_parse hint_from_args a))
    [args_of [XEnum (L "BOGUS")] []; args_of [XInteger 1] []; args_of [] [("unknown_key", XInteger 99)]] = [true; true; true].
Proof. vm_compute. reflexivity. Qed.
Definition through_registry (t : xtype) (d : any) : res xerror (list N * any) :=
  let? (n, a) := decode_with_type examples_registry t d [] in
  let? d' := parse_with_type examples_registry t n a in
  Ok (n, d').
Example registry_roundtrips :
  (let? d := xe_to_any hint_extension (mk_hint [1%Z] 4) in let? (n, d') := through_registry XtEnhancement d in let? h := hint_from_any d' in Ok (n, h))
  = Ok (L "PartitionHint", mk_hint [1%Z] 4) /\
  (let? d := xe_to_any plan_hint_extension (L "parallel") in let? (n, d') := through_registry XtOptimization d in let? h := plan_hint_from_any d' in Ok (n, h))
  = Ok (L "PlanHint", L "parallel") /\
  (let? d := xe_to_any blob_extension (mk_blob (L "path/to/file") 100 true) in let? (n, d') := through_registry XtTable d in let? h := blob_from_any d' in Ok (n, h))
  = Ok (L "BlobStoreRead", mk_blob (L "path/to/file") 100 true).
Proof. vm_compute. repeat split. Qed.

(** ** src/parser/chunks.rs *)

(** [collect], l.178-205. *)
Fixpoint merge_while (fuel : nat) (p : line -> bool) (c : cursor) : cursor :=
  match fuel, peek_line c with
  | S f, Some l => if p l then merge_while f p (merge c l) else c
  | _, _ => c
  end.
Fixpoint collect (fuel : nat) (p : line -> bool) (c : option cursor) : list (list N * N * N) :=
  match fuel, c with
  | S f, Some c =>
      match peek_line c with
      | Some l =>
          let c' := merge_while (length (cu_rest c)) p (merge c l) in
          (fst (cu_finish c'), cu_start c', (cu_next c' - 1)%N) :: collect f p (snd (cu_finish c'))
      | None => []
      end
  | _, _ => []
  end.
Definition chunks (p : line -> bool) (s : list N) (start : N) := collect (S (length s)) p (cu_new s start).
Definition one_per_line := chunks (fun _ => false).
Definition nl (s : string) : list N := L s ++ [10%N].
Example empty_input_has_no_chunks : cu_new [] 1 = None. Proof. reflexivity. Qed.
Example lines_one_by_one :
  map (fun s => one_per_line s 1) [L "abc"; nl "abc"; nl "a" ++ nl "b" ++ L "c"; nl "a" ++ nl "" ++ L "b"]
  = [[(L "abc", 1, 1)]; [(nl "abc", 1, 1)]; [(nl "a", 1, 1); (nl "b", 2, 2); (L "c", 3, 3)]; [(nl "a", 1, 1); (nl "", 2, 2); (L "b", 3, 3)]]%N.
Proof. vm_compute. reflexivity. Qed.
Example merge_builds_a_contiguous_multiline_slice :
  chunks (fun l => starts_with (L "- ") (trim (ln_text l))) (nl "Read:Virtual[" ++ nl "  - (1, 'alice')" ++ nl "  - => id:i64]" ++ L "Next") 1
  = [(nl "Read:Virtual[" ++ nl "  - (1, 'alice')" ++ nl "  - => id:i64]", 1, 3); (L "Next", 4, 4)]%N.
Proof. vm_compute. reflexivity. Qed.
Example carriage_returns_are_stripped_from_line_content_but_kept_in_chunk :
  match cu_new (L "a" ++ [13%N; 10%N] ++ L "b") 1 with
  | Some c => match peek_line c with
              | Some l => ln_text l = L "a" /\ fst (cu_finish (merge c l)) = L "a" ++ [13%N; 10%N]
              | None => False
              end
  | None => False
  end.
Proof. vm_compute. split; reflexivity. Qed.
Example line_numbers_account_for_a_custom_start :
  map (fun x => snd (fst x)) (one_per_line (nl "x" ++ L "y") 10) = [10; 11]%N /\ map (fun x => (snd (fst x), snd x)) (one_per_line (nl "x" ++ L "y") 1) = [(1, 1); (2, 2)]%N.
Proof. vm_compute. split; reflexivity. Qed.
Example end_line_no_tracks_merged_lines :
  chunks (fun _ => true) (nl "a" ++ nl "b" ++ nl "c" ++ L "d") 1 = [(nl "a" ++ nl "b" ++ nl "c" ++ L "d", 1, 4)]%N.
Proof. vm_compute. reflexivity. Qed.

(** ** src/textify/plan.rs *)

Example test_plan_writer :
  let field i := AValue (ESel (mk_fieldref (RefDirect (SegField i None)) RootRef)) in
  let read := RRead (mk_read None
      (Some (mk_named_struct [L "col1"; L "col2"] (Some ([TSimple SI32 NNullable 0; TSimple SI32 NNullable 0], 0%N, NUnspecified))))
      None (ReadNamed [L "table1"]) None false) in
  let p := mk_plan _ None
      [mk_urn 1 (L "https://github.com/substrait-io/substrait/blob/main/extensions/functions_arithmetic.yaml")]
      [Some (mk_decl KFunction 1 10 (L "add"))]
      [PRel (RProject None (Some read) [EFunc 10 [field 0%Z; field 1%Z] [] (Some i64_type)] None)] in
  let o := format registry_new opts_default p in
  o_errs o = [] /\ o_text o = T
    ["=== Extensions"; "URNs:"; "  @  1: https://github.com/substrait-io/substrait/blob/main/extensions/functions_arithmetic.yaml";
     "Functions:"; "  # 10 @  1: add"; ""; "=== Plan"; "Project[$0, $1, add($0, $1):i64]"; "  Read[table1 => col1:i32?, col2:i32?]"; ""].
Proof. vm_compute. split; reflexivity. Qed.

(** ** src/textify/extensions.rs *)

Example error_value_renders_failure_and_continues :
  let o := xargs_out opts_default exts_empty (args_of [] [("bad", XError (XCustom (L "malformed field"))); ("good", XString (L "continues"))]) in
  o_text o = L "bad=!{extension}, good='continues'" /\ exists what, o_errs o = [FExtension what].
Proof. vm_compute. split; [reflexivity|]. eexists. reflexivity. Qed.
