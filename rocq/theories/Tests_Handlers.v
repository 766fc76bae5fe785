(** Tests, not proofs: the tests of /repo/tests/adv_extension_roundtrip.rs,
    extension_roundtrip.rs and extension_table.rs, copied text by text and run through
    the model with their own handlers. *)
From Coq Require Import String List NArith ZArith Bool.
From Verif Require Import Base Peg Names SpecNames NamesFacts SimpleExt Out Anchors Types Literals Exprs ExtArgs Registry
  Rels RelGrammar RelRead Tree ExtLines Lines Structural Version Plan Bundled Tests_Base.
Import ListNotations.
Local Open Scope string_scope. Local Open Scope list_scope.
#[local] Existing Instance ascii_tables. #[local] Existing Instance text_floats.

(** ** The handlers of the tests *)

(** What the messages encode to does not matter to the tests: their fields one after
    the other, each closed by 0, numbers as one symbol. *)
Definition pack (l : list (list N)) : list N := concat (map (fun s => s ++ [0%N]) l).
Fixpoint unpack_to (acc : list N) (s : list N) : list (list N) :=
  match s with
  | [] => []
  | c :: r => if (c =? 0)%N then rev acc :: unpack_to [] r else unpack_to (c :: acc) r
  end.
Definition unpack := unpack_to [].
Definition pack_Z (z : Z) : list N := [if (z <? 0)%Z then Z.to_N (-2 * z) else Z.to_N (2 * z + 1)].
Definition unpack_Z (s : list N) : Z :=
  match s with [n] => if N.even n then (- Z.of_N (n / 2))%Z else Z.of_N (n / 2) | _ => 0%Z end.
Definition fixture {X} (name url : string) (from : prog X) (to : X -> list nat -> res xerror xargs)
    (enc : X -> list (list N)) (dec : list (list N) -> option X) : extension :=
  mk_extension X (L name) (L url) from to (fun x => Ok (mk_any (L url) (pack (enc x))))
    (fun d => if streqb (any_url d) (L url)
              then match dec (unpack (any_value d)) with Some x => Ok x | None => Err XDecodeFailed end
              else Err XUrlMismatch).
Definition str_type : ptype := TSimple SString NRequired 0.
Definition i64_type : ptype := TSimple SI64 NRequired 0.
Definition i32_type : ptype := TSimple SI32 NRequired 0.
Definition column_field (i : Z) : xcolumn := XColExpr (ESel (mk_fieldref (RefDirect (SegField i None)) RootRef)).

(** adv_extension_roundtrip.rs l.171-212; extension_roundtrip.rs l.137-172;
    extension_table.rs l.11-46: one named string. *)
Definition one_string (name url arg : string) : extension :=
  fixture name url (expect_named as_string (L arg) (fun s => PReturn (Ok s)))
    (fun s _ => Ok (mk_xargs [] [(L arg, XString s)] []))
    (fun s => [s]) (fun l => match l with [s] => Some s | _ => None end).
Definition test_plan_hint := one_string "PlanHint" "type.googleapis.com/test.PlanHint" "hint".
Definition filter_config := one_string "TestFilter" "type.googleapis.com/test.FilterConfig" "expr".
Definition user_table := one_string "UserTable" "type.googleapis.com/test.UserTable" "name".
(** No arguments, and the columns given: adv_extension_roundtrip.rs l.519-572 and
    l.843-888, extension_roundtrip.rs l.316-347 and l.398-466. *)
Definition no_arguments (name url : string) (cols : list nat -> res xerror (list xcolumn)) : extension :=
  fixture name url (PReturn (Ok tt)) (fun _ ctx => let? cs := cols ctx in Ok (mk_xargs [] [] cs)) (fun _ => []) (fun _ => Some tt).
Definition two_column_scan := no_arguments "TwoColumnScan" "type.googleapis.com/test.TwoColumnScan"
  (fun _ => Ok [XNamed (L "col0") i64_type; XNamed (L "col1") i32_type]).
Definition enhancement_with_columns := no_arguments "EnhancementWithColumns" "type.googleapis.com/test.EnhancementWithColumns"
  (fun _ => Ok [XNamed (L "col") i64_type]).
Definition empty_source := no_arguments "EmptySource" "type.googleapis.com/test.EmptySource" (fun _ => Ok []).
Definition pass_through := no_arguments "PassThrough" "type.googleapis.com/test.PassThroughWrapper"
  (fun ctx => match ctx with
              | n :: _ => Ok (map (fun i => column_field (Z.of_nat i)) (seq 0 n))
              | [] => Err (XInvalidArgument "PassThrough expects one input")
              end).
Definition binary_merge := no_arguments "BinaryMerge" "type.googleapis.com/test.BinaryMerge" (fun _ => Ok [column_field 0; column_field 1]).
(** extension_roundtrip.rs l.18-98. *)
Definition user_table_config : extension :=
  fixture "UserTable" "type.googleapis.com/test.UserTableConfig"
    (expect_named as_string (L "name") (fun name =>
     get_named as_i64 (L "version") (fun version =>
     get_named as_bool (L "temp") (fun temp =>
     PColumns (fun cs =>
       PReturn (let? cols := rlist (fun c => match c with XNamed n _ => Ok n | _ => Err (XInvalidArgument "Expected named columns only") end) cs in
                Ok (name, match version with Some z => z | None => 1%Z end, match temp with Some b => b | None => false end, cols)))))))
    (fun '(name, version, temp, cols) _ =>
       Ok (mk_xargs [] [(L "name", XString name); (L "version", XInteger version); (L "temp", XBoolean temp)]
             (map (fun n => XNamed n str_type) cols)))
    (fun '(name, version, temp, cols) => name :: pack_Z version :: pack_Z (if temp : bool then 1 else 0) :: cols)
    (fun l => match l with
              | name :: version :: temp :: cols => Some (name, unpack_Z version, (unpack_Z temp =? 1)%Z, cols)
              | _ => None
              end).
(** l.203-271; a whole number given for the ratio is not converted here. *)
Definition literal_config : extension :=
  fixture "LiteralTest" "type.googleapis.com/test.LiteralConfig"
    (expect_named as_string (L "path") (fun path =>
     expect_named as_i64 (L "big") (fun big =>
     expect_named as_f64 (L "ratio") (fun ratio =>
     expect_named as_bool (L "enabled") (fun enabled => PReturn (Ok (path, big, ratio, enabled)))))))
    (fun '(path, big, ratio, enabled) _ =>
       Ok (mk_xargs [] [(L "path", XString path); (L "big", XInteger big); (L "ratio", XFloat ratio); (L "enabled", XBoolean enabled)]
             [XNamed (L "value") str_type]))
    (fun '(path, big, ratio, enabled) => [path; pack_Z big; [ratio]; pack_Z (if enabled : bool then 1 else 0)])
    (fun l => match l with
              | [path; big; [ratio]; enabled] => Some (path, unpack_Z big, ratio, (unpack_Z enabled =? 1)%Z)
              | _ => None
              end).
(** l.600-651. *)
Definition tuple_sort_hint : extension :=
  fixture "TupleSortHint" "type.googleapis.com/test.TupleSortHint"
    (PPositional (fun vs => PReturn
       match vs with
       | [v] => let? l := as_tuple v in rlist as_enum l
       | _ => Err (XInvalidArgument "expected 1 positional tuple arg")
       end))
    (fun l _ => Ok (mk_xargs [XTuple (map XEnum l)] [] []))
    (fun l => l) Some.

(** ** Registries *)

Definition with_extensions (l : list (xtype * extension)) : registry :=
  fold_left (fun r h => snd (register (fst h) (snd h) r)) l registry_new.
Definition examples_registry : registry := match bundled with Ok r => r | _ => registry_new end.

(** ** Running *)

Inductive repo_test :=
| Same (text : list string)
| Rejected (text : list string).
Definition T (ls : list string) : list N := join [10%N] (map L ls).
(** The text comes back, but for white space around it, and without errors. *)
Definition run (reg : registry) (t : repo_test) : bool :=
  match t with
  | Same a =>
      match parse reg (T a) with
      | Ok p => let o := format reg opts_default p in
                match o_errs o, o_panics o with [], [] => streqb (trim (o_text o)) (trim (T a)) | _, _ => false end
      | _ => false
      end
  | Rejected a => match parse reg (T a) with Err _ => true | _ => false end
  end.

Definition adv_extension_roundtrip : list (string * registry * repo_test) := [
  (* :31 *)
  ("test_partition_hint_roundtrip", with_extensions [(XtEnhancement, hint_extension)], Same ["=== Plan";
      "Root[result]";
      "  Read[my.table => col:i64]";
      "    + Enh:PartitionHint[&HASH, &RANGE]"]);
  (* :48 *)
  ("test_partition_hint_with_count", with_extensions [(XtEnhancement, hint_extension)], Same ["=== Plan";
      "Root[result]";
      "  Read[my.table => col:i64]";
      "    + Enh:PartitionHint[&HASH, count=8]"]);
  (* :65 *)
  ("test_partition_hint_all_strategies", with_extensions [(XtEnhancement, hint_extension)], Same ["=== Plan";
      "Root[result]";
      "  Read[my.table => col:i64]";
      "    + Enh:PartitionHint[&UNSPECIFIED, &HASH, &RANGE, &BROADCAST]"]);
  (* :82 *)
  ("test_partition_hint_empty", with_extensions [(XtEnhancement, hint_extension)], Same ["=== Plan";
      "Root[result]";
      "  Read[my.table => col:i64]";
      "    + Enh:PartitionHint[_]"]);
  (* :102 *)
  ("test_enhancement_with_child_relation", with_extensions [(XtEnhancement, hint_extension)], Same ["=== Plan";
      "Root[result]";
      "  Filter[$0 => $0]";
      "    + Enh:PartitionHint[&BROADCAST]";
      "    Read[my.table => col:i64]"]);
  (* :215 *)
  ("test_multiple_optimizations_roundtrip", with_extensions [(XtOptimization, test_plan_hint)], Same ["=== Plan";
      "Root[result]";
      "  Read[my.table => col:i64]";
      "    + Opt:PlanHint[hint='use_index']";
      "    + Opt:PlanHint[hint='parallel']"]);
  (* :236 *)
  ("test_enhancement_and_optimization_on_same_relation", with_extensions [(XtEnhancement, hint_extension); (XtOptimization, test_plan_hint)], Same ["=== Plan";
      "Root[result]";
      "  Read[my.table => col:i64]";
      "    + Enh:PartitionHint[&HASH]";
      "    + Opt:PlanHint[hint='use_index']"]);
  (* :262 *)
  ("test_unregistered_enhancement_fails_to_parse", with_extensions [], Rejected ["";
      "=== Plan";
      "Root[result]";
      "  Read[my.table => col:i64]";
      "    + Enh:PartitionHint[&HASH, count=4]";
      ""]);
  (* :323 *)
  ("test_multiple_enhancements_fails_to_parse", with_extensions [(XtEnhancement, hint_extension)], Rejected ["=== Plan";
      "Root[result]";
      "  Read[my.table => col:i64]";
      "    + Enh:PartitionHint[&HASH]";
      "    + Enh:PartitionHint[&RANGE]"]);
  (* :346 *)
  ("test_addendum_as_standalone_root_fails_with_error", with_extensions [(XtEnhancement, hint_extension)], Rejected ["=== Plan";
      "+ Enh:PartitionHint[&HASH]"]);
  (* :361 *)
  ("test_addendum_as_roots_only_child_fails_with_error", with_extensions [(XtEnhancement, hint_extension)], Rejected ["=== Plan";
      "Root[result]";
      "  + Enh:PartitionHint[&HASH]"]);
  (* :382 *)
  ("test_enhancement_on_filter_roundtrip", with_extensions [(XtEnhancement, hint_extension)], Same ["=== Plan";
      "Root[result]";
      "  Filter[$0 => $0]";
      "    + Enh:PartitionHint[&HASH, count=4]";
      "    Read[my.table => col:i64]"]);
  (* :401 *)
  ("test_enhancement_on_sort_roundtrip", with_extensions [(XtEnhancement, hint_extension)], Same ["=== Plan";
      "Root[result]";
      "  Sort[($0, &AscNullsFirst) => $0]";
      "    + Enh:PartitionHint[&RANGE]";
      "    Read[my.table => col:i64]"]);
  (* :424 *)
  ("test_unregistered_optimization_fails_to_parse", with_extensions [], Rejected ["=== Plan";
      "Root[result]";
      "  Read[my.table => col:i64]";
      "    + Opt:PlanHint[hint='fast']"]);
  (* :443 *)
  ("test_wrong_argument_type_for_enhancement_fails", with_extensions [(XtEnhancement, hint_extension)], Rejected ["=== Plan";
      "Root[result]";
      "  Read[my.table => col:i64]";
      "    + Enh:PartitionHint[5]"]);
  (* :580 *)
  ("test_project_over_extension_leaf_emit_mapping", with_extensions [(XtRelation, two_column_scan)], Same ["=== Plan";
      "Root[result]";
      "  Project[$0, $1, 42]";
      "    ExtensionLeaf:TwoColumnScan[_ => col0:i64, col1:i32]"]);
  (* :633 *)
  ("test_enhancement_on_project_roundtrip", with_extensions [(XtEnhancement, hint_extension)], Same ["=== Plan";
      "Root[col]";
      "  Project[$0]";
      "    + Enh:PartitionHint[&HASH]";
      "    Read[my.table => col:i64]"]);
  (* :649 *)
  ("test_enhancement_on_fetch_roundtrip", with_extensions [(XtEnhancement, hint_extension)], Same ["=== Plan";
      "Root[col]";
      "  Fetch[limit=5 => $0]";
      "    + Enh:PartitionHint[&HASH]";
      "    Read[my.table => col:i64]"]);
  (* :668 *)
  ("test_enhancement_on_aggregate_roundtrip", with_extensions [(XtEnhancement, hint_extension)], Same ["=== Plan";
      "Root[col]";
      "  Aggregate[$0 => $0]";
      "    + Enh:PartitionHint[&HASH]";
      "    Read[my.table => col:i64]"]);
  (* :688 *)
  ("test_enhancement_on_join_roundtrip", with_extensions [(XtEnhancement, hint_extension)], Same ["=== Plan";
      "Root[id, name]";
      "  Join[&LeftSemi, $0 => $0, $1]";
      "    + Enh:PartitionHint[&HASH]";
      "    Read[users => id:i64, name:string]";
      "    Read[orders => user_id:i64, amount:i32]"]);
  (* :708 *)
  ("test_optimization_on_nested_read_roundtrip", with_extensions [(XtOptimization, test_plan_hint)], Same ["=== Plan";
      "Root[result]";
      "  Filter[$0 => $0]";
      "    Read[my.table => col:i64]";
      "      + Opt:PlanHint[hint='index']"]);
  (* :733 *)
  ("test_multiple_optimizations_on_nested_read_roundtrip", with_extensions [(XtOptimization, test_plan_hint)], Same ["=== Plan";
      "Root[result]";
      "  Filter[$0 => $0]";
      "    Read[my.table => col:i64]";
      "      + Opt:PlanHint[hint='use_index']";
      "      + Opt:PlanHint[hint='parallel']"]);
  (* :755 *)
  ("test_enhancement_and_optimization_on_nested_relation_roundtrip", with_extensions [(XtEnhancement, hint_extension); (XtOptimization, test_plan_hint)], Same ["=== Plan";
      "Root[result]";
      "  Filter[$0 => $0]";
      "    Read[my.table => col:i64]";
      "      + Enh:PartitionHint[&HASH]";
      "      + Opt:PlanHint[hint='index']"]);
  (* :777 *)
  ("test_enhancement_on_nested_read_roundtrip", with_extensions [(XtEnhancement, hint_extension)], Same ["=== Plan";
      "Root[result]";
      "  Filter[$0 => $0]";
      "    Read[my.table => col:i64]";
      "      + Enh:PartitionHint[&HASH]"]);
  (* :796 *)
  ("test_enhancement_on_nested_filter_roundtrip", with_extensions [(XtEnhancement, hint_extension)], Same ["=== Plan";
      "Root[result]";
      "  Sort[($0, &AscNullsFirst) => $0]";
      "    Filter[$0 => $0]";
      "      + Enh:PartitionHint[&RANGE]";
      "      Read[my.table => col:i64]"]);
  (* :816 *)
  ("test_enhancement_depth_three_nesting_roundtrip", with_extensions [(XtEnhancement, hint_extension)], Same ["=== Plan";
      "Root[result]";
      "  Sort[($0, &AscNullsFirst) => $0]";
      "    Filter[$0 => $0]";
      "      Read[my.table => col:i64]";
      "        + Enh:PartitionHint[&RANGE]"])].
Example adv_extension_roundtrip_pass : map (fun t => fst (fst t)) (filter (fun t => negb (run (snd (fst t)) (snd t))) adv_extension_roundtrip) = [].
Proof. vm_compute. reflexivity. Qed.

Definition extension_roundtrip : list (string * registry * repo_test) := [
  (* :101 *)
  ("test_extension_leaf_roundtrip", with_extensions [(XtRelation, user_table_config)], Same ["";
      "=== Plan";
      "Root[result]";
      "  ExtensionLeaf:UserTable[name='customers', version=2, temp=true => id:string, region:string]";
      ""]);
  (* :122 *)
  ("test_extension_without_registry", with_extensions [], Rejected ["";
      "=== Plan";
      "Root[result]";
      "  ExtensionLeaf:UnknownExtension[arg1='value1', arg2=42 => col1:i32, col2:string]";
      ""]);
  (* :274 *)
  ("test_extension_literal_roundtrip", with_extensions [(XtRelation, literal_config)], Same ["";
      "=== Plan";
      "Root[result]";
      "  ExtensionLeaf:LiteralTest[path='data/source', big=1099511627776, ratio=3.25, enabled=false => value:string]";
      ""]);
  (* :293 *)
  ("test_extension_unknown_arguments", with_extensions [(XtRelation, user_table_config)], Rejected ["";
      "=== Plan";
      "Root[result]";
      "  ExtensionLeaf:UserTable[name='customers', version=2, invalid_arg=true => id:string]";
      ""]);
  (* :351 *)
  ("test_extension_empty_args_roundtrip", with_extensions [(XtRelation, empty_source)], Same ["";
      "=== Plan";
      "Root[result]";
      "  ExtensionLeaf:EmptySource[_ => ]";
      ""]);
  (* :373 *)
  ("test_extension_string_escaping_roundtrip", with_extensions [(XtRelation, user_table_config)], Same ["";
      "=== Plan";
      "Root[result]";
      "  ExtensionLeaf:UserTable[name='it\'s a \""test\\path', version=1, temp=false => col:string]";
      ""]);
  (* :472 *)
  ("test_extension_single_over_read_roundtrip", with_extensions [(XtRelation, pass_through)], Same ["=== Plan";
      "Root[a, b, c, d]";
      "  ExtensionSingle:PassThrough[_ => $0, $1, $2, $3]";
      "    Read[my.table => a:i64, b:i64, c:i64, d:i64]"]);
  (* :490 *)
  ("test_extension_single_input_output_uses_emitted_child_width", with_extensions [(XtRelation, pass_through)], Same ["=== Plan";
      "Root[a, d]";
      "  ExtensionSingle:PassThrough[_ => $0, $1]";
      "    Project[$0, $3]";
      "      Read[my.table => a:i64, b:i64, c:i64, d:i64]"]);
  (* :513 *)
  ("test_extension_multi_roundtrip", with_extensions [(XtRelation, binary_merge)], Same ["=== Plan";
      "Root[a, b]";
      "  ExtensionMulti:BinaryMerge[_ => $0, $1]";
      "    Read[left => a:i64]";
      "    Read[right => b:i64]"]);
  (* :536 *)
  ("test_enhancement_on_read_under_extension_single", with_extensions [(XtRelation, pass_through); (XtEnhancement, hint_extension)], Same ["=== Plan";
      "Root[col]";
      "  ExtensionSingle:PassThrough[_ => $0]";
      "    Read[my.table => col:i64]";
      "      + Enh:PartitionHint[&HASH]"]);
  (* :654 *)
  ("test_tuple_sort_hint_roundtrip", with_extensions [(XtEnhancement, tuple_sort_hint)], Same ["=== Plan";
      "Root[result]";
      "  Read[my.table => col:i64]";
      "    + Enh:TupleSortHint[(&ASC, &DESC)]"]);
  (* :674 *)
  ("test_tuple_sort_hint_empty_tuple_roundtrip", with_extensions [(XtEnhancement, tuple_sort_hint)], Same ["=== Plan";
      "Root[result]";
      "  Read[my.table => col:i64]";
      "    + Enh:TupleSortHint[()]"])].
Example extension_roundtrip_pass : map (fun t => fst (fst t)) (filter (fun t => negb (run (snd (fst t)) (snd t))) extension_roundtrip) = [].
Proof. vm_compute. reflexivity. Qed.

Definition extension_table : list (string * registry * repo_test) := [
  (* :79 *)
  ("read_roundtrip", examples_registry, Same ["";
      "=== Plan";
      "Root[id, payload]";
      "  Read:Extension[id:i64, payload:string]";
      "    + Ext:BlobStoreRead['path/to/file', limit=100, include_archived=true]";
      ""]);
  (* :99 *)
  ("read_with_advanced_extensions_roundtrip", examples_registry, Same ["";
      "=== Plan";
      "Root[id]";
      "  Read:Extension[id:i64]";
      "    + Ext:BlobStoreRead['path/to/file']";
      "    + Enh:PartitionHint[&HASH, count=8]";
      "    + Opt:PlanHint[hint='parallel']";
      ""]);
  (* :121 *)
  ("missing_ext_fails", with_extensions [(XtTable, user_table)], Rejected ["";
      "=== Plan";
      "Root[id]";
      "  Read:Extension[id:i64]";
      ""]);
  (* :136 *)
  ("duplicate_ext_fails", with_extensions [(XtTable, user_table)], Rejected ["";
      "=== Plan";
      "Root[id]";
      "  Read:Extension[id:i64]";
      "    + Ext:UserTable[name='customers']";
      "    + Ext:UserTable[name='other_customers']";
      ""]);
  (* :153 *)
  ("ext_on_named_read_fails", with_extensions [(XtTable, user_table)], Rejected ["";
      "=== Plan";
      "Root[id]";
      "  Read[data => id:i64]";
      "    + Ext:UserTable[name='customers']";
      ""]);
  (* :169 *)
  ("ext_on_relation_fails", with_extensions [(XtTable, user_table); (XtRelation, user_table)], Rejected ["";
      "=== Plan";
      "Root[id]";
      "  ExtensionLeaf:UserTable[name='customers' => id:string]";
      "    + Ext:UserTable[name='other_customers']";
      ""])].
Example extension_table_pass : map (fun t => fst (fst t)) (filter (fun t => negb (run (snd (fst t)) (snd t))) extension_table) = [].
Proof. vm_compute. reflexivity. Qed.

(** ** The tests that look further *)

(** A text read with one registry and written with another: the text and the errors. *)
Definition rewritten (reg reg' : registry) (t : list string) : option (list N * list ferr) :=
  match parse reg (T t) with
  | Ok p => let o := format reg' opts_default p in Some (o_text o, o_errs o)
  | _ => None
  end.
Definition hints := with_extensions [(XtEnhancement, hint_extension)].
Definition hinted : list string := ["=== Plan"; "Root[result]"; "  Read[my.table => col:i64]"; "    + Enh:PartitionHint[&HASH]"].

(** adv_extension_roundtrip.rs:124 *)
Example test_enhancement_attaches_to_filter_not_read :
  match parse hints (T ["=== Plan"; "Root[result]"; "  Filter[$0 => $0]"; "    + Enh:PartitionHint[&BROADCAST]"; "    Read[my.table => col:i64]"]) with
  | Ok p => match pl_rels _ p with
            | [PRoot _ (Some (RFilter _ (Some (RRead r)) _ (Some _)))] => rd_adv r = None
            | _ => False
            end
  | _ => False
  end.
Proof. vm_compute. reflexivity. Qed.
(** adv_extension_roundtrip.rs:283 and :473 *)
Example test_unregistered_enhancement_produces_failure_token_at_textify_time :
  match rewritten hints registry_new hinted with
  | Some (s, es) => s = T ["=== Plan"; "Root[result]"; "  Read[my.table => col:i64]"; "    + Enh[!{extension}]"; ""] /\ exists what, es = [FExtension what]
  | None => False
  end.
Proof. vm_compute. split; [reflexivity|]. eexists. reflexivity. Qed.
(** adv_extension_roundtrip.rs:580 *)
Example test_project_over_extension_leaf_emit_mapping :
  match parse (with_extensions [(XtRelation, two_column_scan)])
          (T ["=== Plan"; "Root[result]"; "  Project[$0, $1, 42]"; "    ExtensionLeaf:TwoColumnScan[_ => col0:i64, col1:i32]"]) with
  | Ok p => match pl_rels _ p with
            | [PRoot _ (Some (RProject (Some c) _ _ _))] => rc_emit c = Some EmDirect
            | _ => False
            end
  | _ => False
  end.
Proof. vm_compute. reflexivity. Qed.
(** adv_extension_roundtrip.rs:895 *)
Example test_adv_ext_output_columns_produces_failure_token :
  let reg := with_extensions [(XtEnhancement, enhancement_with_columns)] in
  match rewritten reg reg ["=== Plan"; "Root[result]"; "  Read[my.table => col:i64]"; "    + Enh:EnhancementWithColumns[_]"] with
  | Some (s, es) => s = T ["=== Plan"; "Root[result]"; "  Read[my.table => col:i64]"; "    + Enh[!{addendum}]"; ""] /\ exists k m, es = [FPlan k m]
  | None => False
  end.
Proof. vm_compute. split; [reflexivity|]. eexists _, _. reflexivity. Qed.
(** adv_extension_roundtrip.rs:942 *)
Example test_partition_strategy_str_names_roundtrip : map (fun z => strategy_of_name (strategy_name z)) [0; 1; 2; 3]%Z = map Some [0; 1; 2; 3]%Z.
Proof. vm_compute. reflexivity. Qed.
(** extension_roundtrip.rs:175 *)
Example test_multiple_extensions_in_plan :
  match parse (with_extensions [(XtRelation, user_table_config); (XtRelation, filter_config)])
          (T [""; "=== Plan"; "Root[result]"; "  ExtensionSingle:TestFilter[expr='status = ""active""' => $0, $1]";
              "    ExtensionLeaf:UserTable[name='users_prod', version=1, temp=false => id:i64, status:string]"; ""]) with
  | Ok p => length (pl_rels _ p) = 1
  | _ => False
  end.
Proof. vm_compute. reflexivity. Qed.
(** extension_roundtrip.rs:565 *)
Example test_extension_leaf_unknown_type_url_textify_is_lenient :
  match rewritten (with_extensions [(XtRelation, user_table_config)]) registry_new
          ["=== Plan"; "Root[result]"; "  ExtensionLeaf:UserTable[name='customers', version=2, temp=true => id:string, region:string]"] with
  | Some (s, es) => starts_with (T ["=== Plan"; "Root[result]"; "  ExtensionLeaf[!{"]) s = true /\ es <> []
  | None => False
  end.
Proof. vm_compute. split; [reflexivity|discriminate]. Qed.
(** extension_roundtrip.rs:691 *)
Example test_tuple_sort_hint_from_args_rejects_non_tuple :
  match parse_with_type (with_extensions [(XtEnhancement, tuple_sort_hint)]) XtEnhancement (L "TupleSortHint") (mk_xargs [XEnum (L "ASC")] [] []) with
  | Err _ => True | _ => False
  end.
Proof. vm_compute. exact I. Qed.
(** extension_roundtrip.rs:711 *)
Example test_try_from_expr :
  as_expr (XExpr (ELit (mk_lit (Some (LI64 42)) false 0))) = Ok (ELit (mk_lit (Some (LI64 42)) false 0)) /\ as_expr (XEnum (L "Wrong")) = Err XInvalidType.
Proof. split; reflexivity. Qed.
(** extension_roundtrip.rs:729-777 *)
Example test_extension_proto_convert_schema_columns_roundtrip :
  let cols := [XNamed (L "id") i64_type; XNamed (L "name") (TSimple SString NNullable 0)] in
  match columns_to_struct cols with
  | Ok s => ns_names s = [L "id"; L "name"] /\ struct_to_columns s = Ok cols
  | _ => False
  end.
Proof. vm_compute. split; reflexivity. Qed.
Example test_extension_proto_convert_schema_rejects_references :
  match columns_to_struct [column_field 0] with Err _ => True | _ => False end.
Proof. vm_compute. exact I. Qed.
Example test_extension_proto_convert_columns_rejects_mismatch :
  match struct_to_columns (mk_named_struct [L "a"; L "b"] (Some ([i64_type], 0%N, NRequired))) with Err _ => True | _ => False end.
Proof. vm_compute. exact I. Qed.
