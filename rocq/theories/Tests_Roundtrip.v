(** Tests, not proofs: the round-trip tests of /repo/tests/plan_roundtrip.rs,
    literal_roundtrip.rs and multi_line_roundtrip.rs, copied text by text and run
    through the model.  They check that the model behaves like the program on the
    texts whose behaviour the crate's own tests record. *)
From Coq Require Import String List NArith ZArith Bool.
From Verif Require Import Base Peg Names SpecNames NamesFacts SimpleExt Out Anchors Types Literals Exprs ExtArgs Registry
  Rels RelGrammar RelRead Tree Structural Version Plan Tests_Base.
Import ListNotations.
Local Open Scope string_scope. Local Open Scope list_scope.
#[local] Existing Instance ascii_tables. #[local] Existing Instance text_floats.

(** [roundtrip_plan] and [assert_roundtrip_canonical], /repo/tests/common/mod.rs:15-80:
    a text that is read and written back as it stands, a text written back as
    another, a text that must be refused. *)
Inductive repo_test :=
| Same (text : list string)
| Becomes (text canonical : list string)
| Rejected (text : list string).
Definition T (ls : list string) : list N := join [10%N] (map L ls).
Definition written_as (a b : list N) : bool :=
  match parse registry_new a with
  | Ok p => let o := format registry_new opts_default p in
            match o_errs o, o_panics o with [], [] => streqb (o_text o) (b ++ [10%N]) | _, _ => false end
  | _ => false
  end.
Definition run (t : repo_test) : bool :=
  match t with
  | Same a => written_as (T a) (T a)
  | Becomes a b => written_as (T a) (T b)
  | Rejected a => match parse registry_new (T a) with Err _ => true | _ => false end
  end.

Definition plan_roundtrip : list (string * repo_test) := [
  (* :14 *)
  ("test_simple_plan_roundtrip", Same ["=== Plan";
      "Root[c, d]";
      "  Filter[$0 => $0, $1]";
      "    Project[$1, 42]";
      "      Read[my.table => a:i32, b:string?, c:boolean]"]);
  (* :27 *)
  ("test_read_explicit_direct_roundtrip", Same ["=== Plan";
      "Root[a, b]";
      "  Read[my.table => a:i32, b:string?]"]);
  (* :27 *)
  ("test_read_explicit_direct_roundtrip", Becomes ["=== Plan";
      "Root[a, b]";
      "  Read[my.table +> a:i32, b:string?]"]
     ["=== Plan";
      "Root[a, b]";
      "  Read[my.table => a:i32, b:string?]"]);
  (* :39 *)
  ("test_read_explicit_emit_roundtrip", Same ["=== Plan";
      "Root[c, a]";
      "  Read[my.table +> a:i32, b:string?, c:boolean |> $2, $0]"]);
  (* :48 *)
  ("test_plan_with_extensions_roundtrip", Same ["=== Extensions";
      "URNs:";
      "  @  1: https://github.com/substrait-io/substrait/blob/main/extensions/functions_arithmetic.yaml";
      "Functions:";
      "  # 10 @  1: add";
      "  # 11 @  1: multiply";
      "";
      "=== Plan";
      "Root[result]";
      "  Project[$0, $1, add($0, $1):i32?]";
      "    Read[table1 => col1:i32?, col2:i32?]"]);
  (* :65 *)
  ("test_complex_plan_roundtrip", Same ["=== Extensions";
      "URNs:";
      "  @  1: https://github.com/substrait-io/substrait/blob/main/extensions/functions_arithmetic.yaml";
      "  @  2: https://github.com/substrait-io/substrait/blob/main/extensions/functions_aggregate.yaml";
      "Functions:";
      "  # 10 @  1: add";
      "  # 11 @  2: sum";
      "  # 12 @  2: count";
      "";
      "=== Plan";
      "Root[name, parent, sum, count]";
      "  Project[$0, $3, $1, $2]";
      "    Read[schema.table => name:string?, parent:string?, sum:fp64?, count:fp64?]"]);
  (* :84 *)
  ("test_plan_with_verbose_and_simple_output", Same ["=== Extensions";
      "URNs:";
      "  @  1: https://github.com/substrait-io/substrait/blob/main/extensions/functions_arithmetic.yaml";
      "Functions:";
      "  # 10 @  1: coalesce";
      "";
      "=== Plan";
      "Root[name, num]";
      "  Project[$1, coalesce($1, $2):fp64?]";
      "    Read[schema.table => name:string?, num:fp64?, other_num:fp64?, id:i64]"]);
  (* :84 *)
  ("test_plan_with_verbose_and_simple_output", Becomes ["=== Extensions";
      "URNs:";
      "  @  1: https://github.com/substrait-io/substrait/blob/main/extensions/functions_arithmetic.yaml";
      "Functions:";
      "  # 10 @  1: coalesce";
      "";
      "=== Plan";
      "Root[name, num]";
      "  Project[$1, coalesce#10($1, $2):fp64?]";
      "    Read[schema.table => name:string?, num:fp64?, other_num:fp64?, id:i64]"]
     ["=== Extensions";
      "URNs:";
      "  @  1: https://github.com/substrait-io/substrait/blob/main/extensions/functions_arithmetic.yaml";
      "Functions:";
      "  # 10 @  1: coalesce";
      "";
      "=== Plan";
      "Root[name, num]";
      "  Project[$1, coalesce($1, $2):fp64?]";
      "    Read[schema.table => name:string?, num:fp64?, other_num:fp64?, id:i64]"]);
  (* :111 *)
  ("test_multiple_relations_roundtrip", Same ["=== Plan";
      "Root[name, num, id]";
      "  Project[$0, $1, $2]";
      "    Read[t1 => name:string?, num:fp64, id:i64]";
      "";
      "Root[name, num, id]";
      "  Filter[$0 => $0, $1, $2]";
      "    Read[schema.table => name:string?, num:fp64?, id:i64]"]);
  (* :125 *)
  ("test_plan_with_fetch_and_sort_roundtrip", Same ["=== Plan";
      "Root[name, num, id]";
      "  Project[$0, $1, $2]";
      "    Read[schema.table => name:string?, num:fp64?, id:i64]"]);
  (* :135 *)
  ("test_plan_with_extension_leaf_roundtrip", Same ["=== Plan";
      "Root[name, some_value]";
      "  Project[$0, $1]";
      "    Read[schema.table => name:string?, some_value:fp64?]"]);
  (* :145 *)
  ("test_aggregate_relation_roundtrip", Same ["=== Extensions";
      "URNs:";
      "  @  1: https://github.com/substrait-io/substrait/blob/main/extensions/functions_aggregate.yaml";
      "Functions:";
      "  # 10 @  1: sum";
      "  # 11 @  1: count";
      "";
      "=== Plan";
      "Root[category, total, count]";
      "  Aggregate[$0 => sum($1):fp64?, count($1):i64]";
      "    Read[orders => category:string?, amount:fp64?]"]);
  (* :162 *)
  ("test_aggregate_multiple_grouping_sets_roundtrip", Same ["=== Extensions";
      "URNs:";
      "  @  1: https://github.com/substrait-io/substrait/blob/main/extensions/functions_aggregate.yaml";
      "Functions:";
      "  # 10 @  1: sum";
      "  # 11 @  1: count";
      "";
      "=== Plan";
      "Root[sum, category, count]";
      "  Aggregate[($0, $1), ($0), _ => sum($2):fp64?, $0, count($2):i64]";
      "    Read[orders => category:string?, region:string?, amount:fp64?]"]);
  (* :179 *)
  ("test_global_aggregate_relation_roundtrip", Same ["=== Extensions";
      "URNs:";
      "  @  1: https://github.com/substrait-io/substrait/blob/main/extensions/functions_aggregate.yaml";
      "Functions:";
      "  # 10 @  1: sum";
      "  # 11 @  1: count";
      "";
      "=== Plan";
      "Root[sum, count]";
      "  Aggregate[_ => sum($2):fp64?, count($2):i64]";
      "    Read[orders => category:string?, region:string?, amount:fp64?]"]);
  (* :196 *)
  ("test_sort_relation_roundtrip", Same ["=== Plan";
      "Root[a, b]";
      "  Sort[($0, &AscNullsFirst), ($1, &DescNullsLast) => $0, $1]";
      "    Read[table => a:i32, b:string]"]);
  (* :205 *)
  ("test_sort_relation_with_scalar_function_expressions_roundtrip", Same ["=== Extensions";
      "URNs:";
      "  @  1: https://github.com/substrait-io/substrait/blob/main/extensions/functions_arithmetic.yaml";
      "Functions:";
      "  # 10 @  1: add";
      "";
      "=== Plan";
      "Root[a, b]";
      "  Sort[(add($0, $1):i32, &AscNullsFirst), (add($1, 1:i32):i32, &DescNullsLast) => $0, $1]";
      "    Read[table => a:i32, b:i32]"]);
  (* :221 *)
  ("test_fetch_relation_roundtrip", Same ["=== Plan";
      "Root[a, b]";
      "  Fetch[limit=10, offset=5 => $0, $1]";
      "    Read[table => a:i32, b:string]"]);
  (* :221 *)
  ("test_fetch_relation_roundtrip", Becomes ["=== Plan";
      "Root[a, b]";
      "  Fetch[offset=5, limit=10 => $0, $1]";
      "    Read[table => a:i32, b:string]"]
     ["=== Plan";
      "Root[a, b]";
      "  Fetch[limit=10, offset=5 => $0, $1]";
      "    Read[table => a:i32, b:string]"]);
  (* :221 *)
  ("test_fetch_relation_roundtrip", Same ["=== Plan";
      "Root[a, b]";
      "  Fetch[limit=10 => $0, $1]";
      "    Read[table => a:i32, b:string]"]);
  (* :221 *)
  ("test_fetch_relation_roundtrip", Same ["=== Plan";
      "Root[a, b]";
      "  Fetch[offset=5 => $0, $1]";
      "    Read[table => a:i32, b:string]"]);
  (* :221 *)
  ("test_fetch_relation_roundtrip", Same ["=== Plan";
      "Root[a, b]";
      "  Fetch[_ => $0, $1]";
      "    Read[table => a:i32, b:string]"]);
  (* :254 *)
  ("test_full_name_zero_arg_type_signature_roundtrip", Same ["=== Extensions";
      "URNs:";
      "  @  1: extension:io.substrait:functions_aggregate_generic";
      "Functions:";
      "  #  1 @  1: count:";
      "";
      "=== Plan";
      "Root[n]";
      "  Project[count():i64]";
      "    Read[events => n:i64]"]);
  (* :271 *)
  ("test_no_sig_function_unique_no_anchor", Same ["=== Extensions";
      "URNs:";
      "  @  1: urn:substrait:vendor_a";
      "Functions:";
      "  #  1 @  1: add";
      "";
      "=== Plan";
      "Root[result]";
      "  Project[$0, $1, add($0, $1):i64]";
      "    Read[t => a:i64, b:i64]"]);
  (* :288 *)
  ("test_ambiguous_base_name_fails", Rejected ["=== Extensions";
      "URNs:";
      "  @  1: urn:substrait:vendor_a";
      "Functions:";
      "  #  1 @  1: add";
      "  #  2 @  1: add:";
      "";
      "=== Plan";
      "Root[result]";
      "  Project[add($0, $1)]";
      "    Read[t => a:i64, b:i64]"]);
  (* :308 *)
  ("test_no_sig_and_zero_arg_disambiguate_without_anchor", Same ["=== Extensions";
      "URNs:";
      "  @  1: urn:substrait:vendor_a";
      "Functions:";
      "  #  1 @  1: add";
      "  #  2 @  1: add:";
      "";
      "=== Plan";
      "Root[result]";
      "  Project[$0, $1, add#1($0, $1):i64, add:($0, $1):i64]";
      "    Read[t => a:i64, b:i64]"]);
  (* :327 *)
  ("test_three_add_variants_all_require_anchors", Same ["=== Extensions";
      "URNs:";
      "  @  1: urn:substrait:vendor_a";
      "  @  2: urn:substrait:vendor_b";
      "Functions:";
      "  #  1 @  1: add";
      "  #  2 @  1: add:";
      "  #  3 @  2: add:";
      "";
      "=== Plan";
      "Root[result]";
      "  Project[$0, $1, add#1($0, $1):i64, add:#2($0, $1):i64, add:#3($0, $1):i64]";
      "    Read[t => a:i64, b:i64]"]);
  (* :345 *)
  ("test_u_prefix_type_in_schema_roundtrip", Same ["=== Extensions";
      "URNs:";
      "  @  1: https://example.com/types";
      "Types:";
      "  #  5 @  1: json";
      "";
      "=== Plan";
      "Root[result]";
      "  Project[$0]";
      "    Read[data => doc:json]"]);
  (* :345 *)
  ("test_u_prefix_type_in_schema_roundtrip", Becomes ["=== Extensions";
      "URNs:";
      "  @  1: https://example.com/types";
      "Types:";
      "  #  5 @  1: json";
      "";
      "=== Plan";
      "Root[result]";
      "  Project[$0]";
      "    Read[data => doc:u!json]"]
     ["=== Extensions";
      "URNs:";
      "  @  1: https://example.com/types";
      "Types:";
      "  #  5 @  1: json";
      "";
      "=== Plan";
      "Root[result]";
      "  Project[$0]";
      "    Read[data => doc:json]"]);
  (* :376 *)
  ("test_u_prefix_type_in_function_declaration_roundtrip", Same ["=== Extensions";
      "URNs:";
      "  @  1: https://example.com/funcs";
      "Functions:";
      "  #  5 @  1: json_extract_path:u!json_str";
      "";
      "=== Plan";
      "Root[result]";
      "  Project[json_extract_path($0, $1):string]";
      "    Read[data => doc:string, path:string]"]);
  (* :376 *)
  ("test_u_prefix_type_in_function_declaration_roundtrip", Same ["=== Extensions";
      "URNs:";
      "  @  1: https://example.com/funcs";
      "Functions:";
      "  #  5 @  1: json_extract_path:u!json_str";
      "";
      "=== Plan";
      "Root[result]";
      "  Project[json_extract_path($0, $1):string]";
      "    Read[data => doc:string, path:string]"]);
  (* :376 *)
  ("test_u_prefix_type_in_function_declaration_roundtrip", Becomes ["=== Extensions";
      "URNs:";
      "  @  1: https://example.com/funcs";
      "Functions:";
      "  #  5 @  1: json_extract_path:u!json_str";
      "";
      "=== Plan";
      "Root[result]";
      "  Project[json_extract_path:u!json_str($0, $1):string]";
      "    Read[data => doc:string, path:string]"]
     ["=== Extensions";
      "URNs:";
      "  @  1: https://example.com/funcs";
      "Functions:";
      "  #  5 @  1: json_extract_path:u!json_str";
      "";
      "=== Plan";
      "Root[result]";
      "  Project[json_extract_path($0, $1):string]";
      "    Read[data => doc:string, path:string]"]);
  (* :407 *)
  ("test_u_prefix_type_in_cast_roundtrip", Same ["=== Extensions";
      "URNs:";
      "  @  1: https://example.com/types";
      "Types:";
      "  #  5 @  1: json";
      "";
      "=== Plan";
      "Root[result]";
      "  Project[($0)::json]";
      "    Read[data => doc:string]"]);
  (* :407 *)
  ("test_u_prefix_type_in_cast_roundtrip", Same ["=== Extensions";
      "URNs:";
      "  @  1: https://example.com/types";
      "Types:";
      "  #  5 @  1: json";
      "";
      "=== Plan";
      "Root[result]";
      "  Project[($0)::json]";
      "    Read[data => doc:string]"]);
  (* :407 *)
  ("test_u_prefix_type_in_cast_roundtrip", Becomes ["=== Extensions";
      "URNs:";
      "  @  1: https://example.com/types";
      "Types:";
      "  #  5 @  1: json";
      "";
      "=== Plan";
      "Root[result]";
      "  Project[($0)::u!json]";
      "    Read[data => doc:string]"]
     ["=== Extensions";
      "URNs:";
      "  @  1: https://example.com/types";
      "Types:";
      "  #  5 @  1: json";
      "";
      "=== Plan";
      "Root[result]";
      "  Project[($0)::json]";
      "    Read[data => doc:string]"]);
  (* :437 *)
  ("test_join_relation_roundtrip", Same ["=== Extensions";
      "URNs:";
      "  @  1: https://github.com/substrait-io/substrait/blob/main/extensions/functions_comparison.yaml";
      "Functions:";
      "  # 10 @  1: eq";
      "";
      "=== Plan";
      "Root[id, name, amount]";
      "  Join[&Inner, eq($0, $2):boolean => $0, $1, $3]";
      "    Read[users => id:i64, name:string]";
      "    Read[orders => user_id:i64, amount:i32]"]);
  (* :454 *)
  ("test_join_relation_post_join_filter_roundtrip", Same ["=== Extensions";
      "URNs:";
      "  @  1: https://github.com/substrait-io/substrait/blob/main/extensions/functions_comparison.yaml";
      "Functions:";
      "  # 10 @  1: eq";
      "  # 11 @  1: gt";
      "";
      "=== Plan";
      "Root[id, name, amount]";
      "  Join[&Inner, eq($0, $2):boolean, post_filter=gt($3, 100:i32):boolean => $0, $1, $3]";
      "    Read[users => id:i64, name:string]";
      "    Read[orders => user_id:i64, amount:i32]"]);
  (* :472 *)
  ("test_right_semi_join_relation_post_join_filter_roundtrip", Same ["=== Extensions";
      "URNs:";
      "  @  1: https://github.com/substrait-io/substrait/blob/main/extensions/functions_comparison.yaml";
      "Functions:";
      "  # 10 @  1: eq";
      "  # 11 @  1: gt";
      "";
      "=== Plan";
      "Root[user_id, amount]";
      "  Join[&RightSemi, eq($0, $2):boolean, post_filter=gt($1, 100:i32):boolean => $0, $1]";
      "    Read[users => id:i64, name:string]";
      "    Read[orders => user_id:i64, amount:i32]"]);
  (* :490 *)
  ("test_join_relation_semi_types_roundtrip", Same ["=== Extensions";
      "URNs:";
      "  @  1: https://github.com/substrait-io/substrait/blob/main/extensions/functions_comparison.yaml";
      "Functions:";
      "  # 10 @  1: eq";
      "";
      "=== Plan";
      "Root[a, b]";
      "  Join[&LeftSemi, eq($0, $2):boolean => $0, $1]";
      "    Read[left_table => a:i32, b:string]";
      "    Read[right_table => c:i32, d:string]"]);
  (* :507 *)
  ("test_join_relation_right_mark_roundtrip", Same ["=== Extensions";
      "URNs:";
      "  @  1: https://github.com/substrait-io/substrait/blob/main/extensions/functions_comparison.yaml";
      "Functions:";
      "  # 10 @  1: eq";
      "";
      "=== Plan";
      "Root[d, mark]";
      "  Join[&RightMark, eq($0, $2):boolean => $2, $3]";
      "    Read[left_table => a:i32, b:string]";
      "    Read[right_table => c:i32, d:string, e:boolean]"]);
  (* :526 *)
  ("test_set_relation_union_all_roundtrip", Same ["=== Plan";
      "Root[a, b]";
      "  Set[&UnionAll => $0, $1]";
      "    Read[table1 => a:i64, b:string]";
      "    Read[table2 => c:i64, d:string]"]);
  (* :537 *)
  ("test_set_relation_union_distinct_multi_input_roundtrip", Same ["=== Plan";
      "Root[a, b]";
      "  Set[&UnionDistinct => $0, $1]";
      "    Read[table1 => a:i64, b:string]";
      "    Read[table2 => c:i64, d:string]";
      "    Read[table3 => e:i64, f:string]"]);
  (* :549 *)
  ("test_set_relation_minus_primary_roundtrip", Same ["=== Plan";
      "Root[a, b]";
      "  Set[&MinusPrimary => $0, $1]";
      "    Read[table1 => a:i64, b:string]";
      "    Read[table2 => c:i64, d:string]"]);
  (* :560 *)
  ("test_set_relation_non_identity_emit_roundtrip", Same ["=== Plan";
      "Root[a, c]";
      "  Set[&UnionDistinct => $0, $2]";
      "    Read[table1 => a:i64, b:string, c:i64]";
      "    Read[table2 => d:i64, e:string, f:i64]";
      "    Read[table3 => g:i64, h:string, i:i64]"]);
  (* :572 *)
  ("test_set_relation_requires_two_children", Rejected ["=== Plan";
      "Root[a, b]";
      "  Set[&UnionAll => $0, $1]";
      "    Read[table1 => a:i64, b:string]"]);
  (* :587 *)
  ("test_set_relation_requires_matching_input_widths", Rejected ["=== Plan";
      "Root[a, b]";
      "  Set[&UnionAll => $0, $1]";
      "    Read[table1 => a:i64]";
      "    Read[table2 => c:i64, d:string]"]);
  (* :603 *)
  ("test_cross_relation_roundtrip", Same ["=== Plan";
      "Root[a, b, c, d]";
      "  Cross[$0, $1, $2, $3]";
      "    Read[table1 => a:i64, b:string]";
      "    Read[table2 => c:i64, d:string]"]);
  (* :615 *)
  ("test_cross_relation_uneven_widths_roundtrip", Same ["=== Plan";
      "Root[a, b, c]";
      "  Cross[$0, $1, $2]";
      "    Read[table1 => a:i64]";
      "    Read[table2 => c:i64, d:string]"]);
  (* :626 *)
  ("test_cross_relation_non_identity_emit_roundtrip", Same ["=== Plan";
      "Root[a, c]";
      "  Cross[$0, $2]";
      "    Read[table1 => a:i64, b:string]";
      "    Read[table2 => c:i64, d:string]"]);
  (* :637 *)
  ("test_cross_relation_requires_two_children", Rejected ["=== Plan";
      "Root[a, b]";
      "  Cross[$0, $1]";
      "    Read[table1 => a:i64, b:string]"]);
  (* :652 *)
  ("test_set_relation_rejects_invalid_but_divisible_widths", Rejected ["=== Plan";
      "Root[a, b, c]";
      "  Set[&UnionAll => $0, $1, $2]";
      "    Read[table1 => a:i64, b:string]";
      "    Read[table2 => c:i64, d:string, e:i64, f:string]"]);
  (* :672 *)
  ("test_unregistered_extension_error", Rejected ["=== Plan";
      "Root[result]";
      "  ExtensionLeaf:UnknownExtension[path='test.parquet' => col1:i32]"]);
  (* :692 *)
  ("test_malformed_input_error_handling", Rejected ["=== Plan";
      "Root[result]";
      "  ExtensionLeaf:TestExtension[path='test.parquet', missing_close => col1:i32"]);
  (* :722 *)
  ("test_overloaded_functions_verbose_shows_signature_and_anchor", Same ["=== Extensions";
      "URNs:";
      "  @  1: extension:io.substrait:functions_comparison";
      "Functions:";
      "  #  1 @  1: equal:any_any";
      "  #  2 @  1: equal:str_str";
      "";
      "=== Plan";
      "Root[result]";
      "  Project[$0, equal:any_any($0, $1):boolean, equal:str_str($0, $1):boolean]";
      "    Read[t => a:i64, b:i64, c:string]"]);
  (* :722 *)
  ("test_overloaded_functions_verbose_shows_signature_and_anchor", Same ["=== Extensions";
      "URNs:";
      "  @  1: extension:io.substrait:functions_comparison";
      "Functions:";
      "  #  1 @  1: equal:any_any";
      "  #  2 @  1: equal:str_str";
      "";
      "=== Plan";
      "Root[result]";
      "  Project[$0, equal:any_any($0, $1):boolean, equal:str_str($0, $1):boolean]";
      "    Read[t => a:i64, b:i64, c:string]"]);
  (* :722 *)
  ("test_overloaded_functions_verbose_shows_signature_and_anchor", Becomes ["=== Extensions";
      "URNs:";
      "  @  1: extension:io.substrait:functions_comparison";
      "Functions:";
      "  #  1 @  1: equal:any_any";
      "  #  2 @  1: equal:str_str";
      "";
      "=== Plan";
      "Root[result]";
      "  Project[$0, equal:any_any#1($0, $1):boolean, equal:str_str#2($0, $1):boolean]";
      "    Read[t => a:i64, b:i64, c:string]"]
     ["=== Extensions";
      "URNs:";
      "  @  1: extension:io.substrait:functions_comparison";
      "Functions:";
      "  #  1 @  1: equal:any_any";
      "  #  2 @  1: equal:str_str";
      "";
      "=== Plan";
      "Root[result]";
      "  Project[$0, equal:any_any($0, $1):boolean, equal:str_str($0, $1):boolean]";
      "    Read[t => a:i64, b:i64, c:string]"]);
  (* :761 *)
  ("test_unique_function_compact_omits_signature", Same ["=== Extensions";
      "URNs:";
      "  @  1: extension:io.substrait:functions_arithmetic";
      "Functions:";
      "  #  1 @  1: add:i64_i64";
      "";
      "=== Plan";
      "Root[result]";
      "  Project[$0, add($0, $1):i64]";
      "    Read[t => a:i64, b:i64]"]);
  (* :761 *)
  ("test_unique_function_compact_omits_signature", Becomes ["=== Extensions";
      "URNs:";
      "  @  1: extension:io.substrait:functions_arithmetic";
      "Functions:";
      "  #  1 @  1: add:i64_i64";
      "";
      "=== Plan";
      "Root[result]";
      "  Project[$0, add:i64_i64($0, $1):i64]";
      "    Read[t => a:i64, b:i64]"]
     ["=== Extensions";
      "URNs:";
      "  @  1: extension:io.substrait:functions_arithmetic";
      "Functions:";
      "  #  1 @  1: add:i64_i64";
      "";
      "=== Plan";
      "Root[result]";
      "  Project[$0, add($0, $1):i64]";
      "    Read[t => a:i64, b:i64]"]);
  (* :761 *)
  ("test_unique_function_compact_omits_signature", Same ["=== Extensions";
      "URNs:";
      "  @  1: extension:io.substrait:functions_arithmetic";
      "Functions:";
      "  #  1 @  1: add:i64_i64";
      "";
      "=== Plan";
      "Root[result]";
      "  Project[$0, add($0, $1):i64]";
      "    Read[t => a:i64, b:i64]"]);
  (* :761 *)
  ("test_unique_function_compact_omits_signature", Becomes ["=== Extensions";
      "URNs:";
      "  @  1: extension:io.substrait:functions_arithmetic";
      "Functions:";
      "  #  1 @  1: add:i64_i64";
      "";
      "=== Plan";
      "Root[result]";
      "  Project[$0, add:i64_i64#1($0, $1):i64]";
      "    Read[t => a:i64, b:i64]"]
     ["=== Extensions";
      "URNs:";
      "  @  1: extension:io.substrait:functions_arithmetic";
      "Functions:";
      "  #  1 @  1: add:i64_i64";
      "";
      "=== Plan";
      "Root[result]";
      "  Project[$0, add($0, $1):i64]";
      "    Read[t => a:i64, b:i64]"]);
  (* :805 *)
  ("test_mixed_unique_and_overloaded_functions", Same ["=== Extensions";
      "URNs:";
      "  @  1: extension:io.substrait:functions_comparison";
      "  @  2: extension:io.substrait:functions_string";
      "Functions:";
      "  #  1 @  1: equal:any_any";
      "  #  2 @  1: equal:str_str";
      "  #  3 @  2: like:str_str";
      "";
      "=== Plan";
      "Root[result]";
      "  Project[$0, equal:any_any($0, $1):boolean, equal:str_str($0, $2):boolean, like($0, $2):boolean]";
      "    Read[t => id:i64, score:i64, name:string]"]);
  (* :826 *)
  ("test_same_compound_name_two_urns_requires_anchor", Same ["=== Extensions";
      "URNs:";
      "  @  1: urn:substrait:vendor_a";
      "  @  2: urn:substrait:vendor_b";
      "Functions:";
      "  #  1 @  1: equal:any_any";
      "  #  2 @  2: equal:any_any";
      "";
      "=== Plan";
      "Root[result]";
      "  Project[$0, equal:any_any#1($0, $1):boolean, equal:any_any#2($0, $1):boolean]";
      "    Read[t => a:i64, b:i64]"]);
  (* :846 *)
  ("test_virtual_read_inline_single_row", Same ["=== Plan";
      "Root[id, name]";
      "  Read:Virtual[(1, 'alice') => id:i64, name:string]"]);
  (* :856 *)
  ("test_virtual_read_inline_multi_row", Same ["=== Plan";
      "Root[id, name]";
      "  Read:Virtual[(1, 'alice'), (2, 'bob') => id:i64, name:string]"]);
  (* :866 *)
  ("test_virtual_read_typed_null_roundtrip", Same ["=== Plan";
      "Root[id, name]";
      "  Read:Virtual[(1, null:string?), (2, 'bob') => id:i64, name:string?]"]);
  (* :876 *)
  ("test_virtual_read_empty", Same ["=== Plan";
      "Root[id, name]";
      "  Read:Virtual[_ => id:i64, name:string]"]);
  (* :886 *)
  ("test_virtual_read_filter_roundtrip", Same ["=== Extensions";
      "URNs:";
      "  @  1: https://github.com/substrait-io/substrait/blob/main/extensions/functions_comparison.yaml";
      "Functions:";
      "  # 10 @  1: gt";
      "";
      "=== Plan";
      "Root[id, name]";
      "  Read:Virtual[(1, 'alice'), (2, 'bob'), filter=gt($0, 1):boolean => id:i64, name:string]"]);
  (* :901 *)
  ("test_virtual_read_empty_filter_roundtrip", Same ["=== Extensions";
      "URNs:";
      "  @  1: https://github.com/substrait-io/substrait/blob/main/extensions/functions_comparison.yaml";
      "Functions:";
      "  # 10 @  1: gt";
      "";
      "=== Plan";
      "Root[id, name]";
      "  Read:Virtual[_, filter=gt($0, 1):boolean => id:i64, name:string]"]);
  (* :916 *)
  ("test_virtual_read_single_column", Same ["=== Plan";
      "Root[id]";
      "  Read:Virtual[";
      "    - (1),";
      "    - (2),";
      "    - (3)";
      "    - => id:i64]"]);
  (* :932 *)
  ("test_virtual_read_in_plan_context", Same ["=== Extensions";
      "URNs:";
      "  @  1: https://github.com/substrait-io/substrait/blob/main/extensions/functions_comparison.yaml";
      "Functions:";
      "  # 10 @  1: gt";
      "";
      "=== Plan";
      "Root[name]";
      "  Filter[gt($0, 1):boolean => $0, $1]";
      "    Read:Virtual[";
      "      - (1, 'alice'),";
      "      - (2, 'bob'),";
      "      - (3, 'carol')";
      "      - => id:i64, name:string]"]);
  (* :954 *)
  ("test_virtual_read_no_columns", Same ["=== Plan";
      "Root[]";
      "  Read:Virtual[(), () => ]"]);
  (* :965 *)
  ("test_virtual_read_invalid_expression_returns_error", Rejected ["=== Plan";
      "Root[result]";
      "  Read:Virtual[(unknown_func(1)) => result:i64]"]);
  (* :988 *)
  ("test_emit_read_to_project_with_expression", Same ["=== Extensions";
      "URNs:";
      "  @  1: https://github.com/substrait-io/substrait/blob/main/extensions/functions_arithmetic.yaml";
      "Functions:";
      "  # 10 @  1: add";
      "";
      "=== Plan";
      "Root[sum]";
      "  Project[add($0, $1):i64]";
      "    Read[t => a:i64, b:i64]"]);
  (* :1006 *)
  ("test_emit_filter_to_project_with_expression", Same ["=== Extensions";
      "URNs:";
      "  @  1: https://github.com/substrait-io/substrait/blob/main/extensions/functions_arithmetic.yaml";
      "  @  2: https://github.com/substrait-io/substrait/blob/main/extensions/functions_comparison.yaml";
      "Functions:";
      "  # 10 @  1: add";
      "  # 11 @  2: gt";
      "";
      "=== Plan";
      "Root[sum]";
      "  Project[add($0, $1):i64]";
      "    Filter[gt($2, 0):boolean => $0, $1]";
      "      Read[t => a:i64, b:i64, c:i64]"]);
  (* :1027 *)
  ("test_emit_sort_to_project_with_expression", Same ["=== Extensions";
      "URNs:";
      "  @  1: https://github.com/substrait-io/substrait/blob/main/extensions/functions_arithmetic.yaml";
      "Functions:";
      "  # 10 @  1: add";
      "";
      "=== Plan";
      "Root[sum]";
      "  Project[add($0, $1):i64]";
      "    Sort[($0, &AscNullsFirst) => $0, $1]";
      "      Read[t => a:i64, b:i64]"]);
  (* :1046 *)
  ("test_emit_fetch_to_project_with_expression", Same ["=== Extensions";
      "URNs:";
      "  @  1: https://github.com/substrait-io/substrait/blob/main/extensions/functions_arithmetic.yaml";
      "Functions:";
      "  # 10 @  1: add";
      "";
      "=== Plan";
      "Root[sum]";
      "  Project[add($0, $1):i64]";
      "    Fetch[limit=10, offset=0 => $0, $1]";
      "      Read[t => a:i64, b:i64]"]);
  (* :1065 *)
  ("test_emit_join_to_project_with_expression", Same ["=== Extensions";
      "URNs:";
      "  @  1: https://github.com/substrait-io/substrait/blob/main/extensions/functions_arithmetic.yaml";
      "  @  2: https://github.com/substrait-io/substrait/blob/main/extensions/functions_comparison.yaml";
      "Functions:";
      "  # 10 @  1: add";
      "  # 11 @  2: eq";
      "";
      "=== Plan";
      "Root[sum]";
      "  Project[add($1, $3):i64]";
      "    Join[&Inner, eq($0, $2):boolean => $0, $1, $2, $3]";
      "      Read[users => id:i64, age:i64]";
      "      Read[orders => user_id:i64, amount:i64]"]);
  (* :1087 *)
  ("test_emit_aggregate_to_project_with_expression", Same ["=== Extensions";
      "URNs:";
      "  @  1: https://github.com/substrait-io/substrait/blob/main/extensions/functions_arithmetic.yaml";
      "  @  2: https://github.com/substrait-io/substrait/blob/main/extensions/functions_aggregate.yaml";
      "Functions:";
      "  # 10 @  1: add";
      "  # 11 @  2: sum";
      "";
      "=== Plan";
      "Root[total]";
      "  Project[add($0, $1):i64]";
      "    Aggregate[$0 => $0, sum($1):i64]";
      "      Read[t => category:i64, amount:i64]"]);
  (* :1108 *)
  ("test_emit_virtual_read_to_project_with_expression", Same ["=== Extensions";
      "URNs:";
      "  @  1: https://github.com/substrait-io/substrait/blob/main/extensions/functions_arithmetic.yaml";
      "Functions:";
      "  # 10 @  1: add";
      "";
      "=== Plan";
      "Root[sum]";
      "  Project[add($0, $1):i64]";
      "    Read:Virtual[(1, 2), (3, 4) => a:i64, b:i64]"]);
  (* :1125 *)
  ("test_version_semver_only_roundtrip", Same ["=== Version 0.55.0";
      "=== Plan";
      "Root[a]";
      "  Read[t => a:i64]"]);
  (* :1145 *)
  ("test_version_with_detail_and_extensions_roundtrip", Same ["=== Version 1.2.3";
      "  producer: substrait-explain tests";
      "  git_hash: 1a2b3c4d5e6f7a8b9c0d1e2f3a4b5c6d7e8f9a0b";
      "=== Extensions";
      "URNs:";
      "  @  1: https://github.com/substrait-io/substrait/blob/main/extensions/functions_arithmetic.yaml";
      "Functions:";
      "  # 10 @  1: add";
      "";
      "=== Plan";
      "Root[sum]";
      "  Project[add($0, $1):i64]";
      "    Read[t => a:i64, b:i64]"]);
  (* :1178 *)
  ("test_version_git_hash_only_roundtrip", Same ["=== Version 0.0.0";
      "  git_hash: 1a2b3c4d5e6f7a8b9c0d1e2f3a4b5c6d7e8f9a0b";
      "=== Plan";
      "Root[a]";
      "  Read[t => a:i64]"]);
  (* :1231 *)
  ("test_version_invalid_number_errors", Rejected ["=== Version 0.x.0";
      "=== Plan";
      "Root[a]";
      "  Read[t => a:i64]"])
].
Example plan_roundtrip_agrees : filter (fun t => negb (run (snd t))) plan_roundtrip = [].
Proof. vm_compute. reflexivity. Qed.

Definition literal_roundtrip : list (string * repo_test) := [
  (* :9 *)
  ("test_float_literal_roundtrip", Same ["=== Plan";
      "Root[result]";
      "  Project[3.14, -2.5, 1]";
      "    Read[data => a:i64]"]);
  (* :20 *)
  ("test_boolean_literal_roundtrip", Same ["=== Plan";
      "Root[result]";
      "  Project[true, false]";
      "    Read[data => a:i64]"]);
  (* :31 *)
  ("test_mixed_literal_roundtrip", Same ["=== Plan";
      "Root[result]";
      "  Project[42, 3.14, true, 'hello']";
      "    Read[data => a:i64]"]);
  (* :42 *)
  ("test_negative_literals_roundtrip", Same ["=== Plan";
      "Root[result]";
      "  Project[-42, -3.14, false]";
      "    Read[data => a:i64]"]);
  (* :53 *)
  ("test_date_literal_roundtrip", Same ["=== Plan";
      "Root[result]";
      "  Project['2023-12-25':date]";
      "    Read[data => a:i64]"]);
  (* :64 *)
  ("test_time_literal_roundtrip", Same ["=== Plan";
      "Root[result]";
      "  Project['14:30:45.000000':time]";
      "    Read[data => a:i64]"]);
  (* :75 *)
  ("test_timestamp_literal_roundtrip", Same ["=== Plan";
      "Root[result]";
      "  Project['2023-01-01T12:00:00.000000':timestamp]";
      "    Read[data => a:i64]"]);
  (* :86 *)
  ("test_interval_day_literal_roundtrip", Same ["=== Plan";
      "Root[result]";
      "  Project['-5d 3s':interval_day<0>, '5d 3s 100ns':interval_day<9>]";
      "    Read[data => a:i64]"]);
  (* :97 *)
  ("test_nullable_integer_literal_roundtrip", Same ["=== Plan";
      "Root[result]";
      "  Project[78:i32?, 42:i64?]";
      "    Read[data => a:i64]"]);
  (* :108 *)
  ("test_nullable_boolean_literal_roundtrip", Same ["=== Plan";
      "Root[result]";
      "  Project[true:boolean?, false:boolean?]";
      "    Read[data => a:i64]"]);
  (* :119 *)
  ("test_nullable_float_literal_roundtrip", Same ["=== Plan";
      "Root[result]";
      "  Project[3.14:fp64?, 2.5:fp32?]";
      "    Read[data => a:i64]"]);
  (* :130 *)
  ("test_null_literal_roundtrip", Same ["=== Plan";
      "Root[result]";
      "  Project[null:i64?, null:string?, null:date?]";
      "    Read[data => a:i64]"]);
  (* :141 *)
  ("test_bare_null_literal_requires_type", Rejected ["=== Plan";
      "Root[result]";
      "  Project[null]";
      "    Read[data => a:i64]"]);
  (* :159 *)
  ("test_if_then_expression_roundtrip", Same ["=== Plan";
      "Root[statusq]";
      "  Fetch[limit=10, offset=0 => ]";
      "    Project[if_then(true -> $0, false -> $1, _ -> $2)]";
      "      Read[events.logs => status:string?]"])
].
Example literal_roundtrip_agrees : filter (fun t => negb (run (snd t))) literal_roundtrip = [].
Proof. vm_compute. reflexivity. Qed.

Definition multi_line_roundtrip : list (string * repo_test) := [
  (* :17 *)
  ("test_virtual_read_multiline_single_row", Same ["=== Plan";
      "Root[id, name]";
      "  Read:Virtual[(1, 'alice') => id:i64, name:string]"]);
  (* :17 *)
  ("test_virtual_read_multiline_single_row", Becomes ["=== Plan";
      "Root[id, name]";
      "  Read:Virtual[";
      "    - (1, 'alice')";
      "    - => id:i64, name:string]"]
     ["=== Plan";
      "Root[id, name]";
      "  Read:Virtual[(1, 'alice') => id:i64, name:string]"]);
  (* :34 *)
  ("test_virtual_read_multiline_multi_row", Same ["=== Plan";
      "Root[id, name]";
      "  Read:Virtual[";
      "    - (1, 'alice'),";
      "    - (2, 'bob'),";
      "    - (3, 'carol')";
      "    - => id:i64, name:string]"]);
  (* :34 *)
  ("test_virtual_read_multiline_multi_row", Becomes ["=== Plan";
      "Root[id, name]";
      "  Read:Virtual[(1, 'alice'), (2, 'bob'), (3, 'carol') => id:i64, name:string]"]
     ["=== Plan";
      "Root[id, name]";
      "  Read:Virtual[";
      "    - (1, 'alice'),";
      "    - (2, 'bob'),";
      "    - (3, 'carol')";
      "    - => id:i64, name:string]"]);
  (* :55 *)
  ("test_virtual_read_multiline_filter", Same ["=== Extensions";
      "URNs:";
      "  @  1: https://github.com/substrait-io/substrait/blob/main/extensions/functions_comparison.yaml";
      "Functions:";
      "  # 10 @  1: gt";
      "";
      "=== Plan";
      "Root[id, name]";
      "  Read:Virtual[";
      "    - (1, 'alice'),";
      "    - (2, 'bob'),";
      "    - (3, 'carol'),";
      "    - filter=gt($0, 1):boolean";
      "    - => id:i64, name:string]"]);
  (* :55 *)
  ("test_virtual_read_multiline_filter", Becomes ["=== Extensions";
      "URNs:";
      "  @  1: https://github.com/substrait-io/substrait/blob/main/extensions/functions_comparison.yaml";
      "Functions:";
      "  # 10 @  1: gt";
      "";
      "=== Plan";
      "Root[id, name]";
      "  Read:Virtual[(1, 'alice'), (2, 'bob'), (3, 'carol'), filter=gt($0, 1:i64):boolean => id:i64, name:string]"]
     ["=== Extensions";
      "URNs:";
      "  @  1: https://github.com/substrait-io/substrait/blob/main/extensions/functions_comparison.yaml";
      "Functions:";
      "  # 10 @  1: gt";
      "";
      "=== Plan";
      "Root[id, name]";
      "  Read:Virtual[";
      "    - (1, 'alice'),";
      "    - (2, 'bob'),";
      "    - (3, 'carol'),";
      "    - filter=gt($0, 1):boolean";
      "    - => id:i64, name:string]"]);
  (* :85 *)
  ("test_virtual_read_multiline_typed_null", Same ["=== Plan";
      "Root[id, name]";
      "  Read:Virtual[(1, null:string?), (2, 'bob') => id:i64, name:string?]"]);
  (* :85 *)
  ("test_virtual_read_multiline_typed_null", Becomes ["=== Plan";
      "Root[id, name]";
      "  Read:Virtual[";
      "    - (1, null:string?),";
      "    - (2, 'bob')";
      "    - => id:i64, name:string?]"]
     ["=== Plan";
      "Root[id, name]";
      "  Read:Virtual[(1, null:string?), (2, 'bob') => id:i64, name:string?]"]);
  (* :103 *)
  ("test_virtual_read_multiline_nested_in_plan", Same ["=== Extensions";
      "URNs:";
      "  @  1: https://github.com/substrait-io/substrait/blob/main/extensions/functions_comparison.yaml";
      "Functions:";
      "  # 10 @  1: gt";
      "";
      "=== Plan";
      "Root[name]";
      "  Filter[gt($0, 1):boolean => $0, $1]";
      "    Read:Virtual[(1, 'alice'), (2, 'bob') => id:i64, name:string]"]);
  (* :103 *)
  ("test_virtual_read_multiline_nested_in_plan", Becomes ["=== Extensions";
      "URNs:";
      "  @  1: https://github.com/substrait-io/substrait/blob/main/extensions/functions_comparison.yaml";
      "Functions:";
      "  # 10 @  1: gt";
      "";
      "=== Plan";
      "Root[name]";
      "  Filter[gt($0, 1):boolean => $0, $1]";
      "    Read:Virtual[";
      "      - (1, 'alice'),";
      "      - (2, 'bob')";
      "      - => id:i64, name:string]"]
     ["=== Extensions";
      "URNs:";
      "  @  1: https://github.com/substrait-io/substrait/blob/main/extensions/functions_comparison.yaml";
      "Functions:";
      "  # 10 @  1: gt";
      "";
      "=== Plan";
      "Root[name]";
      "  Filter[gt($0, 1):boolean => $0, $1]";
      "    Read:Virtual[(1, 'alice'), (2, 'bob') => id:i64, name:string]"]);
  (* :157 *)
  ("test_virtual_read_multiline_rejects_child", Rejected ["=== Plan";
      "Root[id]";
      "  Read:Virtual[";
      "    - (1)";
      "    - => id:i64]";
      "    Read[t => x:i64]"]);
  (* :175 *)
  ("test_virtual_read_multiline_rejects_stray_continuation", Rejected ["=== Plan";
      "Root[id]";
      "  Read:Virtual[";
      "    - (1)";
      "    - => id:i64]";
      "    - (99)"]);
  (* :193 *)
  ("test_virtual_read_multiline_rejects_malformed_row", Rejected ["=== Plan";
      "Root[id]";
      "  Read:Virtual[";
      "    - not_a_row";
      "    - => id:i64]"]);
  (* :209 *)
  ("test_virtual_read_two_rows_stays_inline", Same ["=== Plan";
      "Root[id, name]";
      "  Read:Virtual[(1, 'alice'), (2, 'bob') => id:i64, name:string]"]);
  (* :209 *)
  ("test_virtual_read_two_rows_stays_inline", Becomes ["=== Plan";
      "Root[id, name]";
      "  Read:Virtual[";
      "    - (1, 'alice'),";
      "    - (2, 'bob')";
      "    - => id:i64, name:string]"]
     ["=== Plan";
      "Root[id, name]";
      "  Read:Virtual[(1, 'alice'), (2, 'bob') => id:i64, name:string]"])
].
Example multi_line_roundtrip_agrees : filter (fun t => negb (run (snd t))) multi_line_roundtrip = [].
Proof. vm_compute. reflexivity. Qed.

