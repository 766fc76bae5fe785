(** Tests, not proofs: the unit tests of the extension tables, of the extension
    lines and of extension arguments, copied from the [mod tests] of
    /repo/src/extensions/simple.rs, /repo/src/parser/extensions.rs and
    /repo/src/parser/structural.rs, and run through the model. *)
From Coq Require Import String List NArith ZArith Bool.
From Verif Require Import Base Peg Names SpecNames NamesFacts SimpleExt Out Anchors Types Literals Exprs ExtArgs Registry
  Lines ExtLines Rels RelGrammar RelRead Tree Structural Version Plan Tests_Base.
Import ListNotations.
Local Open Scope string_scope. Local Open Scope list_scope.
#[local] Existing Instance ascii_tables. #[local] Existing Instance text_floats.

Definition is_ok {E A} (x : res E A) : bool := match x with Ok _ => true | _ => false end.
Definition is_err {E A} (x : res E A) : bool := match x with Err _ => true | _ => false end.
Definition T (ls : list string) : list N := join [10%N] (map L ls).
Definition rows (ls : list string) : list N := concat (map (fun l => L l ++ [10%N]) ls).
Definition ends_in_nl (ls : list (list N)) : list N := concat (map (fun l => l ++ [10%N]) ls).

(** ** src/extensions/simple.rs *)
Definition urn (a : N) (s : string) : urn_decl := mk_urn a (L s).
Definition fn (a u : N) (s : string) : option ext_decl := Some (mk_decl KFunction u a (L s)).
Definition ty (a u : N) (s : string) : option ext_decl := Some (mk_decl KType u a (L s)).
Definition var (a u : N) (s : string) : option ext_decl := Some (mk_decl KTypeVariation u a (L s)).
Definition kinds : list kind := [KFunction; KType; KTypeVariation].

Example lookup_empty :
  is_err (find_urn exts_empty 1)
  && forallb (fun k => is_err (find_by_anchor exts_empty k 1) && is_err (find_by_name exts_empty k (L "any"))) kinds
  && is_err (lookup_function exts_empty 99) && is_err (resolve_function exts_empty (L "nonexistent") None) = true.
Proof. vm_compute. reflexivity. Qed.

Definition basic := from_extensions [urn 1 "urn1"; urn 2 "urn2"] [fn 10 1 "func1"; ty 20 1 "type1"; var 30 2 "var1"].
Example basic_table :
  snd basic = [] /\ map (find_urn (fst basic)) [1; 2]%N = [Ok (L "urn1"); Ok (L "urn2")]
  /\ is_err (find_urn (fst basic) 3) = true
  /\ map (fun p => find_by_anchor (fst basic) (fst p) (snd p)) [(KFunction, 10%N); (KType, 20%N); (KTypeVariation, 30%N)]
     = [Ok (1%N, L "func1"); Ok (1%N, L "type1"); Ok (2%N, L "var1")]
  /\ map (fun p => is_err (find_by_anchor (fst basic) (fst p) (snd p)))
       [(KFunction, 11%N); (KType, 21%N); (KTypeVariation, 31%N)] = [true; true; true].
Proof. repeat split; vm_compute; reflexivity. Qed.

Definition doubled :=
  from_extensions [urn 1 "urn_old"; urn 1 "urn_new"; urn 2 "second"]
    [fn 10 1 "func_old"; fn 10 2 "func_new"; fn 11 3 "func_missing"].
Example doubled_table :
  snd doubled = [DuplicateUrnAnchor 1 (L "urn_old") (L "urn_new"); DuplicateAnchor KFunction 10 (L "func_old") (L "func_new");
                 InsMissingUrn KFunction 11 (L "func_missing") 3]
  /\ find_urn (fst doubled) 1 = Ok (L "urn_old")
  /\ find_by_anchor (fst doubled) KFunction 10 = Ok (1%N, L "func_old").
Proof. repeat split; vm_compute; reflexivity. Qed.
Example no_mapping_type : snd (from_extensions [] [None]) = [MissingMappingType].
Proof. vm_compute. reflexivity. Qed.
Example bad_variation_name :
  snd (add_extension (fst (add_extension_urn exts_empty (L "urn:example") 1)) KTypeVariation 1 30 (L "u!myvar"))
  = Some (InvalidName KTypeVariation (L "u!myvar")).
Proof. vm_compute. reflexivity. Qed.

Definition named :=
  from_extensions [urn 1 "urn1"]
    [fn 10 1 "name1"; fn 11 1 "name2"; fn 12 1 "name1"; ty 20 1 "type_name1"; var 30 1 "var_name1"].
Example by_name :
  map (fun p => find_by_name (fst named) (fst p) (L (snd p)))
    [(KFunction, "name1"); (KFunction, "name2"); (KType, "type_name1"); (KType, "non_existent_type_name");
     (KTypeVariation, "var_name1"); (KTypeVariation, "non_existent_var_name")]
  = [Err (DuplicateName KFunction (L "name1")); Ok 11%N; Ok 20%N; Err (MissingName KType (L "non_existent_type_name"));
     Ok 30%N; Err (MissingName KTypeVariation (L "non_existent_var_name"))].
Proof. vm_compute. reflexivity. Qed.

Example displayed :
  exts_lines (L "  ") exts_empty = []
  /\ exts_lines (L "  ")
       (fst (from_extensions [urn 1 "/my/urn1"; urn 42 "/another/urn"; urn 4091 "/big/anchor"]
               [fn 10 1 "my_func"; ty 20 1 "my_type"; var 30 42 "my_var"; fn 11 42 "another_func";
                fn 108812 4091 "big_func"]))
     = map L ["=== Extensions"; "URNs:"; "  @  1: /my/urn1"; "  @ 42: /another/urn"; "  @4091: /big/anchor";
              "Functions:"; "  # 10 @  1: my_func"; "  # 11 @ 42: another_func"; "  #108812 @4091: big_func";
              "Types:"; "  # 20 @  1: my_type"; "Type Variations:"; "  # 30 @ 42: my_var"].
Proof. split; vm_compute; reflexivity. Qed.

Example bases :
  map (fun s => cn_base (L s)) ["add:"; "equal:any_any"; "regexp_match_substring:str_str_i64"; "add:i64_i64"]
  = map L ["add"; "equal"; "regexp_match_substring"; "add"].
Proof. vm_compute. reflexivity. Qed.

Definition overloaded :=
  fst (from_extensions [urn 1 "urn:comparison"] [fn 1 1 "equal:any_any"; fn 2 1 "equal:str_str"; fn 3 1 "add:i64_i64"]).
Example looked_up :
  map (lookup_function overloaded) [1; 2; 3]%N
  = [Ok (mk_resolved 1 1 (L "equal:any_any") false true); Ok (mk_resolved 2 1 (L "equal:str_str") false true);
     Ok (mk_resolved 3 1 (L "add:i64_i64") true true)]
  /\ lookup_function (fst (from_extensions [urn 1 "urn1"; urn 2 "urn2"] [fn 1 1 "duplicated"; fn 2 2 "duplicated"])) 1
     = Ok (mk_resolved 1 1 (L "duplicated") false false)
  /\ map (lookup_function (fst (from_extensions [urn 1 "urn1"] [fn 1 1 "equal:any_any"; fn 2 1 "like:str_str"]))) [1; 2]%N
     = [Ok (mk_resolved 1 1 (L "equal:any_any") true true); Ok (mk_resolved 2 1 (L "like:str_str") true true)].
Proof. repeat split; vm_compute; reflexivity. Qed.

Definition resolvable :=
  fst (from_extensions [urn 1 "test_urn"]
         [fn 1 1 "equal:any_any"; fn 2 1 "equal:str_str"; fn 3 1 "add:i64_i64"; fn 4 1 "add:"]).
Definition resolved_anchor (s : string) (a : option N) : option N :=
  match resolve_function resolvable (L s) a with Ok r => Some (rf_anchor r) | _ => None end.
Example resolved_calls :
  map (fun p => resolved_anchor (fst p) (snd p))
    [("equal:any_any", Some 1%N); ("add", Some 3%N); ("add", Some 4%N); ("add:", Some 3%N); ("add", Some 1%N);
     ("equal:any_any", Some 2%N); ("equal:any_any", None); ("equal:str_str", None); ("add:", None);
     ("add:i64_i64", None); ("equal:", None); ("add", None); ("equal", None)]
  = [Some 1; Some 3; Some 4; None; None; None; Some 1; Some 2; Some 4; Some 3; None; None; None]%N.
Proof. vm_compute. reflexivity. Qed.
Example resolved_plain :
  match resolve_function (fst (from_extensions [urn 1 "urn"] [fn 10 1 "coalesce"])) (L "coalesce") None with
  | Ok r => rf_anchor r | _ => 0%N end = 10%N.
Proof. vm_compute. reflexivity. Qed.

(** ** src/parser/extensions.rs *)
Example declarations_read :
  parse_urn_declaration (L "@1: /my/urn1") = Ok (mk_urn 1 (L "/my/urn1"))
  /\ map (fun s => parse_declaration KFunction (L s))
       ["#5@2: my_function_name"; "#10  @200: another_ext_123"; "#1 @2: equal:any_any";
        "#3 @1: regexp_match_substring:str_str_i64"; "#5 @2: json_extract_path:u!json_str"]
     = [Ok (mk_decl KFunction 2 5 (L "my_function_name")); Ok (mk_decl KFunction 200 10 (L "another_ext_123"));
        Ok (mk_decl KFunction 2 1 (L "equal:any_any")); Ok (mk_decl KFunction 1 3 (L "regexp_match_substring:str_str_i64"));
        Ok (mk_decl KFunction 2 5 (L "json_extract_path:u!json_str"))].
Proof. split; vm_compute; reflexivity. Qed.

(** The declarations of a plan's text, written again ([test_extensions_round_trip_plan]
    and [.._with_compound_names]). *)
Definition declarations_again (ls : list string) : option (list N) :=
  match parse registry_new (rows ls) with
  | Ok p => match from_extensions (pl_urns _ p) (pl_decls _ p) with
            | (e, []) => Some (ends_in_nl (exts_lines (L "  ") e))
            | _ => None
            end
  | _ => None
  end.
Definition block1 : list string :=
  ["=== Extensions"; "URNs:"; "  @  1: /urn/common"; "  @  2: /urn/specific_funcs"; "Functions:"; "  # 10 @  1: func_a";
   "  # 11 @  2: func_b_special"; "Types:"; "  # 20 @  1: SomeType"; "Type Variations:"; "  # 30 @  2: VarX"].
Definition block2 : list string :=
  ["=== Extensions"; "URNs:"; "  @  1: extension:io.substrait:functions_string";
   "  @  2: extension:io.substrait:functions_comparison"; "Functions:"; "  #  1 @  2: equal:any_any";
   "  #  2 @  1: regexp_match_substring:str_str"; "  #  3 @  1: regexp_match_substring:str_str_i64"].
Definition block3 : list string :=
  ["=== Extensions"; "URNs:"; "  @  1: /urn/common"; "  @  2: /urn/specific_funcs"; "  @  3: /urn/types_lib";
   "  @  4: /urn/variations_lib"; "Functions:"; "  # 10 @  1: func_a"; "  # 11 @  2: func_b_special";
   "  # 12 @  1: func_c_common"; "Types:"; "  # 20 @  1: CommonType"; "  # 21 @  3: LibraryType";
   "  # 22 @  1: AnotherCommonType"; "Type Variations:"; "  # 30 @  4: VarX"; "  # 31 @  4: VarY"].
Example blocks_again : map declarations_again [block1; block2; block3] = map (fun b => Some (rows b)) [block1; block2; block3].
Proof. vm_compute. reflexivity. Qed.

(** The lines of a block one by one, src/parser/structural.rs [test_parse_basic_block]. *)
Fixpoint feed (x : ext_parser) (ls : list string) : res ext_error ext_parser :=
  match ls with
  | [] => Ok x
  | l :: r => let? x := ext_parse_line x (indented (L l)) in feed x r
  end.
Example block_states :
  match feed xp_default (tl block1) with
  | Ok x => xp_state x = XDecls KTypeVariation
            /\ ends_in_nl (exts_lines (L "  ") (xp_exts x)) = rows block1
            /\ match feed x [""] with Ok x => xp_state x = XExtensions | _ => False end
  | _ => False
  end.
Proof. vm_compute. repeat split. Qed.

Definition ext_plan (header decl : string) (rest : list string) : list N :=
  T (["=== Extensions"; "URNs:"; "  @  1: https://example.com/types"; header; decl; "=== Plan"; "Root[result]"] ++ rest).
Example prefixes :
  map (fun p => is_err (parse registry_new (ext_plan (fst p) (snd p) ["  Read[data => x:i64]"])))
       [("Type Variations:", "  # 30 @  1: u!myvar"); ("Functions:", "  # 21 @  1: u!json_get");
        ("Types:", "  # 10 @  1: mytype:i64_i64"); ("Functions:", "  # 21 @  1: u!bad_func")]
     = [true; true; true; true].
Proof. vm_compute. reflexivity. Qed.
Example prefixed_type_written :
  match parse registry_new (ext_plan "Types:" "  # 11 @  1: u!point" ["  Project[$0]"; "    Read[data => p:point#11]"]) with
  | Ok p => o_text (format registry_new opts_default p)
  | _ => []
  end
  = rows ["=== Extensions"; "URNs:"; "  @  1: https://example.com/types"; "Types:"; "  # 11 @  1: point"; "";
          "=== Plan"; "Root[result]"; "  Project[$0]"; "    Read[data => p:point]"].
Proof. vm_compute. reflexivity. Qed.
Example bad_function_is_a_message :
  match parse registry_new (ext_plan "Functions:" "  # 21 @  1: u!bad_func" ["  Read[data => x:i64]"]) with
  | Err (EExtension _ (XMessage _)) => true
  | _ => false
  end = true.
Proof. vm_compute. reflexivity. Qed.

(** Extension values. *)
Definition value (s : string) : option xvalue :=
  match g_xarg (L s) with
  | Some (c, []) => match lower_xarg exts_empty c with Ok v => Some v | _ => None end
  | _ => None
  end.
Definition EN (s : string) : xvalue := XEnum (L s).
Example values_read :
  map value ["(&HASH, 8, 'hello')"; "()"; "((&HASH, &RANGE), 8)"; "null"; "null:i64?"; "(&HASH,)"; "42"; "42:i64"]
  = map Some [XTuple [EN "HASH"; XInteger 8; XString (L "hello")]; XTuple [];
      XTuple [XTuple [EN "HASH"; EN "RANGE"]; XInteger 8]; XNull;
      XExpr (ELit (mk_lit (Some (LNull (TSimple SI64 NNullable 0))) false 0)); XTuple [EN "HASH"]; XInteger 42;
      XExpr (ELit (mk_lit (Some (LI64 42)) false 0))].
Proof. vm_compute. reflexivity. Qed.
Definition value_text (op : options) (v : xvalue) : list N := o_text (xvalue_out op exts_empty v).
Example values_again :
  map (fun s => option_map (value_text opts_default) (value s))
    ["(&HASH, &RANGE)"; "(&HASH, 8, 'hello')"; "()"; "(&HASH,)"; "((&HASH, &RANGE), 8)"; "null"; "null:i64?"]
  = map (fun s => Some (L s))
    ["(&HASH, &RANGE)"; "(&HASH, 8, 'hello')"; "()"; "(&HASH,)"; "((&HASH, &RANGE), 8)"; "null"; "null:i64?"].
Proof. vm_compute. reflexivity. Qed.
Example scalars_and_expressions :
  let x := XExpr (ELit (mk_lit (Some (LI64 42)) false 0)) in
  (value_text opts_default x, value_text opts_verbose (XInteger 42), value_text opts_verbose x,
   as_expr (XInteger 42), is_err (as_i64 (XExpr (ELit (mk_lit (Some (LNull (TSimple SI64 NNullable 0))) false 0)))))
  = (L "42", L "42", L "42:i64", Ok (ELit (mk_lit (Some (LI64 42)) false 0)), true).
Proof. vm_compute. reflexivity. Qed.
Example addendum_read :
  match g_addendum (L "+ Enh:Foo[(&HASH, &RANGE), count=8]") with
  | Some (Acst k n a, []) =>
      match @lower_name perr n, lower_xargs exts_empty a with
      | Ok n, Ok a => Some (k, n, a)
      | _, _ => None
      end
  | _ => None
  end = Some (XtEnhancement, L "Foo", mk_xargs [XTuple [EN "HASH"; EN "RANGE"]] [(L "count", XInteger 8)] []).
Proof. vm_compute. reflexivity. Qed.
Example child_counts :
  (map (child_count_ok XkMulti) [0; 1; 3], map (child_count_ok XkSingle) [0; 2])%nat = ([true; true; true], [false; false]).
Proof. vm_compute. reflexivity. Qed.

(** ** src/parser/structural.rs *)
Fixpoint chain (r : prel) : list string :=
  match r with
  | RProject _ (Some i) _ _ => "Project" :: chain i
  | RFilter _ (Some i) _ _ => "Filter" :: chain i
  | RRead _ => ["Read"]
  | _ => []
  end.
Definition tops (s : list N) : option (list (option (list (list N)) * list string)) :=
  match parse registry_new s with
  | Ok p => Some (map (fun r => match r with
                                | PRel r => (None, chain r)
                                | PRoot n (Some r) => (Some n, chain r)
                                | _ => (None, [])
                                end) (pl_rels _ p))
  | _ => None
  end.
Example trees_read :
  tops (T ["=== Plan"; "Project[$0, $1, 42, 84]"; "  Filter[$2 => $0, $1]";
           "    Read[my.table => a:i32, b:string?, c:boolean]"]) = Some [(None, ["Project"; "Filter"; "Read"])]
  /\ tops (T ["=== Plan"; "Root[result]"; "  Project[$0, $1]"; "    Read[my.table => a:i32, b:string?]"])
     = Some [(Some [L "result"], ["Project"; "Read"])]
  /\ tops (T ["=== Plan"; "Root[]"; "  Project[$0, $1]"; "    Read[my.table => a:i32, b:string?]"])
     = Some [(Some [], ["Project"; "Read"])].
Proof. repeat split; vm_compute; reflexivity. Qed.
Example full_plan_read :
  match parse registry_new
          (T (block1 ++ [""; "=== Plan"; "Project[$0, $1, 42, 84]"; "  Filter[$2 => $0, $1]";
                         "    Read[my.table => a:i32, b:string?, c:boolean]"])) with
  | Ok p => (pl_urns _ p, pl_decls _ p, length (pl_rels _ p))
            = ([urn 1 "/urn/common"; urn 2 "/urn/specific_funcs"],
               [fn 10 1 "func_a"; fn 11 2 "func_b_special"; ty 20 1 "SomeType"; var 30 2 "VarX"], 1%nat)
  | _ => False
  end.
Proof. vm_compute. reflexivity. Qed.
Definition out_of_order (ls : list string) : bool :=
  match parse registry_new (rows ("" :: ls)) with Err (EValidation _ _) => true | _ => false end.
Example section_order :
  map out_of_order
    [["=== Plan"; "Root[result]"; "  Read[t => a:i32]"; ""; "=== Extensions"; "URNs:"; "  @  1: /urn/common"];
     ["=== Extensions"; "URNs:"; "  @  1: /urn/common"; ""; "=== Extensions"; "URNs:"; "  @  2: /urn/other"; "";
      "=== Plan"; "Root[result]"; "  Read[t => a:i32]"];
     ["=== Plan"; "Root[result]"; "  Read[t => a:i32]"; ""; "=== Version 1.0.0"]] = [true; true; true]
  /\ match parse registry_new
             (rows [""; "=== Version 1.2.3"; "=== Extensions"; "URNs:"; "  @  1: /urn/common"; ""; "=== Plan";
                    "Root[result]"; "  Read[t => a:i32]"]) with
     | Ok p => length (pl_rels _ p) = 1%nat /\ pl_version _ p <> None
     | _ => False
     end.
Proof. split; [ | vm_compute; split; [ | discriminate ] ]; vm_compute; reflexivity. Qed.
