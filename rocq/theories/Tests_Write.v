(** Tests, not proofs: the unit tests of the writer, copied from the [mod tests] of
    /repo/src/textify/{expressions,rels,values}.rs, /repo/src/precision.rs and from
    /repo/src/types_tests.rs, and run through the model. *)
From Coq Require Import String List NArith ZArith Bool.
From Verif Require Import Base Peg Names SpecNames NamesFacts SimpleExt Out Anchors Types Literals Exprs ExtArgs Registry
  Rels RelGrammar RelRead Tree Structural Version Plan Tests_Base Tests_Read.
Import ListNotations.
Local Open Scope string_scope. Local Open Scope list_scope.
#[local] Existing Instance ascii_tables. #[local] Existing Instance text_floats.

(** [TestContext::textify] and [textify_no_errors], /repo/src/fixtures.rs l.77-92. *)
Definition text_errors (o : out) : list N * nat := (o_text o, length (o_errs o)).
Definition clean (s : string) : list N * nat := (L s, 0%nat).
Definition lit_text (l : literal) : list N * nat := text_errors (literal_out opts_default exts_empty l).
Definition x_text (e : exts) (x : pexpr) : list N * nat := text_errors (expr_out opts_default e x).

(** ** src/textify/expressions.rs *)
Example intervals_written :
  map (fun l => lit_text (plain l))
    [iv 5 0 0 6; iv 5 0 0 0; iv 4 5 0 9; iv 0 0 123 3; iv 0 0 123456 6; iv 5 3 123456789 9; iv 0 0 (-500) 12;
     iv 0 0 0 0; iv 0 0 0 9; LInterval (mk_interval 5 0 0 (Some (IvMicroseconds 123)));
     LInterval (mk_interval 5 0 123 None)]
  = map clean ["'5d':interval_day<6>"; "'5d':interval_day<0>"; "'4d 5s':interval_day<9>"; "'123ms':interval_day<3>";
      "'123456us':interval_day<6>"; "'5d 3s 123456789ns':interval_day<9>"; "'-500ps':interval_day<12>";
      "'0s':interval_day<0>"; "'0s':interval_day<9>"; "'5d 123us':interval_day<6>"; "'5d 123us':interval_day<6>"].
Proof. vm_compute. reflexivity. Qed.
Example intervals_with_errors :
  map (fun l => lit_text (plain l))
    [iv 0 0 2 4; iv 0 0 2 13; iv 0 0 2 (-1); iv 0 0 2 0; iv 3650001 0 0 0; iv 3649999 100000 0 0; iv 0 0 1000000000 9]
  = map (fun s => (L s, 1%nat))
      ["!{LiteralType}:interval_day<4>"; "!{LiteralType}:interval_day<13>"; "!{LiteralType}:interval_day<-1>";
       "!{LiteralType}:interval_day<0>"; "'3650001d':interval_day<0>"; "'3649999d 100000s':interval_day<0>";
       "'1000000000ns':interval_day<9>"].
Proof. vm_compute. reflexivity. Qed.
Example nullables_written :
  map (fun l => lit_text (nullable l))
    [iv 5 0 0 6; LBool true; LBool false; LI32 78; LI64 42; LFp32 (fp "2.5"); LFp64 (fp "3.19");
     LPrecisionTimestamp 6 1000; LPrecisionTimestampTz 3 5; LPrecisionTime 0 61]
  = map clean ["'5d':interval_day?<6>"; "true:boolean?"; "false:boolean?"; "78:i32?"; "42:i64?"; "2.5:fp32?"; "3.19:fp64?";
      "'1970-01-01T00:00:00.001000':precisiontimestamp?<6>"; "'1970-01-01T00:00:00.005':precisiontimestamptz?<3>";
      "'00:01:01':precisiontime?<0>"].
Proof. vm_compute. reflexivity. Qed.
Example precision_strings :
  [timestamp_to_string 10 0; timestamp_to_string 123456789 9; timestamp_to_string 123456789500 12;
   timestamp_to_string 0 13; time_to_string 0 0; time_to_string 3661000000 6; time_to_string 3661000000000500 12;
   time_to_string 0 13; time_to_string (-1) 12]
  = [Ok (L "1970-01-01T00:00:10"); Ok (L "1970-01-01T00:00:00.123456789"); Ok (L "1970-01-01T00:00:00.123456789");
     Err UnsupportedPrecision; Ok (L "00:00:00"); Ok (L "01:01:01.000000"); Ok (L "01:01:01.000000000");
     Err UnsupportedPrecision; Err OutOfRange].
Proof. vm_compute. reflexivity. Qed.
Example precisions_with_errors :
  map (fun l => lit_text (plain l))
    [LPrecisionTime 12 3661000000000500; LPrecisionTimestamp 13 0; LPrecisionTimestamp 0 9000000000000;
     LPrecisionTime 0 86460; LPrecisionTime 13 0]
  = map (fun s => (L s, 1%nat))
      ["'01:01:01.000000000':precisiontime<12>"; "!{LiteralType}:precisiontimestamp<13>";
       "!{LiteralType}:precisiontimestamp<0>"; "!{LiteralType}:precisiontime<0>"; "!{LiteralType}:precisiontime<13>"]
  /\ lit_text (nullable (LPrecisionTimestamp 12 123456789500))
     = (L "'1970-01-01T00:00:00.123456789':precisiontimestamp?<12>", 1%nat)
  /\ snd (lit_text (plain (LPrecisionTimestamp 9 123456789))) = 0%nat.
Proof. repeat split; vm_compute; reflexivity. Qed.

Example expressions_written :
  x_text exts_empty ENone = (L "!{RexType}", 1%nat) /\ x_text exts_empty (B true) = clean "true"
  /\ x_text exts_empty (EFunc 1000 [] [] (Some (req SI64))) = (L "!{function}#1000():i64", 1%nat)
  /\ o_errs (expr_out opts_default exts_empty (EFunc 1000 [] [] (Some (req SI64))))
     = [FLookup (MissingAnchor KFunction 1000)]
  /\ x_text (declare (with_urn 1 "first") [(KFunction, 1%N, 100%N, "first")]) (EFunc 100 [] [] (Some (req SI64)))
     = clean "first():i64"
  /\ x_text (declare (fst (add_extension_urn (with_urn 1 "somewhere_on_the_internet") (L "somewhere_else") 2))
               [(KFunction, 1%N, 231%N, "duplicated"); (KFunction, 2%N, 232%N, "duplicated")])
       (EFunc 231 [AValue (B true)] [] (Some (req SBool)))
     = clean "duplicated#231(true):boolean".
Proof. repeat split; vm_compute; reflexivity. Qed.
Example conditionals_written :
  map (x_text exts_empty)
    [EIf [(Some (B true), Some (B false)); (Some (B false), Some (B true))] (Some (B true));
     EIf [(Some (B true), Some (B false))] None]
  = [clean "if_then(true -> false, false -> true, _ -> true)"; (L "if_then(true -> false, _ -> !{Expression})", 1%nat)].
Proof. vm_compute. reflexivity. Qed.
Example casts_written :
  map (x_text exts_empty)
    [ECast 0 (Some (i32l 78)) (Some (req SI16));
     ECast 0 (Some (ECast 0 (Some (i32l 78)) (Some (req SI16)))) (Some (req SI32));
     ECast 1 (Some (i32l 78)) (Some (req SI16)); ECast 2 (Some (i32l 78)) (Some (req SI16));
     ECast 0 None (Some (req SI16)); ECast 0 (Some (i32l 78)) None; ECast 99 (Some (i32l 78)) (Some (req SI16))]
  = [clean "(78:i32)::i16"; clean "((78:i32)::i16)::i32"; clean "(78:i32)::?i16"; clean "(78:i32)::!i16";
     (L "(!{Expression})::i16", 1%nat); (L "(78:i32)::!{Type}", 1%nat); (L "(78:i32)::!{Cast}i16", 1%nat)]
  /\ x_text (declare (with_urn 1 "urn:example:types") [(KType, 1%N, 5%N, "u!json")])
       (ECast 0 (Some (i32l 1)) (Some (TUser 5 [] NRequired 0))) = clean "(1:i32)::json".
Proof. split; vm_compute; reflexivity. Qed.
Example cast_errors :
  map (fun x => o_errs (expr_out opts_default exts_empty x))
    [ECast 0 None (Some (req SI16)); ECast 0 (Some (i32l 78)) None; ECast 99 (Some (i32l 78)) (Some (req SI16))]
  = [[FPlan FInvalid "Expression"]; [FPlan FInvalid "Type"]; [FPlan FInvalid "Cast"]].
Proof. vm_compute. reflexivity. Qed.
Example field_references_written :
  map (fun r => let o := fieldref_out (mk_fieldref (RefDirect (SegField 3 None)) r) in (o_text o, o_errs o))
    [RootNone; RootRef; RootOuter; RootExpr]
  = [(L "!{FieldReference}", [FPlan FInvalid "FieldReference"]); (L "$3", []);
     (L "!{FieldReference}", [FPlan FUnimplemented "FieldReference"]);
     (L "!{FieldReference}", [FPlan FUnimplemented "FieldReference"])].
Proof. vm_compute. reflexivity. Qed.

(** ** src/textify/rels.rs *)
Definition rel_text (e : exts) (r : prel) : list N * nat := text_errors (rel_out registry_new opts_default e 0 r).
Definition T (ls : list string) : list N := join [10%N] (map L ls).
Definition nt (names : list string) (cols : list (list N * ptype)) : prel :=
  RRead (mk_read None (Some (mk_named_struct (map fst cols) (Some (map snd cols, 0%N, NNullable)))) None
           (ReadNamed (map L names)) None false).
Definition basic_cols : list (list N * ptype) :=
  [col "category" (opt SString); col "amount" (opt SFp64); col "value" (opt SI32)].
Definition measure_of (f : N) (c : Z) : measure :=
  mk_measure (Some (mk_aggfn f [AValue (R c)] [] (Some (req SI64)) 0 0)) None.
Definition aggregate_rel (g : list pexpr) (sets : list grouping) (ms : list measure) (c : emit_kind) : prel :=
  RAggregate (emit_common c) (Some (nt ["orders"] basic_cols)) g sets ms None.
Definition first_line (p : list N * nat) : list N * nat :=
  (match split_at_char 10 (fst p) with Some (a, _) => a | None => fst p end, snd p).

Example read_written :
  rel_text exts_empty (nt ["some_db"; "test_table"] [col "col1" (opt SI32); col "column 2" (opt SString)])
  = clean "Read[some_db.test_table => col1:i32?, ""column 2"":string?]".
Proof. vm_compute. reflexivity. Qed.
Example filter_written :
  rel_text (declare (with_urn 1 "test_urn") [(KFunction, 1%N, 10%N, "gt")])
    (RFilter None (Some (nt ["test_table"] [col "col1" (opt SI32); col "col2" (opt SI32)]))
       (Some (EFunc 10 [AValue (R 0); AValue (i32l 10)] [] (Some (req SBool)))) None)
  = (T ["Filter[gt($0, 10:i32):boolean => $0, $1]"; "  Read[test_table => col1:i32?, col2:i32?]"], 0%nat).
Proof. vm_compute. reflexivity. Qed.
Example measure_written :
  text_errors (aggfn_out opts_default aggs (mk_aggfn 10 [AValue (R 1)] [] (Some (req SI64)) 0 0)) = clean "sum($1):i64".
Proof. vm_compute. reflexivity. Qed.
Definition old_set (l : list Z) : grouping := mk_grouping [] (map R l).
Definition set_of (l : list N) : grouping := mk_grouping l [].
Example aggregates_written :
  map (fun r => first_line (rel_text aggs r))
    [aggregate_rel [R 0] [] [measure_of 10 1; measure_of 11 1] (EmEmit [1; 2]%Z);
     aggregate_rel [] [old_set [0]%Z; old_set [0; 1]%Z] [] EmDirect;
     aggregate_rel [] [old_set [0]%Z; old_set [0; 1]%Z] [measure_of 11 2] EmDirect;
     aggregate_rel [R 0; R 1] [set_of [0; 1]%N; set_of [0; 1]%N; set_of [1]%N; set_of [1; 1]%N; set_of []]
       [measure_of 11 2] EmDirect;
     aggregate_rel [] [old_set [5]%Z] [] EmDirect;
     aggregate_rel [R 2; R 0] [set_of [0; 1]%N] [measure_of 11 1] EmDirect]
  = map clean
      ["Aggregate[_ => sum($1):i64, count($1):i64]"; "Aggregate[($0), ($0, $1) => $0, $1]";
       "Aggregate[($0), ($0, $1) => $0, $1, count($2):i64]";
       "Aggregate[($0, $1), ($0, $1), ($1), ($1, $1), _ => $0, $1, count($2):i64]"; "Aggregate[$5 => $5]";
       "Aggregate[$2, $0 => $2, $0, count($1):i64]"].
Proof. vm_compute. reflexivity. Qed.

Fixpoint occurs (p s : list N) : bool :=
  starts_with p s || match s with [] => false | _ :: r => occurs p r end.
Definition empty_read : prel := RRead (mk_read None None None ReadNone None false).
Definition shows (r : prel) (ps : list string) : bool :=
  let o := rel_out registry_new opts_default exts_empty 0 r in
  forallb (fun p => occurs (L p) (o_text o)) ps && match o_errs o with [] => false | _ => true end
  && match o_panics o with [] => true | _ => false end.
Example unknown_enums_written :
  shows (RJoin None (Some empty_read) (Some empty_read) (Some ENone) None 999 None) ["!{JoinRel}"; "Join["]
  && shows (RSet None [empty_read; empty_read] 999 None) ["!{SetRel}"; "Set["] = true.
Proof. vm_compute. reflexivity. Qed.
Example unsupported_written :
  let o := rel_out registry_new opts_default exts_empty 0 (ROther "Reference") in
  occurs (L "!{Rel}") (o_text o) = true /\ o_errs o = [FPlan FUnimplemented "Rel"].
Proof. split; vm_compute; reflexivity. Qed.
Definition sides : list string :=
  ["  Read[left_tbl => category:string?, amount:fp64?, value:i32?]";
   "  Read[right_tbl => category:string?, amount:fp64?, value:i32?]"].
Example crosses_written :
  map (fun k => rel_text exts_empty
         (RCross (emit_common k) (Some (nt ["left_tbl"] basic_cols)) (Some (nt ["right_tbl"] basic_cols)) None))
    [EmDirect; EmEmit [0; 3]%Z]
  = [(T ("Cross[$0, $1, $2, $3, $4, $5]" :: sides), 0%nat); (T ("Cross[$0, $3]" :: sides), 0%nat)].
Proof. vm_compute. reflexivity. Qed.
Example join_enums :
  map (enum_name join_types) [1; 3; 5; 6]%Z = map Some ["Inner"; "Left"; "LeftSemi"; "LeftAnti"]
  /\ map (fun t => join_width t 2 3) [1; 5; 8; 11; 12]%Z = [5; 2; 3; 3; 4]%nat.
Proof. split; vm_compute; reflexivity. Qed.

(** ** src/textify/values.rs *)
Definition int_out (z : Z) : out := txt (show_Z z).
Example arguments_written :
  map text_errors
    [arguments_out [int_out 42; int_out 7] []; arguments_out [] [(L "limit", int_out 10); (L "offset", int_out 5)];
     arguments_out [int_out 1] [(L "foo", int_out 2)]; arguments_out [] [];
     named_out (L "foo", missing FInvalid "my_enum"); enum_out set_ops 6 "SetRel" "SetRel"; enum_out set_ops 99 "SetRel" "SetRel"]
  = [clean "42, 7"; clean "limit=10, offset=5"; clean "1, foo=2"; clean "_"; (L "foo=!{my_enum}", 1%nat);
     clean "&UnionAll"; (L "!{SetRel}", 1%nat)].
Proof. vm_compute. reflexivity. Qed.

(** ** src/precision.rs *)
Example precisions :
  map (fun z => option_map prec_units (prec_of_units z)) [0; 3; 6; 9; 12; 4; 13; -1]%Z
    = [Some 0; Some 3; Some 6; Some 9; Some 12; None; None; None]%Z
  /\ map (fun s => match prec_of_unit (L s) with Some p => prec_unit p | None => None end) ["ms"; "us"; "ns"; "ps"; "s"]
     = [Some (L "ms"); Some (L "us"); Some (L "ns"); Some (L "ps"); None]
  /\ prec_unit PSec = None.
Proof. repeat split; vm_compute; reflexivity. Qed.

(** ** src/types_tests.rs *)
Definition again {A} (f : A -> out) (x : seen A) : option (list N * nat) :=
  match x with Value a => Some (text_errors (f a)) | _ => None end.
Definition my_type : exts := declare (with_urn 4 "some_source") [(KType, 4%N, 12%N, "MyType")].
Definition type_texts : list string :=
  ["i32"; "i32?"; "binary"; "binary?"; "timestamp"; "timestamp?"; "timestamp_tz"; "timestamp_tz?"; "date"; "date?"; "time";
   "time?"; "interval_year"; "interval_year?"; "interval_day<9>"; "interval_day?<6>"; "interval_day?<0>"; "uuid"; "uuid?";
   "MyType#12"; "MyType#12?"; "MyType#12<i32>"; "MyType#12<i32?>"; "MyType#12<i32, string?>"; "MyType#12?<i32, string?>";
   "precisiontimestamp<9>"; "precisiontimestamp?<9>"; "precisiontimestamptz<6>"; "precisiontimestamptz?<6>";
   "precisiontime<3>"; "precisiontime?<3>"].
Example types_again :
  map (fun s => again (type_out opts_verbose my_type) (type my_type s)) type_texts = map (fun s => Some (clean s)) type_texts.
Proof. vm_compute. reflexivity. Qed.
Definition foo_bar : exts :=
  declare (with_urn 4 "some_source") [(KFunction, 4%N, 12%N, "foo"); (KFunction, 4%N, 14%N, "bar")].
Definition literal_texts : list string :=
  ["12"; "12:i32"; "'2023-01-01T12:00:00.123456789':precisiontimestamp<9>";
   "'2023-01-01T12:00:00.123456789':precisiontimestamp?<9>"; "'2023-01-01T12:00:00.123':precisiontimestamptz<3>";
   "'2023-01-01T12:00:00.123':precisiontimestamptz?<3>"; "'14:30:45.123456':precisiontime<6>";
   "'14:30:45.123456':precisiontime?<6>"; "'2023-01-01T12:00:00':precisiontimestamp<0>";
   "'2023-01-01T12:00:00':precisiontimestamptz<0>"; "'14:30:45':precisiontime<0>"; "'5d':interval_day<0>";
   "'5d':interval_day<9>"; "'4d 5s':interval_day<6>"; "'123456789ns':interval_day<9>"; "'5d 3s 100ms':interval_day<3>";
   "'-5d 3s':interval_day<0>"; "'0s':interval_day<0>"; "'5d':interval_day?<6>"].
Example literals_again :
  map (fun s => again (literal_out opts_default exts_empty) (lit s)) literal_texts = map (fun s => Some (clean s)) literal_texts.
Proof. vm_compute. reflexivity. Qed.
Definition expr_texts : list string :=
  ["$1"; "foo():i64"; "bar(12):i64"; "foo(bar(12:i16, 18):i64, -4:i16):i64"; "foo($2, bar($5, 18):i64, -4:i16):i64"].
Example exprs_again :
  map (fun s => again (expr_out opts_default foo_bar) (expr foo_bar s)) expr_texts = map (fun s => Some (clean s)) expr_texts.
Proof. vm_compute. reflexivity. Qed.
Example verbose_and_simple :
  map (fun s => (again (expr_out opts_verbose foo_bar) (expr foo_bar s), again (expr_out opts_default foo_bar) (expr foo_bar s)))
    ["foo#12():i64"; "foo#12(3:i32, 5:i64):i64"; "foo#12(bar#14(5:i64, $2):i64):i64"]
  = [(Some (clean "foo#12():i64"), Some (clean "foo():i64"));
     (Some (clean "foo#12(3:i32, 5:i64):i64"), Some (clean "foo(3:i32, 5):i64"));
     (Some (clean "foo#12(bar#14(5:i64, $2):i64):i64"), Some (clean "foo(bar(5, $2):i64):i64"))].
Proof. vm_compute. reflexivity. Qed.
