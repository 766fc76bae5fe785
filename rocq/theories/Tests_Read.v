(** Tests, not proofs: the unit tests of the reader, copied from the [mod tests] of
    /repo/src/parser/{expressions,types,relations}.rs, and run through the model. *)
From Coq Require Import String List NArith ZArith Bool.
From Verif Require Import Base Peg Names SpecNames NamesFacts SimpleExt Out Anchors Types Literals Exprs ExtArgs Registry
  ExtLines Rels RelGrammar RelRead Tree Structural Version Plan Tests_Base.
Import ListNotations.
Local Open Scope string_scope. Local Open Scope list_scope.
#[local] Existing Instance ascii_tables. #[local] Existing Instance text_floats.

(** [parse_exact], /repo/src/parser/expressions.rs l.766-772: the whole text is read. *)
Definition exact {A} (p : peg A) (s : string) : option A :=
  match p (L s) with Some (a, []) => Some a | _ => None end.
(** What a test sees of a result: a value, an error of the lowering, no parse at all. *)
Inductive seen (A : Type) := Value (a : A) | Failed | NoParse | Crashed.
Arguments Value {A}. Arguments Failed {A}. Arguments NoParse {A}. Arguments Crashed {A}.
Definition read {C A} (p : peg C) (low : C -> pres A) (s : string) : seen A :=
  match exact p s with
  | None => NoParse
  | Some c => match low c with Ok a => Value a | Err _ => Failed | Panic _ => Crashed end
  end.
Definition seen_map {A B} (f : A -> B) (x : seen A) : seen B :=
  match x with Value a => Value (f a) | Failed => Failed | NoParse => NoParse | Crashed => Crashed end.

Definition lit (s : string) : seen literal := read g_literal (lower_literal exts_empty) s.
Definition expr (e : exts) (s : string) : seen pexpr := read g_expr (lower_expr e) s.
Definition type (e : exts) (s : string) : seen ptype := read g_type (lower_type e) s.
Definition plain (v : litval) : literal := mk_lit (Some v) false 0.
Definition nullable (v : litval) : literal := mk_lit (Some v) true 0.
Definition fp (s : string) : N := read64 (L s).

(** ** Literals, src/parser/expressions.rs l.790-1090 *)
Example literals_read :
  map lit ["1"; "3.82"; "-2.5"; "true"; "false"; "true:boolean?"; "false:boolean?"; "78:i32?"; "42:i64?";
           "3.19:fp64?"; "3.82:fp32"]
  = map Value [plain (LI64 1); plain (LFp64 (fp "3.82")); plain (LFp64 (fp "-2.5")); plain (LBool true);
       plain (LBool false); nullable (LBool true); nullable (LBool false); nullable (LI32 78); nullable (LI64 42);
       nullable (LFp64 (fp "3.19")); plain (LFp32 (fp "3.82"))].
Proof. vm_compute. reflexivity. Qed.

Example times_read :
  map lit ["'2023-12-25':date"; "'14:30:45':time"; "'2023-01-01T12:00:00':timestamp"; "'2023-01-01 12:00:00':timestamp";
           "'2023-01-01T12:00:00.123456789':precisiontimestamp<9>";
           "'2023-01-01T12:00:00.123':precisiontimestamptz?<3>"; "'14:30:45.123456':precisiontime<6>";
           "'2023-01-01T12:00:00.123456789':precisiontimestamp?<9>"; "'14:30:45.123456':precisiontime?<6>"]
  = map Value [plain (LDate 19716); plain (LTime ((14 * 3600 + 30 * 60 + 45) * 1000000));
       plain (LTimestamp 1672574400000000); plain (LTimestamp 1672574400000000);
       plain (LPrecisionTimestamp 9 1672574400123456789); nullable (LPrecisionTimestampTz 3 1672574400123);
       plain (LPrecisionTime 6 ((14 * 3600 + 30 * 60 + 45) * 1000000 + 123456));
       nullable (LPrecisionTimestamp 9 1672574400123456789);
       nullable (LPrecisionTime 6 ((14 * 3600 + 30 * 60 + 45) * 1000000 + 123456))].
Proof. vm_compute. reflexivity. Qed.

Example times_refused :
  map lit ["'2023-01-01T12:00:00':precisiontimestamp<12>"; "'2023-01-01T12:00:00':precisiontimestamp<5>";
           "'2023-01-01T12:00:00.999':precisiontimestamp<0>"; "'14:30:45.123456':precisiontime<3>";
           "'2300-01-01T00:00:00':precisiontimestamp<9>"]
  = repeat Failed 5.
Proof. vm_compute. reflexivity. Qed.

(** [test_parse_interval_day_literals], l.1109-1140. *)
Definition iv (d s sub p : Z) : litval := LInterval (mk_interval d s sub (Some (IvPrecision p))).
Example intervals_read :
  map lit ["'5d':interval_day<0>"; "'5d':interval_day<9>"; "'4d 5s':interval_day<0>"; "'123ms':interval_day<3>";
           "'123456us':interval_day<6>"; "'123456789ns':interval_day<9>"; "'5d 3s 100ns':interval_day<9>";
           "'-5d 3s':interval_day<0>"; "'-500000000ns':interval_day<9>"; "'5d':interval_day?<6>";
           "'3650001d':interval_day<0>"; "'1000000000ns':interval_day<9>"]
  = map Value [plain (iv 5 0 0 0); plain (iv 5 0 0 9); plain (iv 4 5 0 0); plain (iv 0 0 123 3);
       plain (iv 0 0 123456 6); plain (iv 0 0 123456789 9); plain (iv 5 3 100 9); plain (iv (-5) 3 0 0);
       plain (iv 0 0 (-500000000) 9); nullable (iv 5 0 0 6); plain (iv 3650001 0 0 0); plain (iv 0 0 1000000000 9)].
Proof. vm_compute. reflexivity. Qed.

(** [test_parse_interval_day_literal_errors], l.1142-1180. *)
Definition tabbed : string := "'5d" ++ String (Ascii.ascii_of_nat 9) "3s':interval_day<0>".
Example intervals_refused :
  map lit ["'':interval_day<0>"; "'5x':interval_day<0>"; "'5':interval_day<0>"; "'5d 3d':interval_day<0>";
           "'5s 3s':interval_day<0>"; "'3ms 5us':interval_day<3>"; "'3s 5d':interval_day<0>";
           "'100ns 5d 3s':interval_day<9>"; "'5d   3s':interval_day<0>"; "'  5d 3s  ':interval_day<0>"; tabbed;
           "'100ns':interval_day<6>"; "'5d 3s':interval_day<4>"; "'5d':interval_day<13>"; "'5d':interval_day<-1>";
           "'2200000000s':interval_day<0>"; "'99999999999d':interval_day<0>";
           "'99999999999999999999ns':interval_day<9>"; "'5d':interval_day"]
  = repeat Failed 19.
Proof. vm_compute. reflexivity. Qed.

(** ** Conditionals, l.1210-1390 *)
Definition B (b : bool) : pexpr := ELit (plain (LBool b)).
Definition I (z : Z) : pexpr := ELit (plain (LI64 z)).
Definition R (z : Z) : pexpr := ESel (mk_fieldref (RefDirect (SegField z None)) RootRef).
Definition if_shape (x : pexpr) : option (nat * bool) :=
  match x with EIf ifs els => Some (length ifs, match els with Some _ => true | None => false end) | _ => None end.
Example conditionals_read :
  map (fun s => seen_map if_shape (expr exts_empty s))
    ["if_then(true -> 42, _ -> 0)"; "if_then(true -> 100:i32, _ -> -100:i32)";
     "if_then(true -> '2023-12-25':date, _ -> '1970-01-01':date)";
     "if_then(true -> '14:30:45':time, _ -> '00:00:00':time)";
     "if_then(true -> '2023-01-01T12:00:00':timestamp, _ -> '1970-01-01T00:00:00':timestamp)";
     "if_then(true -> 1, false -> 2, _ -> 0)";
     "if_then(true -> 1, true -> 'yes', 'yes' -> true, 42 -> 2, $0 -> 3, _ -> 0)";
     "if_then(1 -> 10, 2 -> 20, 3 -> 30, _ -> 0)"]
  = map (fun n => Value (Some (n, true))) [1; 1; 1; 1; 1; 2; 5; 3]%nat.
Proof. vm_compute. reflexivity. Qed.
Example conditional_order :
  map (expr exts_empty)
    ["if_then(1 -> 10, 2 -> 20, 3 -> 30, _ -> 0)"; "if_then(true -> true , false -> false, _ -> false)"]
  = [Value (EIf [(Some (I 1), Some (I 10)); (Some (I 2), Some (I 20)); (Some (I 3), Some (I 30))] (Some (I 0)));
     Value (EIf [(Some (B true), Some (B true)); (Some (B false), Some (B false))] (Some (B false)))].
Proof. vm_compute. reflexivity. Qed.
Example clauses_read :
  map (fun s => read (g_if_clause g_expr) (fun p => let? a := lower_expr exts_empty (fst p) in
                                                    let? b := lower_expr exts_empty (snd p) in Ok (a, b)) s)
    ["true->false"; "true -> false"; "true  ->  false"; "42 -> 100"]
  = [Value (B true, B false); Value (B true, B false); Value (B true, B false); Value (I 42, I 100)].
Proof. vm_compute. reflexivity. Qed.

(** ** Function names and calls, l.1392-1640 *)
Example signatures_read :
  map (exact g_function_signature)
    ["add"; "add:"; "equal:any_any"; "regexp_match_substring:str_str_i64"; "add:i64_i64"; "count:"]
  = map (fun s => Some (L s))
    ["add"; "add:"; "equal:any_any"; "regexp_match_substring:str_str_i64"; "add:i64_i64"; "count:"].
Proof. vm_compute. reflexivity. Qed.
Example compound_names :
  (cn_base (L "add:"), cn_matches (L "add:") (L "add:"), cn_matches (L "add:") (L "add:i64_i64"),
   cn_matches (L "add:") (L "add"), cn_base (L "count:"), cn_has_signature (L "count:"))
  = (L "add", true, false, true, L "count", true).
Proof. vm_compute. reflexivity. Qed.
Example arguments_read :
  map (fun s => read (g_argument_list g_expr) (rlist (lower_expr exts_empty)) s) ["()"; "($0, 1)"]
  = [Value []; Value [R 0; I 1]].
Proof. vm_compute. reflexivity. Qed.

Fixpoint declare (e : exts) (l : list (kind * N * N * string)) : exts :=
  match l with
  | [] => e
  | (k, u, a, n) :: r => declare (fst (add_extension e k u a (L n))) r
  end.
Definition with_urn (a : N) (s : string) : exts := fst (add_extension_urn exts_empty (L s) a).
Definition fn_exts : exts :=
  declare (with_urn 1 "urn")
    [(KFunction, 1%N, 1%N, "equal:any_any"); (KFunction, 1%N, 2%N, "equal:str_str"); (KFunction, 1%N, 3%N, "add:i64_i64")].
Definition call_shape (x : pexpr) : option (N * nat * bool) :=
  match x with
  | EFunc r a _ o => Some (r, length a, match o with Some _ => true | None => false end)
  | _ => None
  end.
Example calls_read :
  map (fun s => seen_map call_shape (expr fn_exts s))
    ["equal:any_any($0, $1):boolean"; "equal:str_str($0, $1):boolean"; "add($0, $1):i64"; "equal($0, $1):boolean";
     "equal:any_any#1($0, $1):boolean"; "equal#1($0, $1):boolean"; "like#1($0):boolean"; "add($0, $1)";
     "u!json_get($0)"]
  = [Value (Some (1%N, 2%nat, true)); Value (Some (2%N, 2%nat, true)); Value (Some (3%N, 2%nat, true)); Failed;
     Value (Some (1%N, 2%nat, true)); Value (Some (1%N, 2%nat, true)); Failed; NoParse; NoParse].
Proof. vm_compute. reflexivity. Qed.
Example user_type_in_signature :
  seen_map call_shape
    (expr (declare (with_urn 1 "urn") [(KFunction, 1%N, 10%N, "json_extract_path:u!json_str")])
       "json_extract_path:u!json_str($0, $1):string")
  = Value (Some (10%N, 2%nat, true)).
Proof. vm_compute. reflexivity. Qed.

(** ** Casts, l.1642-1790 *)
Definition req (k : skind) : ptype := TSimple k NRequired 0.
Definition opt (k : skind) : ptype := TSimple k NNullable 0.
Definition i32l (z : Z) : pexpr := ELit (plain (LI32 z)).
Example casts_read :
  map (expr exts_empty)
    ["(78:i32)::i16"; "((78:i32)::i16)::i32"; "(true)::i32"; "( 78:i32 ) :: i16"; "(78:i32)::?i16"; "(78:i32)::!i16"]
  = map Value [ECast 0 (Some (i32l 78)) (Some (req SI16));
      ECast 0 (Some (ECast 0 (Some (i32l 78)) (Some (req SI16)))) (Some (req SI32));
      ECast 0 (Some (B true)) (Some (req SI32)); ECast 0 (Some (i32l 78)) (Some (req SI16));
      ECast 1 (Some (i32l 78)) (Some (req SI16)); ECast 2 (Some (i32l 78)) (Some (req SI16))].
Proof. vm_compute. reflexivity. Qed.
Example cast_to_user_type :
  expr (declare (with_urn 1 "urn") [(KType, 1%N, 5%N, "u!json")]) "($0)::u!json"
  = Value (ECast 0 (Some (R 0)) (Some (TUser 5 [] NRequired 0))).
Proof. vm_compute. reflexivity. Qed.

(** ** Types, src/parser/types.rs [mod tests] *)
Example types_read :
  map (type exts_empty)
    ["i64"; "string?"; "list<i64>"; "interval_day<9>"; "interval_day?<6>"; "interval_day<13>"; "interval_day<-1>"]
  = [Value (req SI64); Value (opt SString); Value (TList (Some (req SI64)) NRequired 0);
     Value (TIntervalDay (Some 9%Z) NRequired 0); Value (TIntervalDay (Some 6%Z) NNullable 0); Failed; Failed].
Proof. vm_compute. reflexivity. Qed.
Example user_types_read :
  type (declare (with_urn 4 "some_source") [(KType, 4%N, 42%N, "udt")]) "udt#42<i64?>"
    = Value (TUser 42 [PType (opt SI64)] NRequired 0)
  /\ map (type (declare (with_urn 4 "some_source") [(KType, 4%N, 7%N, "u!json")])) ["u!json#7"; "json?"; "u!json"]
    = [Value (TUser 7 [] NRequired 0); Value (TUser 7 [] NNullable 0); Value (TUser 7 [] NRequired 0)]
  /\ type (declare (with_urn 1 "src") [(KType, 1%N, 3%N, "json")]) "u!json" = Value (TUser 3 [] NRequired 0)
  /\ type (declare (with_urn 1 "src") [(KType, 1%N, 3%N, "u!json")]) "json" = Value (TUser 3 [] NRequired 0).
Proof. repeat split; vm_compute; reflexivity. Qed.

(** ** Relations, src/parser/relations.rs [mod tests] *)

(** [ExpressionParser::parse] on a relation rule does not insist on the end of the
    text, but the rules themselves end in [EOI]. *)
Definition rel (e : exts) (cs : list (prel * nat)) (s : string) : seen (prel * nat) :=
  read g_relation (fun y => lower_rel e y cs None) s.
Definition col (n : string) (t : ptype) : list N * ptype := (L n, t).
Definition abc : list (list N * ptype) := [col "a" (req SI32); col "b" (opt SString); col "c" (req SI64)].
Definition table (k : emit_kind) (cols : list (list N * ptype)) : prel :=
  RRead (mk_read (emit_common k) (Some (build_named_struct cols)) None
           (ReadNamed [L "ab"; L "cd"; L "ef"]) None false).
Definition read3 : prel * nat := (table EmDirect abc, 3%nat).
Definition eqs : exts :=
  declare (with_urn 1 "functions_comparison.yaml") [(KFunction, 1%N, 10%N, "eq"); (KFunction, 1%N, 11%N, "gt")].
Definition aggs : exts :=
  declare (with_urn 1 "functions_aggregate.yaml") [(KFunction, 1%N, 10%N, "sum"); (KFunction, 1%N, 11%N, "count")].

Example reads_read :
  map (rel exts_empty [])
    ["Read[ab.cd.ef => a:i32, b:string?]"; "Read[ab.cd.ef +> a:i32, b:string?, c:i64 |> $2, $0]";
     "Read[ab.cd.ef +> a:i32, b:string? |> $0, $1]"; "Read[ab.cd.ef +> a:i32, b:string?]";
     "Read[ab.cd.ef => a:i32, b:string? |> $0, $1]"; "Read[ab.cd.ef => a:i32, b:string?, c:i64]"]
  = [Value (table EmDirect (firstn 2 abc), 2%nat); Value (table (EmEmit [2; 0]%Z) abc, 2%nat);
     Value (table (EmEmit [0; 1]%Z) (firstn 2 abc), 2%nat); Value (table EmDirect (firstn 2 abc), 2%nat); NoParse;
     Value read3].
Proof. vm_compute. reflexivity. Qed.

Definition emit_of (r : prel) : option emit_kind :=
  match r with
  | RRead r => get_emit (rd_common r)
  | RFilter c _ _ _ | RProject c _ _ _ | RAggregate c _ _ _ _ _ | RSort c _ _ _ | RFetch c _ _ _ _
  | RJoin c _ _ _ _ _ _ | RSet c _ _ _ | RCross c _ _ _ => get_emit c
  | _ => None
  end.
Definition read_shape (r : prel) : option (nat * bool) :=
  match r with
  | RRead r => match rd_type r with
               | ReadVirtual rows => Some (length rows, match rd_filter r with Some _ => true | None => false end)
               | _ => None
               end
  | _ => None
  end.
Example virtual_read :
  seen_map (fun p => read_shape (fst p))
    (rel eqs [] "Read:Virtual[(1, 'alice'), filter=gt($0, 0:i64):boolean => id:i64, name:string]")
  = Value (Some (1%nat, true)).
Proof. vm_compute. reflexivity. Qed.

Example filter_read :
  seen_map (fun p => (emit_of (fst p), snd p)) (rel exts_empty [read3] "Filter[$1 => $0, $1, $2]")
  = Value (Some EmDirect, 3%nat).
Proof. vm_compute. reflexivity. Qed.

Definition project_shape (r : prel) : option (nat * option emit_kind) :=
  match r with RProject c _ xs _ => Some (length xs, get_emit c) | _ => None end.
Example projects_read :
  seen_map (fun p => project_shape (fst p)) (rel exts_empty [read3] "Project[$0, $1, 42]")
    = Value (Some (1%nat, Some (EmEmit [0; 1; 3]%Z)))
  /\ seen_map (fun p => project_shape (fst p)) (rel exts_empty [(fst read3, 5%nat)] "Project[42, $0, 100, $2, $1]")
    = Value (Some (2%nat, Some (EmEmit [5; 0; 6; 2; 1]%Z))).
Proof. split; vm_compute; reflexivity. Qed.

(** Grouping expressions, the references of each grouping set, measures, emit. *)
Definition aggregate_shape (r : prel) : option (nat * list (list N) * nat * option emit_kind) :=
  match r with
  | RAggregate c _ g gs ms _ => Some (length g, map gr_refs gs, length ms, get_emit c)
  | _ => None
  end.
Definition aggregate (e : exts) (s : string) := seen_map (fun p => aggregate_shape (fst p)) (rel e [read3] s).
Example aggregates_read :
  map (aggregate aggs)
    ["Aggregate[($0, $1), _ => sum($2):i64, $0, count($2):i64]"; "Aggregate[$0 => sum($1):i64, $0, count($1):i64]";
     "Aggregate[$2, $0 => sum($1):i64]"; "Aggregate[$2, $0 => $0, $2, sum($1):i64]";
     "Aggregate[$0 => $1, sum($1):i64]"; "Aggregate[42, $0 => $0, 42, sum($1):i64]";
     "Aggregate[_ => sum($0):i64, count($1):i64]"]
  = [Value (Some (2%nat, [[0%N; 1%N]; []], 2%nat, Some (EmEmit [2; 0; 3]%Z)));
     Value (Some (1%nat, [[0%N]], 2%nat, Some (EmEmit [1; 0; 2]%Z)));
     Value (Some (2%nat, [[0%N; 1%N]], 1%nat, Some (EmEmit [2]%Z)));
     Value (Some (2%nat, [[0%N; 1%N]], 1%nat, Some (EmEmit [1; 0; 2]%Z)));
     Failed;
     Value (Some (2%nat, [[0%N; 1%N]], 1%nat, Some (EmEmit [1; 0; 2]%Z)));
     Value (Some (0%nat, [[]], 2%nat, Some EmDirect))].
Proof. vm_compute. reflexivity. Qed.
Example aggregate_grouped_call :
  aggregate (declare (with_urn 1 "u") [(KFunction, 1%N, 10%N, "eq"); (KFunction, 1%N, 11%N, "sum")])
    "Aggregate[eq($0, $1):boolean => eq($0, $1):boolean, sum($2):i64]"
  = Value (Some (1%nat, [[0%N]], 1%nat, Some EmDirect)).
Proof. vm_compute. reflexivity. Qed.
Example aggregate_grouping_sets :
  seen_map (fun p => aggregate_shape (fst p))
    (rel aggs [(fst read3, 4%nat)] "Aggregate[($0, $1, $2), ($2, $0), ($1), _ => $0, $1, $2, count($3):i64]")
  = Value (Some (3%nat, [[0%N; 1%N; 2%N]; [2%N; 0%N]; [1%N]; []], 1%nat, Some EmDirect)).
Proof. vm_compute. reflexivity. Qed.

Definition fetch_shape (r : prel) : option (option fetch_mode * option fetch_mode) :=
  match r with RFetch _ _ c o _ => Some (c, o) | _ => None end.
Example fetches_read :
  map (fun s => seen_map (fun p => fetch_shape (fst p)) (rel exts_empty [read3] s))
    ["Fetch[limit=10, offset=5 => $0]"; "Fetch[limit=-5 => $0]"; "Fetch[offset=-10 => $0]"]
  = [Value (Some (Some (FmExpr (I 10)), Some (FmExpr (I 5)))); Failed; Failed].
Proof. vm_compute. reflexivity. Qed.

Definition join_shape (r : prel) : option (Z * bool * option emit_kind) :=
  match r with
  | RJoin c (Some _) (Some _) (Some _) post t _ => Some (t, match post with Some _ => true | None => false end, get_emit c)
  | _ => None
  end.
Example joins_read :
  map (fun s => seen_map (fun p => join_shape (fst p)) (rel eqs [read3; read3] s))
    ["Join[&Inner, eq($0, $3):boolean => $0, $1, $3, $4]";
     "Join[&RightSemi, eq($0, $3):boolean, post_filter=gt($1, 100:i32):boolean => $0, $1]";
     "Join[&Left, eq($0, $3):boolean => $0, $1, $2]"; "Join[&LeftSemi, eq($0, $3):boolean => $0, $1]";
     "Join[&RightSemi, eq($0, $3):boolean => $0, $1]"]
  = [Value (Some (1%Z, false, Some (EmEmit [0; 1; 3; 4]%Z))); Value (Some (8%Z, true, Some (EmEmit [0; 1]%Z)));
     Value (Some (3%Z, false, Some (EmEmit [0; 1; 2]%Z))); Value (Some (5%Z, false, Some (EmEmit [0; 1]%Z)));
     Value (Some (8%Z, false, Some (EmEmit [0; 1]%Z)))].
Proof. vm_compute. reflexivity. Qed.
Example join_children :
  map (fun cs => rel exts_empty cs "Join[&Inner, eq($0, $1):boolean => $0, $1]") [[]; [read3]; [read3; read3; read3]]
  = [Failed; Failed; Failed].
Proof. vm_compute. reflexivity. Qed.
