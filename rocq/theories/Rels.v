(** Relations: proto values and writing (src/textify/rels.rs,
    src/textify/values.rs, src/textify/addenda.rs). *)
From Coq Require Import String List NArith ZArith Bool.
From Verif Require Import Base Names SimpleExt Out Anchors Types Calendar Literals Exprs ExprEq ExtArgs Registry.
Import ListNotations.
Local Open Scope string_scope.
Local Open Scope list_scope.

(** ** Proto relations *)

(** [rel_common::EmitKind] and [RelCommon]; [rc_extra] says whether any other
    field ([hint], [advanced_extension]) is set. *)
Inductive emit_kind := EmDirect | EmEmit (mapping : list Z).
Record rel_common := mk_common { rc_emit : option emit_kind; rc_extra : bool }.

(** [AdvancedExtension]. *)
Record advext := mk_advext { ae_enhancement : option any; ae_optimizations : list any }.

(** [read_rel::ReadType]: local files and Iceberg tables are [ReadOther]; the
    deprecated [values] of a virtual table are dropped. *)
Inductive read_type :=
| ReadNamed (names : list (list N))
| ReadVirtual (rows : list (list pexpr))
| ReadExtension (detail : option any)
| ReadOther
| ReadNone.
(** [ReadRel]; [rd_extra] says whether any field not listed
    ([best_effort_filter], [projection], the named table's own extension) is set. *)
Record read_rel := mk_read {
  rd_common : option rel_common;
  rd_schema : option named_struct;
  rd_filter : option pexpr;
  rd_type : read_type;
  rd_adv : option advext;
  rd_extra : bool
}.

(** [aggregate_rel::Grouping] (with its deprecated expressions) and [Measure]. *)
Record grouping := mk_grouping { gr_refs : list N; gr_exprs : list pexpr }.
Record measure := mk_measure { ms_fn : option aggfn; ms_filter : option pexpr }.

(** [SortField] and [SortKind]. *)
Inductive sort_kind := SkDirection (d : Z) | SkFunction (f : N).
Record sort_field := mk_sort_field { sf_expr : option pexpr; sf_kind : option sort_kind }.

(** [fetch_rel::CountMode] and [OffsetMode]: the expression and the deprecated
    number. *)
Inductive fetch_mode := FmExpr (x : pexpr) | FmInt (z : Z).

(** [Rel] and [rel::RelType].  [ROther] stands for the relations the formatter
    does not implement, [RNone] for an absent [rel_type]. *)
Inductive prel :=
| RRead (r : read_rel)
| RFilter (c : option rel_common) (input : option prel) (cond : option pexpr) (adv : option advext)
| RProject (c : option rel_common) (input : option prel) (exprs : list pexpr) (adv : option advext)
| RAggregate (c : option rel_common) (input : option prel) (gexprs : list pexpr) (groups : list grouping)
    (measures : list measure) (adv : option advext)
| RSort (c : option rel_common) (input : option prel) (sorts : list sort_field) (adv : option advext)
| RFetch (c : option rel_common) (input : option prel) (count offset : option fetch_mode) (adv : option advext)
| RJoin (c : option rel_common) (left right : option prel) (cond post : option pexpr) (jtype : Z)
    (adv : option advext)
| RSet (c : option rel_common) (inputs : list prel) (op : Z) (adv : option advext)
| RCross (c : option rel_common) (left right : option prel) (adv : option advext)
| RExtLeaf (c : option rel_common) (detail : option any)
| RExtSingle (c : option rel_common) (detail : option any) (input : option prel)
| RExtMulti (c : option rel_common) (detail : option any) (inputs : list prel)
| ROther (variant : string)
| RNone.

(** [PlanRel] and [RelRoot]. *)
Inductive plan_rel :=
| PRel (r : prel)
| PRoot (names : list (list N)) (input : option prel)
| PRNone.

(** ** Enumerations

    The numbers are those of the Substrait protobuf definitions. *)

(** [JoinType::as_enum_str], src/textify/values.rs l.230-255, and the numbers of
    [join_rel::JoinType]. *)
Definition join_types : list (Z * string) :=
  [(1, "Inner"); (2, "Outer"); (3, "Left"); (4, "Right"); (5, "LeftSemi"); (6, "LeftAnti");
   (7, "LeftSingle"); (8, "RightSemi"); (9, "RightAnti"); (10, "RightSingle"); (11, "LeftMark");
   (12, "RightMark")]%Z.
(** [SetOp::as_enum_str], l.257-278. *)
Definition set_ops : list (Z * string) :=
  [(1, "MinusPrimary"); (7, "MinusPrimaryAll"); (2, "MinusMultiset"); (3, "IntersectionPrimary");
   (4, "IntersectionMultiset"); (8, "IntersectionMultisetAll"); (5, "UnionDistinct"); (6, "UnionAll")]%Z.
(** [SortKind::as_enum_str], l.193-228. *)
Definition sort_directions : list (Z * string) :=
  [(1, "AscNullsFirst"); (2, "AscNullsLast"); (3, "DescNullsFirst"); (4, "DescNullsLast");
   (5, "Clustered")]%Z.

Fixpoint enum_name (l : list (Z * string)) (z : Z) : option string :=
  match l with
  | [] => None
  | (k, n) :: r => if (k =? z)%Z then Some n else enum_name r z
  end.
Fixpoint enum_number (l : list (Z * string)) (s : list N) : option Z :=
  match l with
  | [] => None
  | (k, n) :: r => if streqb s (L n) then Some k else enum_number r s
  end.

(** ** Headers *)

(** [RelationArgs], src/textify/rels.rs l.218-230, over values already written
    ([Value::textify] does not depend on the indentation, and only values that
    are shown are written). *)
Inductive rel_args :=
| RaInline (positional : list out) (named : list (list N * out))
| RaRows (rows : list out) (named : list (list N * out)).

(** [Relation], l.246-275, without the children.  [hd_explicit] is
    [OutputSyntax::Explicit]. *)
Record header := mk_header {
  hd_name : out;
  hd_args : option rel_args;
  hd_cols : list out;
  hd_emit : option emit_kind;
  hd_explicit : bool;
  hd_addenda : list out
}.
(** [Relation] with its children. *)
Inductive view := View (h : header) (children : list (option view)).

(** [Relation::emitted], l.363-371. *)
Definition hd_emitted (h : header) : nat :=
  match hd_emit h with
  | Some (EmEmit m) => length m
  | _ => length (hd_cols h)
  end.
Definition emitted (v : view) : nat := let '(View h _) := v in hd_emitted h.

(** [values.get(index as usize)] for an [i32] index: a negative one becomes a
    number larger than any length. *)
Definition zget {A} (l : list A) (i : Z) : option A :=
  if (i <? 0)%Z then None else nth_error l (Z.to_nat i).

(** [Emitted::write_implicit_columns], l.159-189: the columns to show. *)
Definition shown_columns (op : options) (h : header) : list out :=
  match op_show_emit op, hd_emit h with
  | false, Some (EmEmit m) =>
      map (fun i => match zget (hd_cols h) i with
                    | Some o => o
                    | None => ofail (FPlan FInvalid "Emitted")
                    end) m
  | _, _ => hd_cols h
  end.

(** [Emitted::write_emit_suffix], l.191-202. *)
Definition emit_suffix_out (em : option emit_kind) : out :=
  match em with
  | Some (EmEmit m) => txt (L " |> ") +++ osep (L ", ") (map (fun i => txt (ref_text i)) m)
  | _ => onil
  end.

(** [Emitted::write_output_clause], l.136-153. *)
Definition output_clause (op : options) (h : header) : out :=
  if hd_explicit h
  then txt (L "+> ") +++ osep (L ", ") (hd_cols h) +++ emit_suffix_out (hd_emit h)
  else txt (L "=> ") +++ osep (L ", ") (shown_columns op h).

(** [NamedArg::textify], src/textify/values.rs l.304-312. *)
Definition named_out (p : list N * out) : out := txt (fst p ++ L "=") +++ snd p.
(** [Arguments::textify], l.111-126. *)
Definition arguments_out (positional : list out) (named : list (list N * out)) : out :=
  match positional, named with
  | [], [] => txt (L "_")
  | _, _ => osep (L ", ") (positional ++ map named_out named)
  end.

(** The indentation of [IndentStack], src/textify/foundation.rs. *)
Definition indent_text (op : options) (depth : nat) : list N := concat (repeat (op_indent op) depth).

(** A line of the row layout. *)
Definition row_line (op : options) (depth : nat) (comma : bool) (o : out) : out :=
  txt (indent_text op (S depth) ++ L "- ") +++ o +++ txt ((if comma then L "," else []) ++ [c_nl]).
(** Rows or named arguments, each followed by a comma except possibly the last. *)
Fixpoint row_lines (op : options) (depth : nat) (last_comma : bool) (l : list out) : out :=
  match l with
  | [] => onil
  | [o] => row_line op depth last_comma o
  | o :: r => row_line op depth true o +++ row_lines op depth last_comma r
  end.

(** [Relation::write_header], l.306-349. *)
Definition header_out (op : options) (depth : nat) (h : header) : out :=
  txt (indent_text op depth) +++ hd_name h +++ txt (L "[")
  +++ match hd_args h with
      | None => osep (L ", ") (shown_columns op h)
      | Some (RaInline p n) => arguments_out p n +++ txt (L " ") +++ output_clause op h
      | Some (RaRows rows n) =>
          txt [c_nl]
          +++ row_lines op depth (negb (Nat.eqb (length n) 0)) rows
          +++ row_lines op depth false (map named_out n)
          +++ txt (indent_text op (S depth) ++ L "- ") +++ output_clause op h
      end
  +++ txt (L "]").

(** [Textify for Relation], l.277-289; [AddendumLines::textify],
    src/textify/addenda.rs l.75-87; [write_children],
    src/textify/rels.rs l.353-360. *)
Fixpoint view_out (op : options) (depth : nat) (v : view) : out :=
  let '(View h cs) := v in
  header_out op depth h
  +++ fold_right oapp onil
        (map (fun a => txt ([c_nl] ++ indent_text op (S depth)) +++ a) (hd_addenda h))
  +++ fold_right oapp onil
        (map (fun c => match c with
                       | Some v => txt [c_nl] +++ view_out op (S depth) v
                       | None => onil
                       end) cs).

(** ** Values *)

(** [Value::Reference] for columns [0..n] ([i as i32]). *)
Definition ref_columns (n : nat) : list out :=
  map (fun i => txt (ref_text (wrap_i32 (Z.of_nat i)))) (seq 0 n).

(** [Value::Tuple], src/textify/values.rs l.80. *)
Definition tuple_out (l : list out) : out := txt (L "(") +++ osep (L ", ") l +++ txt (L ")").

Definition missing (k : fkind) (message : string) : out := ofail (FPlan k message).

(** [Value::Enum] of a number, or the given failures for 0 and for an unknown
    number ([enum_str_value] and [decode_enum_field], l.153-185). *)
Definition enum_out (l : list (Z * string)) (z : Z) (unspecified unknown : string) : out :=
  match enum_name l z with
  | Some n => txt (L "&" ++ L n)
  | None => if (z =? 0)%Z then missing FInvalid unspecified else missing FInvalid unknown
  end.

(** [JoinType::try_from] then [join_output_columns], src/textify/rels.rs
    l.960-994, 1018-1037: an unknown number has the width of [Unspecified]. *)
Definition join_width (jtype : Z) (l r : nat) : nat :=
  if (jtype =? 5)%Z || (jtype =? 6)%Z || (jtype =? 7)%Z then l
  else if (jtype =? 8)%Z || (jtype =? 9)%Z || (jtype =? 10)%Z then r
  else if (jtype =? 11)%Z then l + 1
  else if (jtype =? 12)%Z then r + 1
  else l + r.

Section Write.
  Context `{U : Unicode} `{F : Floats}.
  Variable reg : registry.
  Variable op : options.
  Variable e : exts.

  Definition opt_expr_out (k : fkind) (message : string) (x : option pexpr) : out :=
    match x with
    | Some x => expr_out op e x
    | None => missing k message
    end.

  (** [Value::Field], src/textify/values.rs l.77-79. *)
  Definition field_out (n : option (list N)) (t : option ptype) : out :=
    oexpect "Name" (fun n => txt (show_name n)) n +++ txt (L ":") +++ oexpect "Type" (type_out op e) t.
  (** [schema_to_values], src/textify/rels.rs l.72-96. *)
  Fixpoint zip_fields (names : list (list N)) (types : list ptype) : list out :=
    match names, types with
    | [], [] => []
    | n :: ns, t :: ts => field_out (Some n) (Some t) :: zip_fields ns ts
    | n :: ns, [] => field_out (Some n) None :: zip_fields ns []
    | [], t :: ts => field_out None (Some t) :: (fix go l :=
                       match l with [] => [] | t :: r => field_out None (Some t) :: go r end) ts
    end.
  (** [read_columns], l.490-499. *)
  Definition read_columns (r : read_rel) : list out :=
    match rd_schema r with
    | Some s => zip_fields (ns_names s) (match ns_struct s with Some (t, _, _) => t | None => [] end)
    | None => [missing FUnimplemented "ReadRel"]
    end.

  (** [AddendumLine::textify], src/textify/addenda.rs l.120-173, without the
      indentation. *)
  Definition addendum_out (prefix : string) (d : res xerror (list N * xargs)) : out :=
    txt (L "+ " ++ L prefix) +++
    match d with
    | Ok (name, a) =>
        match xa_columns a with
        | [] => txt (L ":" ++ name ++ L "[") +++ xargs_out op e a +++ txt (L "]")
        | _ => txt (L "[") +++ missing FInvalid "addendum" +++ txt (L "]")
        end
    | Err _ => txt (L "[") +++ ofail (FExtension "error") +++ txt (L "]")
    | Panic p => opanic p
    end.
  (** [AddendumLines], l.25-73 and l.106-118. *)
  Definition adv_lines (a : option advext) : list out :=
    match a with
    | None => []
    | Some a =>
        match ae_enhancement a with
        | Some d => [addendum_out "Enh" (decode_with_type reg XtEnhancement d [])]
        | None => []
        end
        ++ map (fun d => addendum_out "Opt" (decode_with_type reg XtOptimization d [])) (ae_optimizations a)
    end.
  (** The first line of an extension table, l.37-49, and src/textify/rels.rs
      l.448-451. *)
  Definition table_line (d : option any) : out :=
    addendum_out "Ext" (match d with
                        | Some d => decode_with_type reg XtTable d []
                        | None => Err XMissingDetail
                        end).

  (** [get_emit], src/textify/rels.rs l.501-503. *)
  Definition get_emit (c : option rel_common) : option emit_kind :=
    match c with Some c => rc_emit c | None => None end.

  (** [Relation::from_read], src/textify/rels.rs l.374-487. *)
  Definition read_header (r : read_rel) : header :=
    let cols := read_columns r in
    let em := get_emit (rd_common r) in
    match rd_type r with
    | ReadNamed names =>
        mk_header (txt (L "Read"))
          (Some (RaInline [txt (join (L ".") (map show_name names))] []))
          cols em (match em with Some (EmEmit _) => true | _ => false end) (adv_lines (rd_adv r))
    | ReadVirtual rows =>
        let tuples := map (fun row => tuple_out (map (expr_out op e) row)) rows in
        let named := match rd_filter r with
                     | Some f => [(L "filter", expr_out op e f)]
                     | None => []
                     end in
        let positional := match tuples, named with
                          | [], _ :: _ => [txt (L "_")]
                          | _, _ => tuples
                          end in
        let multiline := negb (Nat.eqb (length rows) 0)
                         && (op_vt_threshold op <=? N.of_nat (length rows))%N in
        mk_header (txt (L "Read:Virtual"))
          (Some (if multiline then RaRows positional named else RaInline positional named))
          cols em false (adv_lines (rd_adv r))
    | ReadExtension d =>
        mk_header (txt (L "Read:Extension")) None cols em false (table_line d :: adv_lines (rd_adv r))
    | ReadOther | ReadNone =>
        mk_header (txt (L "Read")) (Some (RaInline [missing FUnimplemented "ReadRel"] []))
          cols em false (adv_lines (rd_adv r))
    end.

  Definition width (v : option view) : nat := match v with Some v => emitted v | None => 0 end.

  (** [Relation::from_filter], l.532-555. *)
  Definition filter_header (c : option rel_common) (n : nat) (cond : option pexpr) (adv : option advext) : header :=
    mk_header (txt (L "Filter")) (Some (RaInline [opt_expr_out FUnimplemented "FilterRel" cond] []))
      (ref_columns n) (get_emit c) false (adv_lines adv).

  (** [Relation::from_project], l.557-576. *)
  Definition project_header (c : option rel_common) (n : nat) (xs : list pexpr) (adv : option advext) : header :=
    mk_header (txt (L "Project")) None (ref_columns n ++ map (expr_out op e) xs)
      (get_emit c) false (adv_lines adv).

  (** The deprecated and the current way of giving groupings, l.723-763 and
      [get_grouping_sets], l.805-829: the distinct expressions and the sets.
      For the comparison of expressions see ExprEq.v. *)
  Fixpoint dedup (seen l : list pexpr) : list pexpr :=
    match l with
    | [] => []
    | x :: r => if existsb (pexpr_eqb x) seen then dedup seen r else x :: dedup (seen ++ [x]) r
    end.
  Definition grouping_values (gexprs : list pexpr) (groups : list grouping) : list pexpr * list (list out) :=
    if Nat.eqb (length gexprs) 0
       && match groups with g :: _ => negb (Nat.eqb (length (gr_exprs g)) 0) | [] => false end
    then (dedup [] (concat (map gr_exprs groups)), map (fun g => map (expr_out op e) (gr_exprs g)) groups)
    else (gexprs,
          match groups with
          | [] => [[]]
          | _ => map (fun g => map (fun i => match nth_error gexprs (N.to_nat i) with
                                             | Some x => expr_out op e x
                                             | None => missing FInvalid "AggregateRel"
                                             end) (gr_refs g)) groups
          end).
  (** The positional arguments, l.765-776. *)
  Definition grouping_args (sets : list (list out)) : list out :=
    match sets with
    | [[]] => [txt (L "_")]
    | [g] => g
    | _ => map (fun g => match g with [] => txt (L "_") | _ => tuple_out g end) sets
    end.
  (** l.786-790: a measure without a function is skipped, and so is the filter of
      every measure. *)
  Fixpoint measure_outs (l : list measure) : list out :=
    match l with
    | [] => []
    | m :: r => match ms_fn m with
                | Some a => aggfn_out op e a :: measure_outs r
                | None => measure_outs r
                end
    end.
  (** [Relation::from_aggregate], l.722-803. *)
  Definition aggregate_header (c : option rel_common) (gexprs : list pexpr) (groups : list grouping)
    (ms : list measure) (adv : option advext) : header :=
    let (xs, sets) := grouping_values gexprs groups in
    mk_header (txt (L "Aggregate")) (Some (RaInline (grouping_args sets) []))
      (map (expr_out op e) xs ++ measure_outs ms) (get_emit c) false (adv_lines adv).

  (** [From<&SortField> for Value], src/textify/values.rs l.128-148. *)
  Definition sort_kind_out (k : option sort_kind) : out :=
    match k with
    | Some (SkDirection d) => enum_out sort_directions d "SortKind" "SortKind"
    | _ => missing FInvalid "SortKind"
    end.
  Definition sort_field_out (s : sort_field) : out :=
    tuple_out [opt_expr_out FUnimplemented "SortField" (sf_expr s); sort_kind_out (sf_kind s)].
  (** [Relation::from_sort], src/textify/rels.rs l.882-904. *)
  Definition sort_header (c : option rel_common) (n : nat) (sorts : list sort_field) (adv : option advext) : header :=
    mk_header (txt (L "Sort")) (Some (RaInline (map sort_field_out sorts) []))
      (ref_columns n) (get_emit c) false (adv_lines adv).

  (** [Relation::from_fetch], l.906-957. *)
  Definition fetch_mode_out (m : fetch_mode) : out :=
    match m with FmExpr x => expr_out op e x | FmInt z => txt (show_Z z) end.
  Definition fetch_arg (name : string) (m : option fetch_mode) : list (list N * out) :=
    match m with Some m => [(L name, fetch_mode_out m)] | None => [] end.
  Definition fetch_header (c : option rel_common) (n : nat) (count offset : option fetch_mode)
    (adv : option advext) : header :=
    mk_header (txt (L "Fetch")) (Some (RaInline [] (fetch_arg "limit" count ++ fetch_arg "offset" offset)))
      (ref_columns n) (get_emit c) false (adv_lines adv).

  (** [Relation::from_join], l.997-1070. *)
  Definition join_header (c : option rel_common) (l r : nat) (cond post : option pexpr) (jtype : Z)
    (adv : option advext) : header :=
    mk_header (txt (L "Join"))
      (Some (RaInline [enum_out join_types jtype "JoinType" "JoinRel"; opt_expr_out FUnimplemented "JoinRel" cond]
               (match post with Some x => [(L "post_filter", expr_out op e x)] | None => [] end)))
      (ref_columns (join_width jtype l r)) (get_emit c) false (adv_lines adv).

  (** [Relation::from_set], l.1072-1101. *)
  Definition set_header (c : option rel_common) (widths : list nat) (o : Z) (adv : option advext) : header :=
    mk_header (txt (L "Set")) (Some (RaInline [enum_out set_ops o "SetOp" "SetRel"] []))
      (ref_columns (match widths with [] => 0 | _ => list_sum widths / length widths end))
      (get_emit c) false (adv_lines adv).

  (** [Relation::from_cross], l.1103-1122. *)
  Definition cross_header (c : option rel_common) (n : nat) (adv : option advext) : header :=
    mk_header (txt (L "Cross")) None (ref_columns n) (get_emit c) false (adv_lines adv).

  (** [Relation::from_extension], l.612-711; [kind] is its [ext_type]. *)
  Definition extension_header (kind : string) (detail : option any) (widths : list nat) : header :=
    match match detail with
          | Some d => decode_with_type reg XtRelation d widths
          | None => Err XMissingDetail
          end with
    | Ok (name, a) =>
        mk_header (txt (L kind ++ L ":" ++ name))
          (Some (RaInline (map (xvalue_out op e) (xa_positional a))
                   (map (fun p => (fst p, xvalue_out op e (snd p))) (xa_named a))))
          (map (xcolumn_out op e) (xa_columns a)) None false []
    | Err _ => mk_header (txt (L kind)) None [missing FInvalid "extension"] None false []
    | Panic p => mk_header (opanic p) None [] None false []
    end.

  (** [Relation::from_rel], l.578-610, and [convert_children], l.509-528.  The error
      of an unsupported relation is pushed while the tree is converted, hence in
      Rust before those of its parents' headers; here it comes where its token is
      written. *)
  Fixpoint view_of (r : prel) : view :=
    let child := fun o : option prel => match o with Some r => Some (view_of r) | None => None end in
    match r with
    | RRead r => View (read_header r) []
    | RFilter c i x adv => let v := child i in View (filter_header c (width v) x adv) [v]
    | RProject c i xs adv => let v := child i in View (project_header c (width v) xs adv) [v]
    | RAggregate c i xs gs ms adv => View (aggregate_header c xs gs ms adv) [child i]
    | RSort c i ss adv => let v := child i in View (sort_header c (width v) ss adv) [v]
    | RFetch c i n o adv => let v := child i in View (fetch_header c (width v) n o adv) [v]
    | RJoin c l r x p t adv =>
        let vl := child l in let vr := child r in
        View (join_header c (width vl) (width vr) x p t adv) [vl; vr]
    | RSet c l o adv =>
        let vs := map view_of l in View (set_header c (map emitted vs) o adv) (map Some vs)
    | RCross c l r adv =>
        let vl := child l in let vr := child r in
        View (cross_header c (width vl + width vr) adv) [vl; vr]
    | RExtLeaf _ d => View (extension_header "ExtensionLeaf" d []) []
    | RExtSingle _ d i =>
        let v := child i in
        View (extension_header "ExtensionSingle" d (match v with Some v => [emitted v] | None => [] end)) [v]
    | RExtMulti _ d l =>
        let vs := map view_of l in View (extension_header "ExtensionMulti" d (map emitted vs)) (map Some vs)
    | ROther _ | RNone =>
        View (mk_header (missing FUnimplemented "Rel") None [] None false []) []
    end.

  (** [Textify for Rel], l.60-70. *)
  Definition rel_out (depth : nat) (r : prel) : out := view_out op depth (view_of r).

  (** [Textify for RelRoot], [PlanRelType] and [PlanRel], l.832-879. *)
  Definition plan_rel_out (p : plan_rel) : out :=
    match p with
    | PRel r => rel_out 0 r
    | PRoot names i =>
        txt (L "Root[" ++ join (L ", ") (map show_name names) ++ L "]")
        +++ match i with
            | Some r => txt [c_nl] +++ rel_out 1 r
            | None => onil
            end
    | PRNone => missing FInvalid "PlanRelType"
    end.
End Write.
