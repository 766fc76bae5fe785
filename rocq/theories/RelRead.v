(** Reading relations: from parsed lines to proto relations
    (src/parser/relations.rs, src/parser/extensions.rs, src/parser/structural.rs
    l.295-780). *)
From Coq Require Import String List NArith ZArith Bool.
From Verif Require Import Base Peg Names SimpleExt Out Anchors Types Literals Exprs ExprEq ExtArgs Registry
  Rels RelGrammar Tree Structural.
Import ListNotations.
Local Open Scope string_scope.
Local Open Scope list_scope.

(** ** Emits *)

(** [v == i as i32] for all positions from [i] on. *)
Fixpoint identity_from (i : nat) (l : list Z) : bool :=
  match l with
  | [] => true
  | z :: r => (z =? wrap_i32 (Z.of_nat i))%Z && identity_from (S i) r
  end.
(** [make_emit], src/parser/relations.rs l.217-230. *)
Definition make_emit (mapping : list Z) (n : nat) : emit_kind :=
  if Nat.eqb (length mapping) n && identity_from 0 mapping then EmDirect else EmEmit mapping.
(** [direct_common], l.232-238. *)
Definition direct_common : option rel_common := Some (mk_common (Some EmDirect) false).
Definition emit_common (k : emit_kind) : option rel_common := Some (mk_common (Some k) false).
(** [parse_output_mapping], l.208-215. *)
Definition output_mapping (refs : list (list N)) : pres (list Z) := rlist field_index refs.
(** [parse_emit], l.240-246. *)
Definition parse_emit (refs : list (list N)) (n : nat) : pres (emit_kind * nat) :=
  let? m := output_mapping refs in Ok (make_emit m n, length m).

(** ** Columns *)

(** [Column::parse_pair] and [NamedColumnList::parse_pair], l.138-182. *)
Definition lower_column (e : exts) (c : colc) : pres (list N * ptype) :=
  let? n := lower_name (fst c) in
  let? t := lower_type e (snd c) in
  Ok (n, t).
Definition lower_columns (e : exts) (l : list colc) : pres (list (list N * ptype)) := rlist (lower_column e) l.
(** [build_named_struct], l.481-492. *)
Definition build_named_struct (l : list (list N * ptype)) : named_struct :=
  mk_named_struct (map fst l) (Some (map snd l, 0%N, NRequired)).

(** [parse_output] and [parse_emit_suffix], l.248-288. *)
Definition lower_output (e : exts) (o : outc) : pres (list (list N * ptype) * option rel_common * nat) :=
  match o with
  | OImplicit c =>
      let? cols := lower_columns e c in Ok (cols, direct_common, length cols)
  | ODirect c refs =>
      let? cols := guard_drop (lower_columns e c) in
      match refs with
      | None => Ok (cols, direct_common, length cols)
      | Some refs => let? m := output_mapping refs in Ok (cols, emit_common (EmEmit m), length m)
      end
  end.

(** ** Aggregates *)

(** The position of an expression: of the first occurrence, and of the last
    ([HashMap::from_iter] keeps the last entry of a key). *)
Fixpoint first_pos (i : nat) (x : pexpr) (l : list pexpr) : option nat :=
  match l with
  | [] => None
  | y :: r => if pexpr_eqb x y then Some i else first_pos (S i) x r
  end.
Fixpoint last_pos (i : nat) (x : pexpr) (l : list pexpr) : option nat :=
  match l with
  | [] => None
  | y :: r => match last_pos (S i) x r with
              | Some j => Some j
              | None => if pexpr_eqb x y then Some i else None
              end
  end.

(** [build_grouping_fields], l.843-873: the expressions collected so far, and the
    reference of one more ([as u32] is taken to be exact). *)
Definition intern (xs : list pexpr) (x : pexpr) : list pexpr * N :=
  match first_pos 0 x xs with
  | Some i => (xs, N.of_nat i)
  | None => (xs ++ [x], N.of_nat (length xs))
  end.
Fixpoint intern_set (xs : list pexpr) (l : list pexpr) : list pexpr * list N :=
  match l with
  | [] => (xs, [])
  | x :: r =>
      let (xs, i) := intern xs x in
      let (xs, is) := intern_set xs r in (xs, i :: is)
  end.
Fixpoint intern_sets (xs : list pexpr) (l : list (list pexpr)) : list pexpr * list grouping :=
  match l with
  | [] => (xs, [])
  | s :: r =>
      let (xs, is) := intern_set xs s in
      let (xs, gs) := intern_sets xs r in (xs, mk_grouping is [] :: gs)
  end.
Definition build_grouping_fields (sets : list (list pexpr)) : list grouping * list pexpr :=
  let (xs, gs) := intern_sets [] sets in (gs, xs).

Section Read.
  Context `{F : Floats}.
  Variable reg : registry.
  Variable e : exts.

  (** [parse_grouping_sets], [parse_grouping_set], [parse_expression_list],
      l.781-841. *)
  Definition lower_exprs (l : list ecst) : pres (list pexpr) := rlist (lower_expr e) l.
  Definition lower_groups (g : groupc) : pres (list (list pexpr)) :=
    match g with
    | GList l => let? xs := lower_exprs l in Ok [xs]
    | GSets l => rlist lower_exprs l
    end.

  (** [parse_aggregate_output], l.717-779; [k] counts the measures so far. *)
  Fixpoint lower_outputs (gexprs : list pexpr) (k : nat) (l : list ecst) : pres (list measure * list Z) :=
    match l with
    | [] => Ok ([], [])
    | c :: r =>
        let? x := lower_expr e c in
        match last_pos 0 x gexprs with
        | Some i =>
            let? p := lower_outputs gexprs k r in
            Ok (fst p, wrap_i32 (Z.of_nat i) :: snd p)
        | None =>
            match c with
            | XCall f a t =>
                let? m := lower_measure e (f, a, t) in
                let? p := lower_outputs gexprs (S k) r in
                Ok (mk_measure (Some m) None :: fst p,
                    wrap_i32 (Z.of_nat (length gexprs) + Z.of_nat k) :: snd p)
            | _ => Err (PInvalid "AggregateRel")
            end
        end
    end.

  (** The arguments of [ProjectRel::parse_pair_with_context], l.605-623; [n] is the
      input's column count and [k] the number of expressions so far.  The sum of the
      two [i32] numbers is taken to wrap around. *)
  Fixpoint lower_project (n k : nat) (l : list pac) : pres (list pexpr * list Z) :=
    match l with
    | [] => Ok ([], [])
    | PaRef s :: r =>
        let? i := field_index s in
        let? p := lower_project n k r in
        Ok (fst p, i :: snd p)
    | PaExpr c :: r =>
        let? x := lower_expr e c in
        let? p := lower_project n (S k) r in
        Ok (x :: fst p, wrap_i32 (Z.of_nat n + Z.of_nat k) :: snd p)
    end.

  (** [SortField::parse_pair], l.875-904; [sort_direction_from_str],
      src/parser/common.rs l.371-386. *)
  Definition lower_sort_field (p : ecst * list N) : pres sort_field :=
    let? x := guard_drop (lower_expr e (fst p)) in
    match enum_number sort_directions (tl (snd p)) with
    | Some d => Ok (mk_sort_field (Some x) (Some (SkDirection d)))
    | None => Err (PInvalid "SortDirection")
    end.

  (** [CountMode::parse_pair], [OffsetMode::parse_pair], [i64_literal_expr],
      src/parser/relations.rs l.956-1062. *)
  Definition i64_literal (z : Z) : pexpr := ELit (mk_lit (Some (LI64 z)) false 0).
  Definition lower_fetch_value (what : string) (v : fvc) : pres fetch_mode :=
    match v with
    | FvInt s =>
        match parse_i64 s with
        | None => Err (PInvalid what)
        | Some z => if (z <? 0)%Z then Err (PInvalid what) else Ok (FmExpr (i64_literal z))
        end
    | FvExpr c => rmap FmExpr (lower_expr e c)
    end.
  Definition lower_fetch_opt (what : string) (v : option fvc) : pres (option fetch_mode) :=
    match v with
    | None => Ok None
    | Some v => rmap Some (lower_fetch_value what v)
    end.
  (** [ParsedNamedArgs::new], src/parser/common.rs l.321-341: whether a name
      occurs twice. *)
  Fixpoint has_duplicate {V} (l : list (list N * V)) : bool :=
    match l with
    | [] => false
    | (k, _) :: r => existsb (fun p => streqb k (fst p)) r || has_duplicate r
    end.

  Definition lower_opt_expr (x : option ecst) : pres (option pexpr) :=
    match x with
    | None => Ok None
    | Some c => rmap Some (lower_expr e c)
    end.

  Definition total (cs : list (prel * nat)) : nat := list_sum (map snd cs).

  (** [expect_one_child], src/parser/relations.rs l.184-206. *)
  Definition one_child (what : string) (cs : list (prel * nat)) : pres prel :=
    match cs with
    | [c] => Ok (fst c)
    | _ => Err (PInvalid what)
    end.
  Definition two_children (what : string) (cs : list (prel * nat)) : pres (prel * prel) :=
    match cs with
    | [a; b] => Ok (fst a, fst b)
    | _ => Err (PInvalid what)
    end.

  (** [parse_pair_with_context] and [into_rel] of the relations of [parse_rel]:
      [ReadRel] l.290-349, [VirtualReadRel] l.356-421 and [parse_virtual_read_rows]
      l.494-529, [FilterRel] l.531-576, [ProjectRel] l.578-643, [AggregateRel]
      l.645-707, [SortRel] l.906-954, [FetchRel] l.1064-1133, [JoinRel] l.1135-1239,
      [CrossRel] l.1241-1300; and [parse_set_relation_pair], l.1302-1384. *)
  Definition lower_rel (y : rline) (cs : list (prel * nat)) (adv : option advext) : pres (prel * nat) :=
    match y with
    | YRead t o =>
        match cs with
        | [] =>
            let? names := rlist lower_name t in
            let? p := lower_output e o in
            let '(cols, common, n) := p in
            Ok (RRead (mk_read common (Some (build_named_struct cols)) None (ReadNamed names) adv false), n)
        | _ => Err (PInvalid "ReadRel")
        end
    | YVirtual rows f cols =>
        match cs with
        | [] =>
            let? f := guard_drop (lower_opt_expr f) in
            let? rows := rlist lower_exprs rows in
            let? cols := lower_columns e cols in
            Ok (RRead (mk_read direct_common (Some (build_named_struct cols)) f (ReadVirtual rows) adv false),
                length cols)
        | _ => Err (PInvalid "VirtualReadRel")
        end
    | YFilter x refs =>
        let? i := one_child "FilterRel" cs in
        let? x := guard_drop (lower_expr e x) in
        let? p := parse_emit refs (total cs) in
        Ok (RFilter (emit_common (fst p)) (Some i) (Some x) adv, snd p)
    | YProject args =>
        let? i := one_child "ProjectRel" cs in
        let? p := lower_project (total cs) 0 args in
        let k := make_emit (snd p) (total cs + length (fst p)) in
        Ok (RProject (emit_common k) (Some i) (fst p) adv, length (snd p))
    | YAggregate g outs =>
        let? i := one_child "AggregateRel" cs in
        let? sets := lower_groups g in
        let (groups, gexprs) := build_grouping_fields sets in
        let? p := lower_outputs gexprs 0 outs in
        let k := make_emit (snd p) (length gexprs + length (fst p)) in
        Ok (RAggregate (emit_common k) (Some i) gexprs groups (fst p) adv, length (snd p))
    | YSort fields refs =>
        let? i := one_child "SortRel" cs in
        let? sorts := rlist lower_sort_field fields in
        let? p := parse_emit refs (total cs) in
        Ok (RSort (emit_common (fst p)) (Some i) sorts adv, snd p)
    | YFetch args refs =>
        let? i := one_child "FetchRel" cs in
        let? _ := guard_drop (if has_duplicate args then Err (PInvalid "NamedArg") else Ok tt) in
        let? p := parse_emit refs (total cs) in
        let? count := lower_fetch_opt "CountMode" (imap_get (L "limit") args) in
        let? offset := lower_fetch_opt "OffsetMode" (imap_get (L "offset") args) in
        Ok (RFetch (emit_common (fst p)) (Some i) count offset adv, snd p)
    | YJoin t x post refs =>
        let? lr := two_children "JoinRel" cs in
        let? jt := unwrap "Unknown join type" (enum_number join_types (tl t)) in
        let? x := guard_drop (lower_expr e x) in
        let? post := guard_drop (lower_opt_expr post) in
        let? p := parse_emit refs (total cs) in
        Ok (RJoin (emit_common (fst p)) (Some (fst lr)) (Some (snd lr)) (Some x) post jt adv, snd p)
    | YCross refs =>
        let? lr := two_children "CrossRel" cs in
        let? p := parse_emit refs (total cs) in
        Ok (RCross (emit_common (fst p)) (Some (fst lr)) (Some (snd lr)) adv, snd p)
    | YSet o refs =>
        match cs with
        | c :: _ :: _ =>
            if forallb (fun d => Nat.eqb (snd d) (snd c)) cs then
              let? o := unwrap "Unknown set op" (enum_number set_ops (tl o)) in
              let? p := parse_emit refs (snd c) in
              Ok (RSet (emit_common (fst p)) (map fst cs) o adv, snd p)
            else Err (PInvalid "SetRel")
        | _ => Err (PInvalid "SetRel")
        end
    | YRoot _ | YExtRead _ | YExt _ _ _ _ => Panic "unhandled relation rule"
    end.

  (** ** Addenda *)

  (** [AddendumInvocation], src/parser/extensions.rs l.524-575, with its line
      ([ParsedAddendum], src/parser/structural.rs l.336-378). *)
  Record ainv := mk_ainv { ai_kind : xtype; ai_name : list N; ai_args : xargs; ai_line : N }.
  Definition lower_addendum (a : acst * N) : res perror ainv :=
    let '(Acst k n args, line) := a in
    lift_plan line (let? n := lower_name n in let? args := lower_xargs e args in Ok (mk_ainv k n args line)).

  (** [resolve_extension_detail] and [resolve_addendum_detail],
      src/parser/relations.rs l.36-84. *)
  Definition resolve (t : xtype) (line : N) (name : list N) (args : xargs) : res perror any :=
    match parse_with_type reg t name args with
    | Ok d => Ok d
    | Err (XNotFound _) => Err (EUnregistered line name)
    | Err _ => Err (EDetail line "extension detail")
    | Panic p => Panic p
    end.
  Definition resolve_addendum (a : ainv) : res perror any :=
    resolve (ai_kind a) (ai_line a) (ai_name a) (ai_args a).

  (** [into_standard_advanced_extension], src/parser/structural.rs l.412-450. *)
  Fixpoint standard_loop (l : list ainv) (enh : option any) (opts : list any) : res perror (option any * list any) :=
    match l with
    | [] => Ok (enh, opts)
    | a :: r =>
        match ai_kind a with
        | XtEnhancement =>
            match enh with
            | Some _ => Err (EValidation (ai_line a) "at most one enhancement per relation is allowed")
            | None => let? d := resolve_addendum a in standard_loop r (Some d) opts
            end
        | XtOptimization => let? d := resolve_addendum a in standard_loop r enh (opts ++ [d])
        | XtTable | XtRelation =>
            Err (EValidation (ai_line a) "+ Ext addenda can only be used with Read:Extension")
        end
    end.
  Definition standard_addenda (l : list ainv) : res perror (option advext) :=
    let? p := standard_loop l None [] in
    match p with
    | (None, []) => Ok None
    | (enh, opts) => Ok (Some (mk_advext enh opts))
    end.

  Definition is_table (a : ainv) : bool := xtype_eqb (ai_kind a) XtTable.
  (** [into_extension_read_parts], l.452-491. *)
  Definition extension_read_addenda (line : N) (l : list ainv) : res perror (any * option advext) :=
    match filter is_table l with
    | [] => Err (EValidation line "Read:Extension requires exactly one + Ext addendum")
    | _ :: a :: _ => Err (EValidation (ai_line a) "Read:Extension allows exactly one + Ext addendum")
    | [a] =>
        let? d := resolve_addendum a in
        let? adv := standard_addenda (filter (fun a => negb (is_table a)) l) in
        Ok (d, adv)
    end.

  (** ** Extension relations *)

  (** [validate_child_count] and [create_rel], src/parser/extensions.rs l.396-447. *)
  Definition child_count_ok (k : xkind) (n : nat) : bool :=
    match k with
    | XkLeaf => Nat.eqb n 0
    | XkSingle => Nat.eqb n 1
    | XkMulti => true
    end.
  Definition create_rel (k : xkind) (detail : any) (cs : list prel) : prel :=
    match k with
    | XkLeaf => RExtLeaf direct_common (Some detail)
    | XkSingle => RExtSingle direct_common (Some detail) (hd_error cs)
    | XkMulti => RExtMulti direct_common (Some detail) cs
    end.
  (** [ExtensionInvocation::parse_pair], l.458-522: the custom name is the text
      after the colon as it stands, quotes included. *)
  Definition raw_name (n : nm) : list N := match n with NIdent s | NQuoted s => s end.
  Definition lower_invocation (args : xargsc) (cols : list xcolc) : pres xargs :=
    let? a := lower_xargs e args in
    let? c := rlist (lower_xcolumn e) cols in
    Ok (mk_xargs (xa_positional a) (xa_named a) c).

  (** ** Trees *)

  (** [parse_relation], [parse_rel], [parse_set_relation],
      [parse_extension_relation], [parse_extension_read_relation],
      src/parser/structural.rs l.500-667. *)
  Definition parse_relation (y : rline) (line : N) (ads : list ainv) (cs : list (prel * nat))
    : res perror (prel * nat) :=
    match y with
    | YExtRead cols =>
        let? p := extension_read_addenda line ads in
        lift_plan line
          match cs with
          | [] =>
              let? cols := lower_columns e cols in
              Ok (RRead (mk_read direct_common (Some (build_named_struct cols)) None
                           (ReadExtension (Some (fst p))) (snd p) false), length cols)
          | _ => Err (PInvalid "ExtensionReadRel")
          end
    | YExt k n args cols =>
        match ads with
        | a :: _ => Err (EValidation (ai_line a) "extension relations do not support addenda")
        | [] =>
            let? a := lift_plan line (lower_invocation args cols) in
            if child_count_ok k (length cs) then
              let? d := resolve XtRelation line (raw_name n) a in
              Ok (create_rel k d (map fst cs), length (xa_columns a))
            else Err (EPlan line (PInvalid "extension_relation"))
        end
    | _ =>
        let? adv := standard_addenda ads in
        lift_plan line (lower_rel y cs adv)
    end.

  (** [build_rel], l.669-697. *)
  Fixpoint build_rel (n : rnode rline acst) : res perror (prel * nat) :=
    let '(RNode y line ads cs) := n in
    let? cs := rlist build_rel cs in
    let? ads := rlist lower_addendum ads in
    parse_relation y line ads cs.

  (** [build_plan_rel], l.699-765. *)
  Definition build_plan_rel (n : rnode rline acst) : res perror plan_rel :=
    match n with
    | RNode (YRoot names) line ads cs =>
        match ads with
        | (_, l) :: _ => Err (EValidation l "addenda are not supported on Root relations")
        | [] =>
            let? names := lift_plan line (rlist lower_name names) in
            match cs with
            | [c] => let? p := build_rel c in Ok (PRoot names (Some (fst p)))
            | _ => Err (EPlan line (PInvalid "root_relation"))
            end
        end
    | _ => let? p := build_rel n in Ok (PRel (fst p))
    end.
End Read.
