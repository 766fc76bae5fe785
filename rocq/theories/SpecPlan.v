(** The plans the text format can carry. *)
From Coq Require Import String List NArith ZArith Bool.
From Verif Require Import Base Names SpecNames SimpleExt SimpleExtFacts SpecExt Out Types SpecTypes Literals SpecLiterals Exprs SpecExprs
  ExprEq ExtArgs Registry Rels SpecRels Structural Version Lines SpecExtLines.
Import ListNotations.
Local Open Scope string_scope.
Local Open Scope list_scope.
Local Open Scope nat_scope.

(** ** Arguments of extensions *)

(** Words that are read as a value wherever an argument may stand. *)
Definition value_word (s : list N) : bool :=
  starts_with (L "true") s || starts_with (L "false") s || starts_with (L "null") s.

Section Args.
  Context `{U : Unicode} `{F : Floats}.
  Variable e : exts.
  (** The expressions and types allowed. *)
  Variables (X : pexpr -> Prop) (T : ptype -> Prop).

  (** A literal whose type is always written. *)
  Definition typed_literal (l : literal) : Prop :=
    match l_type l with
    | Some (LNull _) => True
    | Some v => l_nullable l = true \/ is_default_for_syntax v = false
    | None => False
    end.
  (** Expressions that are not taken for a plain value: a literal must show its
      type, and a function must not be named like a value. *)
  Definition argument_expr (x : pexpr) : Prop :=
    match x with
    | ELit l => typed_literal l
    | EFunc r _ _ _ => forall u n, decl_get e KFunction r = Some (u, n) -> value_word n = false
    | _ => True
    end.
  (** Expressions that are not taken for a named column. *)
  Definition column_expr (x : pexpr) : Prop :=
    match x with
    | ELit l => match l_type l with Some (LBool _) | Some (LNull _) => False | _ => True end
    | EFunc r _ _ _ => forall u n, decl_get e KFunction r = Some (u, n) -> contains_char c_colon n = false
    | _ => True
    end.

  Inductive value_writable : xvalue -> Prop :=
  | vw_string s : str_ok s = true -> value_writable (XString s)
  | vw_integer z : in_range i64_min i64_max z = true -> value_writable (XInteger z)
  | vw_float f : is_float_text (show64 f) = true -> read64 (show64 f) = f -> value_writable (XFloat f)
  | vw_boolean b : value_writable (XBoolean b)
  | vw_null : value_writable XNull
  | vw_expr x : X x -> argument_expr x -> value_writable (XExpr x)
  | vw_enum s : is_identifier s = true -> value_writable (XEnum s)
  | vw_tuple l : Forall value_writable l -> value_writable (XTuple l).

  Definition column_writable (c : xcolumn) : Prop :=
    match c with
    | XNamed n t => name_ok n /\ T t
    | XColExpr x => X x /\ column_expr x
    end.

  Definition named_writable (p : list N * xvalue) : Prop :=
    is_identifier (fst p) = true /\ value_word (fst p) = false /\ value_writable (snd p).

  Definition args_writable (a : xargs) : Prop :=
    Forall value_writable (xa_positional a) /\
    Forall named_writable (xa_named a) /\ NoDup (map fst (xa_named a)) /\
    Forall column_writable (xa_columns a).
End Args.

(** ** Relations *)

Section Relations.
  Context `{U : Unicode} `{F : Floats}.
  Variable reg : registry.
  Variable op : options.
  Variable e : exts.
  (** The expressions, types and aggregate functions allowed. *)
  Variables (X : pexpr -> Prop) (T : ptype -> Prop) (M : aggfn -> Prop).

  (** A message that its handler shows under a usable name, and gets back from
      what it shows. *)
  Definition detail_writable (t : xtype) (d : any) (widths : list nat) (columns : list xcolumn) : Prop :=
    exists name a,
      decode_with_type reg t d widths = Ok (name, a) /\ parse_with_type reg t name a = Ok d /\
      is_identifier name = true /\ args_writable e X T a /\ xa_columns a = columns.

  (** Enhancements and optimizations. *)
  Definition adv_writable (a : option advext) : Prop :=
    match a with
    | None => True
    | Some a =>
        (ae_enhancement a <> None \/ ae_optimizations a <> []) /\
        (forall d, ae_enhancement a = Some d -> detail_writable XtEnhancement d [] []) /\
        Forall (fun d => detail_writable XtOptimization d [] []) (ae_optimizations a)
    end.

  Definition direct : option rel_common := Some (mk_common (Some EmDirect) false).
  Definition emit (m : list Z) : option rel_common := Some (mk_common (Some (EmEmit m)) false).
  Definition all_columns (n : nat) : list Z := map Z.of_nat (seq 0 n).

  (** [emits c shown all k w]: with [shown] columns that can be referred to, and the
      reader taking the list of [all] columns for the direct output, the relation
      puts out the [w] columns [k]. *)
  Inductive emits : option rel_common -> nat -> nat -> list Z -> nat -> Prop :=
  | emits_direct n : (Z.of_nat n <= column_limit)%Z -> emits direct n n (all_columns n) n
  | emits_emit m shown all :
      (Z.of_nat shown <= column_limit)%Z -> (Z.of_nat all <= column_limit)%Z ->
      Forall (fun i => 0 <= i < Z.of_nat shown)%Z m -> m <> all_columns all ->
      emits (emit m) shown all m (length m).

  (** The columns from [n] on, [k] of them, are put out each once and in order. *)
  Definition in_order (n k : nat) (m : list Z) : Prop :=
    filter (fun i => (Z.of_nat n <=? i)%Z) m = map Z.of_nat (seq n k).

  (** Named columns. *)
  Definition schema_writable (s : option named_struct) (n : nat) : Prop :=
    exists cols : list (list N * ptype),
      s = Some (mk_named_struct (map fst cols) (Some (map snd cols, 0%N, NRequired))) /\
      Forall (fun c => name_ok (fst c) /\ T (snd c)) cols /\ n = length cols.

  Definition is_reference (x : pexpr) : bool := match x with ESel _ => true | _ => false end.
  Definition is_cast (x : pexpr) : bool := match x with ECast _ _ _ => true | _ => false end.

  (** The grouping sets as expressions. *)
  Definition grouping_exprs (gexprs : list pexpr) (g : grouping) : list pexpr :=
    map (fun i => nth (N.to_nat i) gexprs ENone) (gr_refs g).
  Definition groups_writable (gexprs : list pexpr) (groups : list grouping) : Prop :=
    groups <> [] /\
    Forall (fun g => gr_exprs g = [] /\ Forall (fun i => N.to_nat i < length gexprs) (gr_refs g)) groups /\
    gexprs = firsts (concat (map (grouping_exprs gexprs) groups)) /\
    Forall X gexprs /\
    (forall g i r, groups = [g] -> gr_refs g = i :: r -> is_cast (nth (N.to_nat i) gexprs ENone) = false).

  (** A measure, and what a call of its function looks like as an expression. *)
  Definition measure_writable (gexprs : list pexpr) (m : measure) : Prop :=
    ms_filter m = None /\
    exists a, ms_fn m = Some a /\ M a /\ ~ In (EFunc (af_ref a) (af_args a) [] (af_out a)) gexprs.

  (** A limit or offset: a number, when literals show their type only where
      needed, or an expression that is not a number. *)
  Definition bound_writable (m : option fetch_mode) : Prop :=
    match m with
    | None => True
    | Some (FmExpr (ELit l)) =>
        if is_number l then
          op_literal_types op = VRequired /\
          exists z, l = mk_lit (Some (LI64 z)) false 0 /\ (0 <= z)%Z /\ in_range i64_min i64_max z = true
        else X (ELit l)
    | Some (FmExpr x) => X x
    | Some (FmInt _) => False
    end.

  Definition sort_writable (s : sort_field) : Prop :=
    exists x d, s = mk_sort_field (Some x) (Some (SkDirection d)) /\ X x /\ (1 <= d <= 4)%Z.

  Definition optional (x : option pexpr) : Prop := match x with Some x => X x | None => True end.

  (** [writable r w]: the text format can carry [r], which puts out [w] columns. *)
  Inductive writable : prel -> nat -> Prop :=
  | w_read c s names adv n w :
      names <> [] -> Forall name_ok names -> schema_writable s n -> adv_writable adv ->
      (c = direct /\ w = n \/
       exists m, c = emit m /\ Forall (fun i => in_range i32_min i32_max i = true) m /\ w = length m) ->
      writable (RRead (mk_read c s None (ReadNamed names) adv false)) w
  | w_virtual s f rows adv n :
      schema_writable s n -> optional f -> Forall (Forall X) rows -> adv_writable adv ->
      writable (RRead (mk_read direct s f (ReadVirtual rows) adv false)) n
  | w_table s d adv n :
      schema_writable s n -> detail_writable XtTable d [] [] -> adv_writable adv ->
      writable (RRead (mk_read direct s None (ReadExtension (Some d)) adv false)) n
  | w_filter c i x adv n m w :
      writable i n -> X x -> adv_writable adv -> emits c n n m w ->
      writable (RFilter c (Some i) (Some x) adv) w
  | w_project c i xs adv n m w :
      writable i n -> Forall X xs -> Forall (fun x => is_reference x = false) xs -> adv_writable adv ->
      emits c (n + length xs) (n + length xs) m w -> in_order n (length xs) m ->
      writable (RProject c (Some i) xs adv) w
  | w_aggregate c i gexprs groups ms adv n m w :
      writable i n -> groups_writable gexprs groups -> Forall (measure_writable gexprs) ms -> adv_writable adv ->
      emits c (length gexprs + length ms) (length gexprs + length ms) m w -> in_order (length gexprs) (length ms) m ->
      writable (RAggregate c (Some i) gexprs groups ms adv) w
  | w_sort c i sorts adv n m w :
      writable i n -> sorts <> [] -> Forall sort_writable sorts -> adv_writable adv -> emits c n n m w ->
      writable (RSort c (Some i) sorts adv) w
  | w_fetch c i count offset adv n m w :
      writable i n -> bound_writable count -> bound_writable offset -> adv_writable adv -> emits c n n m w ->
      writable (RFetch c (Some i) count offset adv) w
  | w_join c l r x post t adv nl nr name shown m w :
      writable l nl -> writable r nr -> X x -> optional post -> adv_writable adv ->
      enum_name join_types t = Some name -> join_output name nl nr shown -> emits c shown (nl + nr) m w ->
      writable (RJoin c (Some l) (Some r) (Some x) post t adv) w
  | w_set c i1 i2 l o adv n name m w :
      writable i1 n -> writable i2 n -> (forall i, In i l -> writable i n) -> adv_writable adv ->
      enum_name set_ops o = Some name -> emits c n n m w ->
      writable (RSet c (i1 :: i2 :: l) o adv) w
  | w_cross c l r adv nl nr m w :
      writable l nl -> writable r nr -> adv_writable adv -> emits c (nl + nr) (nl + nr) m w ->
      writable (RCross c (Some l) (Some r) adv) w
  | w_leaf d cols :
      detail_writable XtRelation d [] cols ->
      writable (RExtLeaf direct (Some d)) (length cols)
  | w_single d i n cols :
      writable i n -> detail_writable XtRelation d [n] cols ->
      writable (RExtSingle direct (Some d) (Some i)) (length cols)
  | w_multi d l ns cols :
      writable_list l ns -> detail_writable XtRelation d ns cols ->
      writable (RExtMulti direct (Some d) l) (length cols)
  with writable_list : list prel -> list nat -> Prop :=
  | wl_nil : writable_list [] []
  | wl_cons r n l ns : writable r n -> writable_list l ns -> writable_list (r :: l) (n :: ns).

  Definition plan_rel_writable (p : plan_rel) : Prop :=
    match p with
    | PRel r => exists w, writable r w
    | PRoot names (Some r) => Forall name_ok names /\ exists w, writable r w
    | _ => False
    end.
End Relations.

(** ** Plans *)

(** The declarations of a table, in the order in which the reader keeps them. *)
Definition declares (e : exts) (us : list urn_decl) (ds : list (option ext_decl)) : Prop :=
  us = map (fun x => mk_urn (fst x) (snd x)) (e_urns e) /\
  ds = map (fun x : N * kind * (N * list N) =>
              let '((a, k), (u, n)) := x in Some (mk_decl k u a n)) (e_decls e).

Definition text_kept (s : list N) : Prop := contains_char 10 s = false /\ trim s = s.
Definition version_kept (v : option version) : Prop :=
  match v with
  | None => True
  | Some v =>
      (v_major v <= 4294967295 /\ v_minor v <= 4294967295 /\ v_patch v <= 4294967295)%N /\
      text_kept (v_producer v) /\ text_kept (v_git v) /\ v <> mk_version 0 0 0 [] []
  end.

Section Plans.
  Context `{U : Unicode} `{F : Floats}.

  (** A plan the text format can carry: its declarations are those of a table, its
      version and its relations can be carried.  Types and literals need not show
      all they hold, so that they may be written with error tokens where nullability
      is missing. *)
  Definition plan_writable (reg : registry) (op : options) (p : plan plan_rel) : Prop :=
    exists e, wf_exts e /\ exts_writable e = true /\ declares e (pl_urns _ p) (pl_decls _ p) /\
      version_kept (pl_version _ p) /\
      Forall (plan_rel_writable reg op e (fun x => expr_ok e x = true) (fun t => type_ok e t = true)
                (fun a => aggfn_ok e a = true)) (pl_rels _ p).

  (** The same without missing nullabilities and unusual intervals. *)
  Definition plan_clean (reg : registry) (op : options) (p : plan plan_rel) : Prop :=
    exists e, wf_exts e /\ exts_writable e = true /\ declares e (pl_urns _ p) (pl_decls _ p) /\
      version_kept (pl_version _ p) /\
      Forall (plan_rel_writable reg op e (fun x => expr_ok e x = true /\ expr_clean x = true)
                (fun t => type_ok e t = true /\ nulls_given t = true)
                (fun a => aggfn_ok e a = true /\ aggfn_clean a = true)) (pl_rels _ p).

  (** Options under which texts can be read back. *)
  Definition readable_options (op : options) : Prop :=
    op_indent op = L "  " /\ op_anchors op <> VNever /\ op_literal_types op <> VNever /\ op_show_emit op = false.
End Plans.

Section Relations_of_plan.
  Context `{U : Unicode} `{F : Floats}.
  (** The relations of a plan can be carried, whatever its version. *)
  Definition relations_writable (reg : registry) (op : options) (p : plan plan_rel) : Prop :=
    exists e, declares e (pl_urns _ p) (pl_decls _ p) /\
      Forall (plan_rel_writable reg op e (fun x => expr_ok e x = true) (fun t => type_ok e t = true)
                (fun a => aggfn_ok e a = true)) (pl_rels _ p).
End Relations_of_plan.
