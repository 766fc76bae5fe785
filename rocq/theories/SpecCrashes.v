(** When reading a text crashes, and with which message: a text is read part by part in
    a fixed order, and reading stops at the first part that has no meaning.  This says
    for every part whether it then crashes.  The messages are those of SpecCrash.v, or
    belong to a handler of the registry. *)
From Coq Require Import String List NArith ZArith Bool.
From Verif Require Import Base Names SimpleExt Anchors Types Literals Exprs ExtArgs Registry Rels RelGrammar Tree SpecTree Structural
  Pest SpecGrammar SpecRegistry SpecRels SpecLines SpecAggregate SpecMeaning SpecText.
Import ListNotations.
Local Open Scope string_scope.
Local Open Scope list_scope.
Local Open Scope nat_scope.

(** ** Parts *)

(** A part of what is read: whether it has a meaning, and the messages with which
    reading it crashes. *)
Definition part : Type := Prop * (string -> Prop).
(** Parts read in order: the first without a meaning decides. *)
Fixpoint first_of (ps : list part) (m : string) : Prop :=
  match ps with
  | [] => False
  | p :: r => snd p m \/ fst p /\ first_of r m
  end.
Definition in_order (ps : list part) : part := (Forall fst ps, first_of ps).
(** Without a meaning it is refused. *)
Definition refused (meaning : Prop) : part := (meaning, fun _ => False).
(** Without a meaning it crashes. *)
Definition fatal (meaning : Prop) (message : string) : part := (meaning, fun m => m = message /\ ~ meaning).
(** Something on the line has not been looked at yet: an error then is a crash too. *)
Definition unread : string := "RuleIter dropped with pending pairs".
Definition pending (p : part) : part := (fst p, fun m => snd p m \/ m = unread /\ ~ fst p /\ forall m', ~ snd p m').
Fixpoint pending_but_last (ps : list part) : list part :=
  match ps with
  | [] => []
  | [p] => [p]
  | p :: r => pending p :: pending_but_last r
  end.

Definition anchor_part (a : option (list N)) : part := fatal (exists n, anchor_means a n) "anchor is not a u32".
Definition index_part (s : list N) : part := fatal (exists z, index_means s z) "field index is not an i32".

(** ** Types *)

Fixpoint type_crashes (e : exts) (c : tcst) : string -> Prop :=
  match c with
  | CSimple s _ => fun m => m = "type exists in parser but not implemented in code" /\ ~ exists w k, In (w, k) type_words /\ s = L w
  | CList _ c => type_crashes e c
  | CMap _ _ _ => fun m => m = "not implemented: map_type"
  | CStruct _ _ => fun m => m = "not implemented: struct_type"
  | CPrec _ _ _ | CIntervalDay _ _ => fun _ => False
  | CUser _ a u _ ps =>
      first_of (anchor_part a :: anchor_part u ::
        match ps with
        | None => []
        | Some l => pending_but_last (map (fun c => (exists p, param_means e c p, param_crashes e c)) l)
        end)
  end
with param_crashes (e : exts) (c : pcst) : string -> Prop :=
  match c with
  | CPType c => type_crashes e c
  | CPInt _ => fun m => m = "not implemented: integer"
  | CPName _ => fun m => m = "not implemented: name"
  end.
Definition type_part (e : exts) (c : tcst) : part := (exists t, type_means e c t, type_crashes e c).

Section Values.
  Context `{F : Floats}.

  (** ** Expressions *)

  Definition literal_crashes (e : exts) (c : litc * option tcst) : string -> Prop :=
    first_of (match snd c with Some t => [type_part e t] | None => [] end ++
      match fst c with CInt s => [fatal (exists z, number s z /\ i64 z) "integer literal is not an i64"] | _ => [] end).
  Fixpoint expr_crashes (e : exts) (c : ecst) : string -> Prop :=
    match c with
    | XLit c => literal_crashes e c
    | XRef s => snd (index_part s)
    | XCall f args t =>
        first_of (anchor_part (fr_anchor f) :: anchor_part (fr_urn f) ::
          map (fun c => (exists x, expr_means e c x, expr_crashes e c)) args ++ [type_part e t])
    | XCast c _ t => first_of [(exists x, expr_means e c x, expr_crashes e c); type_part e t]
    | XIf ifs c =>
        first_of (map (fun p => pending (in_order [(exists x, expr_means e (fst p) x, expr_crashes e (fst p));
                                                   (exists x, expr_means e (snd p) x, expr_crashes e (snd p))])) ifs
          ++ [(exists x, expr_means e c x, expr_crashes e c)])
    end.
  Definition expr_part (e : exts) (c : ecst) : part := (exists x, expr_means e c x, expr_crashes e c).
  Definition optional (e : exts) (c : option ecst) : part :=
    match c with Some c => expr_part e c | None => refused True end.

  (** ** Arguments and columns of extensions *)

  Fixpoint argument_crashes (e : exts) (c : xacst) : string -> Prop :=
    match c with
    | VRef s => snd (index_part s)
    | VLit (CInt s) => snd (fatal (exists z, number s z /\ i64 z) "extension integer is not an i64")
    | VEnum _ | VLit _ => fun _ => False
    | VTuple cs => first_of (map (fun c => (exists v, argument_means e c v, argument_crashes e c)) cs)
    | VExpr c => expr_crashes e c
    end.
  Definition argument_part (e : exts) (c : xacst) : part := (exists v, argument_means e c v, argument_crashes e c).
  Definition argument_parts (e : exts) (c : xargsc) : list part := map (argument_part e) (fst c ++ map snd (snd c)).
  Definition xcolumn_part (e : exts) (c : xcolc) : part :=
    match c with
    | KNamed c => type_part e (snd c)
    | KRef s => index_part s
    | KExpr c => expr_part e c
    end.

  (** ** Lines of relations *)

  Definition column_parts (e : exts) (cs : list colc) : list part := map (fun c => type_part e (snd c)) cs.
  Definition output_parts (e : exts) (o : outc) : list part :=
    match o with
    | OImplicit cs => column_parts e cs
    | ODirect cs refs => pending (in_order (column_parts e cs)) :: match refs with Some refs => map index_part refs | None => [] end
    end.
  (** An output of an aggregation is a call, or means what a grouping expression means. *)
  Definition is_output (e : exts) (g : groupc) (c : ecst) : Prop :=
    (exists f args t, c = XCall f args t) \/ exists c' x, In c' (concat (written_sets g)) /\ expr_means e c x /\ expr_means e c' x.
  Definition bound_part (e : exts) (args : list (list N * fvc)) (k : list N) : part :=
    (forall v, In (k, v) args -> exists b, bound_means e v b, fun m => exists c, In (k, FvExpr c) args /\ expr_crashes e c m).
  (** [ins]: the inputs have been read; [same]: they have the same number of columns. *)
  Definition line_parts (e : exts) (y : rline) (ins : nat) (same : Prop) : list part :=
    match y with
    | YRead _ o => refused (ins = 0) :: output_parts e o
    | YVirtual rows f cs => refused (ins = 0) :: pending (optional e f) :: map (expr_part e) (concat rows) ++ column_parts e cs
    | YFilter c refs => refused (ins = 1) :: pending (expr_part e c) :: map index_part refs
    | YProject args => refused (ins = 1) :: map (fun a => match a with PaRef s => index_part s | PaExpr c => expr_part e c end) args
    | YAggregate g outs => refused (ins = 1) :: map (expr_part e) (concat (written_sets g)) ++
        map (fun c => in_order [expr_part e c; refused (is_output e g c)]) outs
    | YSort fs refs => refused (ins = 1) ::
        map (fun f => in_order [pending (expr_part e (fst f)); refused (exists d, enum_means proto_sort_directions (snd f) d)]) fs ++
        map index_part refs
    | YFetch args refs => refused (ins = 1) :: fatal (NoDup (map fst args)) unread :: map index_part refs ++
        [bound_part e args (L "limit"); bound_part e args (L "offset")]
    | YJoin _ c post refs => refused (ins = 2) :: pending (expr_part e c) :: pending (optional e post) :: map index_part refs
    | YCross refs => refused (ins = 2) :: map index_part refs
    | YSet _ refs => refused (2 <= ins /\ same) :: map index_part refs
    | YRoot _ | YExtRead _ | YExt _ _ _ _ => []
    end.

  (** ** Addenda and trees *)

  Definition handler_crashes (reg : registry) (k : xtype) (name : list N) (a : xargs) (m : string) : Prop :=
    exists h, hget (k, name) (rg_handlers reg) = Some h /\ payload_of h a = Panic m.
  Definition addendum_parts (e : exts) (a : acst * N) : list part := match fst a with Acst _ _ args => argument_parts e args end.
  Definition payload_part (reg : registry) (e : exts) (a : acst * N) : part :=
    (exists d, addendum_means reg e a d,
     fun m => match fst a with
              | Acst k c args => exists name xa, name_means c name /\ arguments_mean e args [] xa /\ handler_crashes reg k name xa m
              end).
  (** Payloads of enhancements, of which there may be one, and of optimizations. *)
  Fixpoint payload_parts (reg : registry) (e : exts) (before : list (acst * N)) (ads : list (acst * N)) : list part :=
    match ads with
    | [] => []
    | a :: r =>
        refused (has_kind XtOptimization a = true \/ has_kind XtEnhancement a = true /\ filter (has_kind XtEnhancement) before = []) ::
        payload_part reg e a :: payload_parts reg e (before ++ [a]) r
    end.
  Definition inputs_of (k : xkind) (n : nat) : Prop :=
    match k with XkLeaf => n = 0 | XkSingle => n = 1 | XkMulti => True end.
  Definition relation_part (reg : registry) (e : exts) (c : nm) (args : xargsc) (xcs : list xcolc) : part :=
    (exists cols a d, Forall2 (xcolumn_means e) xcs cols /\ arguments_mean e args cols a /\ handled reg XtRelation (raw c) a d,
     fun m => exists cols a, Forall2 (xcolumn_means e) xcs cols /\ arguments_mean e args cols a
              /\ handler_crashes reg XtRelation (raw c) a m).
  Definition node_parts (reg : registry) (e : exts) (y : rline) (ads : list (acst * N)) (ins : nat) (same : Prop) : list part :=
    concat (map (addendum_parts e) ads) ++
    match y with
    | YExtRead cs =>
        refused (length (filter (has_kind XtTable) ads) = 1) :: map (payload_part reg e) (filter (has_kind XtTable) ads) ++
        payload_parts reg e [] (filter (fun a => negb (has_kind XtTable a)) ads) ++ refused (ins = 0) :: column_parts e cs
    | YExt k c args xcs =>
        refused (ads = []) :: argument_parts e args ++ map (xcolumn_part e) xcs ++
        [refused (inputs_of k ins); relation_part reg e c args xcs]
    | _ => payload_parts reg e [] ads ++ line_parts e y ins same
    end.
  Fixpoint tree_crashes (reg : registry) (e : exts) (t : rnode rline acst) : string -> Prop :=
    match t with
    | RNode y _ ads cs =>
        first_of (map (fun c => (exists r n, tree_means reg e c r n, tree_crashes reg e c)) cs ++
          node_parts reg e y ads (length cs) (exists n, Forall (fun c => exists r, tree_means reg e c r n) cs))
    end.
  Definition plan_tree_crashes (reg : registry) (e : exts) (t : rnode rline acst) : string -> Prop :=
    match t with
    | RNode (YRoot _) _ ads cs =>
        first_of (refused (ads = []) :: refused (length cs = 1) :: map (fun c => (exists r n, tree_means reg e c r n, tree_crashes reg e c)) cs)
    | _ => tree_crashes reg e t
    end.

  (** ** Texts *)

  (** A declaration with other text after it, or with an anchor that is none. *)
  Definition declaration_crashes (rule : string) (numbers : tree -> list N -> Prop) (l : list N) (m : string) : Prop :=
    exists t tr rest, at_level 1 l t /\ matches the_grammar rule t tr rest
      /\ (rest <> [] /\ m = "assertion failed: pairs.as_str() == s"
          \/ rest = [] /\ (exists a, numbers tr a /\ ~ exists n, natural a n) /\ m = "anchor is not a u32").
  Definition urn_crashes : list N -> string -> Prop :=
    declaration_crashes "extension_urn_declaration" (fun tr a => exists u, urn_declaration_pairs tr (a, u)).
  Definition function_crashes : list N -> string -> Prop :=
    declaration_crashes "simple_extension" (fun tr a => exists x n, simple_extension_pairs tr (a, x, n) \/ simple_extension_pairs tr (x, a, n)).
  (** The subsection that is open after the lines of a section. *)
  Definition open_at (els : list (list N)) (h : list N) : Prop :=
    exists before after, els = before ++ h :: after /\ Forall (fun l => white l \/ exists t, at_level 1 l t) after.
  Definition declaration_line_crashes (els : list (list N)) (l : list N) (m : string) : Prop :=
    exists h, open_at els h /\
      (at_level 0 h (L "URNs:") /\ urn_crashes l m
       \/ (at_level 0 h (L "Functions:") \/ at_level 0 h (L "Types:") \/ at_level 0 h (L "Type Variations:")) /\ function_crashes l m).

  Definition text_crashes (reg : registry) (s : list N) (m : string) : Prop :=
    (exists blanks vls els l rest v es e,
      text_lines s = blanks ++ vls ++ els ++ l :: rest /\ Forall white blanks /\ version_section vls v
      /\ extension_section els es /\ coherent es /\ table_of es e /\ declaration_line_crashes els l m)
    \/ (exists blanks vls els pls v es trees e,
      text_lines s = blanks ++ vls ++ els ++ pls /\ Forall white blanks /\ version_section vls v
      /\ extension_section els es /\ coherent es /\ table_of es e /\ plan_section pls trees
      /\ first_of (map (fun t => (exists p, plan_tree_means reg e t p, plan_tree_crashes reg e t)) trees) m).
End Values.
