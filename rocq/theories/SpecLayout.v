(** How relations and whole plans are written: for every plan the text that shows it, as
    relations, without the functions that write it.  This continues SpecNotation.v. *)
From Coq Require Import String List NArith ZArith Bool Sorted.
From Verif Require Import Base Names SimpleExt Out Types Literals Exprs ExtArgs Registry SpecRegistry Rels Structural Plan
  SpecAggregate SpecMeaning SpecText SpecNotation.
Import ListNotations.
Local Open Scope string_scope.
Local Open Scope list_scope.
Local Open Scope nat_scope.

(** Anything that can be written is given by the texts that show it. *)
Definition shows : Type := list N -> Prop.
Definition nothing : shows := fun _ => False.
Definition each (cs : list shows) (ss : list (list N)) : Prop := Forall2 (fun (c : shows) s => c s) cs ss.
Definition tuple_text (cs : list shows) : shows := fun s => exists ss, each cs ss /\ s = L "(" ++ listed ss ++ L ")".
(** An argument with or without a name. *)
Definition argument : Type := option (list N) * shows.
Definition argument_text (a : argument) (s : list N) : Prop :=
  match fst a with
  | None => snd a s
  | Some n => exists x, snd a x /\ s = n ++ L "=" ++ x
  end.
Definition arguments_text (l : list argument) (s : list N) : Prop :=
  exists ss, Forall2 argument_text l ss /\ s = if ss then L "_" else listed ss.
Definition bare_arguments (l : list shows) : list argument := map (fun c => (None, c)) l.

(** ** Columns *)

(** A mapping selects columns; if mappings are to be shown, all columns are written. *)
Inductive columns_text (op : options) (cols : list shows) : option emit_kind -> list N -> Prop :=
| co_mapped m ss : op_show_emit op = false ->
    Forall2 (fun i s => (0 <= i)%Z /\ exists c, nth_error cols (Z.to_nat i) = Some c /\ c s) m ss ->
    columns_text op cols (Some (EmEmit m)) (listed ss)
| co_all k ss : op_show_emit op = true \/ (forall m, k <> Some (EmEmit m)) -> each cols ss -> columns_text op cols k (listed ss).
(** How many columns there are after the mapping. *)
Definition emitted_width (cols : list shows) (k : option emit_kind) : nat :=
  match k with Some (EmEmit m) => length m | _ => length cols end.
Definition reference (z : Z) : shows := fun s => exists x, numeral z x /\ s = L "$" ++ x.
(** The columns of the inputs, by number. *)
Definition references (n : nat) : list shows := map (fun i s => exists z, position i z /\ reference z s) (seq 0 n).
Definition emit_of (c : option rel_common) : option emit_kind := match c with Some k => rc_emit k | None => None end.

(** ** Lines *)

Fixpoint indentation (op : options) (d : nat) : list N := match d with O => [] | S k => op_indent op ++ indentation op k end.
Definition plain_output (op : options) (cols : list shows) (k : option emit_kind) : shows :=
  fun s => exists x, columns_text op cols k x /\ s = L "=> " ++ x.
Definition mapped_output (cols : list shows) (m : list Z) : shows :=
  fun s => exists ss ms, each cols ss /\ Forall2 reference m ms /\ s = L "+> " ++ listed ss ++ L " |> " ++ listed ms.
(** A word with columns; with arguments and columns; or with the arguments and the
    columns on lines of their own. *)
Definition bare_line (op : options) (d : nat) (word : list N) (cols : list shows) (k : option emit_kind) (ls : list (list N)) : Prop :=
  exists s, columns_text op cols k s /\ ls = [indentation op d ++ word ++ L "[" ++ s ++ L "]"].
Definition full_line (op : options) (d : nat) (word : list N) (args : list argument) (out : shows) (ls : list (list N)) : Prop :=
  exists a o, arguments_text args a /\ out o /\ ls = [indentation op d ++ word ++ L "[" ++ a ++ L " " ++ o ++ L "]"].
Fixpoint commas (l : list (list N)) : list (list N) :=
  match l with [] => [] | [x] => [x] | x :: r => (x ++ L ",") :: commas r end.
Definition long_line (op : options) (d : nat) (word : list N) (args : list argument) (out : shows) (ls : list (list N)) : Prop :=
  exists ss o, Forall2 argument_text args ss /\ out o /\
    ls = (indentation op d ++ word ++ L "[") :: map (fun x => indentation op (S d) ++ L "- " ++ x) (commas ss ++ [o ++ L "]"]).

Section Layout.
  Context `{U : Unicode} `{F : Floats}.
  Context (reg : registry) (op : options) (e : exts).

  Definition expression (x : pexpr) : shows := expr_text op e x.
  Definition optional (x : option pexpr) : shows := match x with Some x => expression x | None => nothing end.
  Definition named (n : string) (x : option pexpr) : list argument :=
    match x with Some x => [(Some (L n), expression x)] | None => [] end.
  Definition table_text (names : list (list N)) : shows := fun s => exists ns, Forall2 name_text names ns /\ s = join (L ".") ns.
  (** A value of an enumeration. *)
  Definition enum_text (values : list (string * Z)) (z : Z) : shows := fun s => exists n, In (n, z) values /\ s = L "&" ++ camel n.

  (** ** Extensions *)

  Inductive xvalue_text : xvalue -> list N -> Prop :=
  | xv_string x s : quoted 39 x s -> xvalue_text (XString x) s
  | xv_integer z s : numeral z s -> xvalue_text (XInteger z) s
  | xv_float f : xvalue_text (XFloat f) (show64 f)
  | xv_true : xvalue_text (XBoolean true) (L "true")
  | xv_false : xvalue_text (XBoolean false) (L "false")
  | xv_null : xvalue_text XNull (L "null")
  | xv_expr x s : expr_text op e x s -> xvalue_text (XExpr x) s
  | xv_enum s : xvalue_text (XEnum s) (L "&" ++ s)
  | xv_one v s : xvalue_text v s -> xvalue_text (XTuple [v]) (L "(" ++ s ++ L ",)")
  | xv_tuple vs ss : length vs <> 1 -> Forall2 xvalue_text vs ss -> xvalue_text (XTuple vs) (L "(" ++ listed ss ++ L ")").
  Definition xcolumn_text (c : xcolumn) : shows :=
    match c with
    | XNamed n t => fun s => exists x y, name_text n x /\ type_text op e t y /\ s = x ++ L ":" ++ y
    | XColExpr x => expression x
    end.
  Definition xarguments (a : xargs) : list argument :=
    bare_arguments (map xvalue_text (xa_positional a)) ++ map (fun p => (Some (fst p), xvalue_text (snd p))) (xa_named a).
  (** What the handler registered for the kind and type URL of a payload makes of it. *)
  Definition decoded (k : xtype) (d : any) (widths : list nat) (name : list N) (a : xargs) : Prop :=
    hget (k, any_url d) (rg_urls reg) = Some name /\
    exists h, hget (k, name) (rg_handlers reg) = Some h /\ arguments_of h d widths = Ok a.
  (** Addenda have no columns. *)
  Definition addendum_text (a : string * xtype * any) (s : list N) : Prop :=
    let '(prefix, k, d) := a in
    exists name args x, decoded k d [] name args /\ xa_columns args = [] /\ arguments_text (xarguments args) x
      /\ s = L "+ " ++ L prefix ++ L ":" ++ name ++ L "[" ++ x ++ L "]".
  Definition addenda (a : option advext) : list (string * xtype * any) :=
    match a with
    | None => []
    | Some a => map (fun d => ("Enh", XtEnhancement, d)) (opt_list (ae_enhancement a))
                ++ map (fun d => ("Opt", XtOptimization, d)) (ae_optimizations a)
    end.
  Definition addenda_lines (d : nat) (l : list (string * xtype * any)) (ls : list (list N)) : Prop :=
    exists ss, Forall2 addendum_text l ss /\ ls = map (fun s => indentation op (S d) ++ s) ss.

  (** ** Reads *)

  (** A field has a name and a type; if one of them is missing, no text shows it. *)
  Definition fields (names : list (list N)) (types : list ptype) : list shows :=
    map (fun i s => exists n t x y, nth_error names i = Some n /\ nth_error types i = Some t
                      /\ name_text n x /\ type_text op e t y /\ s = x ++ L ":" ++ y)
      (seq 0 (Nat.max (length names) (length types))).
  Definition read_fields (r : read_rel) : list shows :=
    match rd_schema r with
    | Some s => fields (ns_names s) (match ns_struct s with Some (t, _, _) => t | None => [] end)
    | None => [nothing]
    end.
  (** The rows of a virtual table; if there are none but a filter, a mark for them. *)
  Definition row_arguments (r : read_rel) (rows : list (list pexpr)) : list argument :=
    match rows, rd_filter r with
    | [], Some _ => [(None, eq (L "_"))]
    | _, _ => bare_arguments (map (fun row => tuple_text (map expression row)) rows)
    end ++ named "filter" (rd_filter r).
  Definition table_addendum (r : read_rel) : list (string * xtype * any) :=
    match rd_type r with ReadExtension (Some d) => [("Ext", XtTable, d)] | _ => [] end.
  Inductive read_line (d : nat) (r : read_rel) : list (list N) -> Prop :=
  | rl_mapped names m ls : rd_type r = ReadNamed names -> emit_of (rd_common r) = Some (EmEmit m) ->
      full_line op d (L "Read") [(None, table_text names)] (mapped_output (read_fields r) m) ls -> read_line d r ls
  | rl_named names ls : rd_type r = ReadNamed names -> (forall m, emit_of (rd_common r) <> Some (EmEmit m)) ->
      full_line op d (L "Read") [(None, table_text names)] (plain_output op (read_fields r) (emit_of (rd_common r))) ls -> read_line d r ls
  | rl_short rows ls : rd_type r = ReadVirtual rows -> rows = [] \/ (N.of_nat (length rows) < op_vt_threshold op)%N ->
      full_line op d (L "Read:Virtual") (row_arguments r rows) (plain_output op (read_fields r) (emit_of (rd_common r))) ls -> read_line d r ls
  | rl_long rows ls : rd_type r = ReadVirtual rows -> rows <> [] -> (op_vt_threshold op <= N.of_nat (length rows))%N ->
      long_line op d (L "Read:Virtual") (row_arguments r rows) (plain_output op (read_fields r) (emit_of (rd_common r))) ls -> read_line d r ls
  | rl_extension x ls : rd_type r = ReadExtension (Some x) ->
      bare_line op d (L "Read:Extension") (read_fields r) (emit_of (rd_common r)) ls -> read_line d r ls.

  (** ** Groupings *)

  (** The distinct members of a list in the order in which they first occur. *)
  Inductive occurring {A} : list A -> list A -> Prop :=
  | oc_nil : occurring [] []
  | oc_new l m x : occurring l m -> ~ In x m -> occurring (l ++ [x]) (m ++ [x])
  | oc_again l m x : occurring l m -> In x m -> occurring (l ++ [x]) m.
  (** The expressions of an aggregation and its grouping sets, given by the groupings
      themselves or by positions; without groupings there is one empty set. *)
  Inductive grouping_sets : list pexpr -> list grouping -> list pexpr -> list (list shows) -> Prop :=
  | gs_given g groups xs : gr_exprs g <> [] -> occurring (concat (map gr_exprs (g :: groups))) xs ->
      grouping_sets [] (g :: groups) xs (map (fun g => map expression (gr_exprs g)) (g :: groups))
  | gs_none gexprs : grouping_sets gexprs [] gexprs [[]]
  | gs_positions gexprs g groups : gexprs <> [] \/ gr_exprs g = [] ->
      grouping_sets gexprs (g :: groups) gexprs
        (map (fun g => map (fun i s => exists x, nth_error gexprs (N.to_nat i) = Some x /\ expr_text op e x s) (gr_refs g)) (g :: groups)).
  Definition set_text (g : list shows) : shows := match g with [] => eq (L "_") | _ => tuple_text g end.
  (** A single set is written as arguments. *)
  Definition set_arguments (sets : list (list shows)) : list argument :=
    bare_arguments (match sets with [c :: g] => c :: g | _ => map set_text sets end).
  (** Measures without a function are not written. *)
  Definition measures (l : list measure) : list shows :=
    concat (map (fun m => map (measure_text op e) (opt_list (ms_fn m))) l).

  (** ** Relations *)

  Definition direction (k : option sort_kind) : shows :=
    match k with Some (SkDirection z) => enum_text proto_sort_directions z | _ => nothing end.
  Definition bound (n : string) (m : option fetch_mode) : list argument :=
    match m with
    | Some (FmExpr x) => [(Some (L n), expression x)]
    | Some (FmInt z) => [(Some (L n), numeral z)]
    | None => []
    end.
  (** Semi, anti and single joins have the columns of one side, mark joins one more, other
      joins those of both sides. *)
  Definition left_joins : list Z := [5; 6; 7]%Z.
  Definition right_joins : list Z := [8; 9; 10]%Z.
  Inductive joined_width (t : Z) (l r : nat) : nat -> Prop :=
  | jw_left : In t left_joins -> joined_width t l r l
  | jw_right : In t right_joins -> joined_width t l r r
  | jw_left_mark : t = 11%Z -> joined_width t l r (S l)
  | jw_right_mark : t = 12%Z -> joined_width t l r (S r)
  | jw_both : ~ In t (left_joins ++ right_joins ++ [11; 12]%Z) -> joined_width t l r (l + r).
  (** The columns of a set operation are those of its inputs, on average. *)
  Definition average (ws : list nat) : nat := list_sum ws / length ws.
  Definition inputs (r : prel) : list (option prel) :=
    match r with
    | RRead _ => []
    | RFilter _ i _ _ | RProject _ i _ _ | RAggregate _ i _ _ _ _ | RSort _ i _ _ | RFetch _ i _ _ _ => [i]
    | RJoin _ l r _ _ _ _ | RCross _ l r _ => [l; r]
    | RSet _ l _ _ | RExtMulti _ _ l => map Some l
    | RExtSingle _ _ i => map Some (opt_list i)
    | RExtLeaf _ _ | ROther _ | RNone => []
    end.
  (** [head_shown d r ws w ls]: over inputs with [ws] columns, relation [r] has [w]
      columns, and [ls] are its line at level [d] and its addenda. *)
  Inductive head_shown (d : nat) : prel -> list nat -> nat -> list (list N) -> Prop :=
  | hs_read r h a : read_line d r h -> addenda_lines d (table_addendum r ++ addenda (rd_adv r)) a ->
      head_shown d (RRead r) [] (emitted_width (read_fields r) (emit_of (rd_common r))) (h ++ a)
  | hs_filter c i x adv n h a :
      full_line op d (L "Filter") [(None, optional x)] (plain_output op (references n) (emit_of c)) h ->
      addenda_lines d (addenda adv) a ->
      head_shown d (RFilter c i x adv) [n] (emitted_width (references n) (emit_of c)) (h ++ a)
  | hs_project c i xs adv n h a :
      bare_line op d (L "Project") (references n ++ map expression xs) (emit_of c) h -> addenda_lines d (addenda adv) a ->
      head_shown d (RProject c i xs adv) [n] (emitted_width (references n ++ map expression xs) (emit_of c)) (h ++ a)
  | hs_aggregate c i gexprs groups ms adv n xs sets h a : grouping_sets gexprs groups xs sets ->
      full_line op d (L "Aggregate") (set_arguments sets) (plain_output op (map expression xs ++ measures ms) (emit_of c)) h ->
      addenda_lines d (addenda adv) a ->
      head_shown d (RAggregate c i gexprs groups ms adv) [n] (emitted_width (map expression xs ++ measures ms) (emit_of c)) (h ++ a)
  | hs_sort c i sorts adv n h a :
      full_line op d (L "Sort") (bare_arguments (map (fun f => tuple_text [optional (sf_expr f); direction (sf_kind f)]) sorts))
        (plain_output op (references n) (emit_of c)) h ->
      addenda_lines d (addenda adv) a ->
      head_shown d (RSort c i sorts adv) [n] (emitted_width (references n) (emit_of c)) (h ++ a)
  | hs_fetch c i limit offset adv n h a :
      full_line op d (L "Fetch") (bound "limit" limit ++ bound "offset" offset) (plain_output op (references n) (emit_of c)) h ->
      addenda_lines d (addenda adv) a ->
      head_shown d (RFetch c i limit offset adv) [n] (emitted_width (references n) (emit_of c)) (h ++ a)
  | hs_join c l r x post t adv m n w h a : joined_width t m n w ->
      full_line op d (L "Join") (bare_arguments [enum_text proto_join_types t; optional x] ++ named "post_filter" post)
        (plain_output op (references w) (emit_of c)) h ->
      addenda_lines d (addenda adv) a ->
      head_shown d (RJoin c l r x post t adv) [m; n] (emitted_width (references w) (emit_of c)) (h ++ a)
  | hs_set c l o adv ws h a :
      full_line op d (L "Set") [(None, enum_text proto_set_ops o)] (plain_output op (references (average ws)) (emit_of c)) h ->
      addenda_lines d (addenda adv) a ->
      head_shown d (RSet c l o adv) ws (emitted_width (references (average ws)) (emit_of c)) (h ++ a)
  | hs_cross c l r adv m n h a :
      bare_line op d (L "Cross") (references (m + n)) (emit_of c) h -> addenda_lines d (addenda adv) a ->
      head_shown d (RCross c l r adv) [m; n] (emitted_width (references (m + n)) (emit_of c)) (h ++ a)
  | hs_leaf c x name args h : extension_line d "ExtensionLeaf" x [] name args h ->
      head_shown d (RExtLeaf c (Some x)) [] (length (xa_columns args)) h
  | hs_single c x i ws name args h : extension_line d "ExtensionSingle" x ws name args h ->
      head_shown d (RExtSingle c (Some x) i) ws (length (xa_columns args)) h
  | hs_multi c x l ws name args h : extension_line d "ExtensionMulti" x ws name args h ->
      head_shown d (RExtMulti c (Some x) l) ws (length (xa_columns args)) h
  with extension_line (d : nat) : string -> any -> list nat -> list N -> xargs -> list (list N) -> Prop :=
  | xl kind x ws name args h : decoded XtRelation x ws name args ->
      full_line op d (L kind ++ L ":" ++ name) (xarguments args) (plain_output op (map xcolumn_text (xa_columns args)) None) h ->
      extension_line d kind x ws name args h.
  (** A relation and, one level deeper, its inputs; an input that is missing has no
      columns and is not written. *)
  Inductive rel_shown : nat -> prel -> nat -> list (list N) -> Prop :=
  | rs_rel d r ws w h ls : inputs_shown (S d) (inputs r) ws ls -> head_shown d r ws w h -> rel_shown d r w (h ++ ls)
  with inputs_shown : nat -> list (option prel) -> list nat -> list (list N) -> Prop :=
  | in_nil d : inputs_shown d [] [] []
  | in_none d l ws ls : inputs_shown d l ws ls -> inputs_shown d (None :: l) (0 :: ws) ls
  | in_some d r w h l ws ls : rel_shown d r w h -> inputs_shown d l ws ls -> inputs_shown d (Some r :: l) (w :: ws) (h ++ ls).
  Inductive plan_rel_shown : plan_rel -> list (list N) -> Prop :=
  | ps_rel r w ls : rel_shown 0 r w ls -> plan_rel_shown (PRel r) ls
  | ps_root names i ns ws ls : Forall2 name_text names ns -> inputs_shown 1 [i] ws ls ->
      plan_rel_shown (PRoot names i) ((L "Root[" ++ listed ns ++ L "]") :: ls).
End Layout.

(** ** Plans *)

(** The part of a text between white space. *)
Definition core (s t : list N) : Prop :=
  exists w w', s = w ++ t ++ w' /\ white w /\ white w' /\
    (forall c r, t = c :: r -> ~ In c white_space) /\ (forall r c, t = r ++ [c] -> ~ In c white_space).
Inductive detail_lines (op : options) (key : string) : list N -> list (list N) -> Prop :=
| dl_none : detail_lines op key [] []
| dl_some v t : v <> [] -> core v t -> detail_lines op key v [op_indent op ++ L key ++ L ": " ++ t].
(** No version, or one without any content, is not written. *)
Inductive version_lines (op : options) : option version -> list (list N) -> Prop :=
| vl_none : version_lines op None []
| vl_empty : version_lines op (Some (mk_version 0 0 0 [] [])) []
| vl_some a b c p g x y z ps gs : mk_version a b c p g <> mk_version 0 0 0 [] [] ->
    numeral (Z.of_N a) x -> numeral (Z.of_N b) y -> numeral (Z.of_N c) z ->
    detail_lines op "producer" p ps -> detail_lines op "git_hash" g gs ->
    version_lines op (Some (mk_version a b c p g)) ((L "=== Version " ++ x ++ L "." ++ y ++ L "." ++ z) :: ps ++ gs).

(** Types may be declared with a mark, which is dropped; other names with that mark
    cannot be declared. *)
Inductive stored_name : kind -> list N -> list N -> Prop :=
| sn_marked n : stored_name KType (L "u!" ++ n) n
| sn_plain k n : (forall r, n <> L "u!" ++ r) -> stored_name k n n.
Definition stored (o : option ext_decl) (d : ext_decl) : Prop :=
  exists n, o = Some (mk_decl (d_kind d) (d_urn d) (d_anchor d) n) /\ stored_name (d_kind d) n (d_name d).
Definition declarations (us : list urn_decl) (ds : list (option ext_decl)) (es : list entry) : Prop :=
  exists l, Forall2 stored ds l /\ es = map inl us ++ map inr l.
(** Anchors are aligned to the right in three places. *)
Definition aligned (a : N) (s : list N) : Prop := exists x, numeral (Z.of_N a) x /\ s = repeat 32%N (3 - length x) ++ x.
Definition urn_shown (op : options) (u : N * list N) (s : list N) : Prop :=
  exists x, aligned (fst u) x /\ s = op_indent op ++ L "@" ++ x ++ L ": " ++ snd u.
Definition declaration_shown (op : options) (d : (N * kind) * (N * list N)) (s : list N) : Prop :=
  exists x y, aligned (fst (fst d)) x /\ aligned (fst (snd d)) y
    /\ s = op_indent op ++ L "#" ++ x ++ L " @" ++ y ++ L ": " ++ snd (snd d).
Definition section (h : string) (ls : list (list N)) : list (list N) := if ls then [] else L h :: ls.
Definition extension_lines (op : options) (e : exts) (ls : list (list N)) : Prop :=
  exists us fs ts vs, Forall2 (urn_shown op) (e_urns e) us
    /\ (exists l, only (fun d => snd (fst d) = KFunction) (e_decls e) l /\ Forall2 (declaration_shown op) l fs)
    /\ (exists l, only (fun d => snd (fst d) = KType) (e_decls e) l /\ Forall2 (declaration_shown op) l ts)
    /\ (exists l, only (fun d => snd (fst d) = KTypeVariation) (e_decls e) l /\ Forall2 (declaration_shown op) l vs)
    /\ ls = section "=== Extensions" (section "URNs:" us ++ section "Functions:" fs ++ section "Types:" ts ++ section "Type Variations:" vs).

Section Plans.
  Context `{U : Unicode} `{F : Floats}.
  Definition unlines (ls : list (list N)) : list N := concat (map (fun l => l ++ [10%N]) ls).
  Definition plan_text (reg : registry) (op : options) (p : pplan) (s : list N) : Prop :=
    exists es e vls els blocks,
      declarations (pl_urns _ p) (pl_decls _ p) es /\ coherent es /\ table_of es e
      /\ version_lines op (pl_version _ p) vls /\ extension_lines op e els
      /\ Forall2 (plan_rel_shown reg op e) (pl_rels _ p) blocks
      /\ s = unlines (vls ++ els ++ (if els then [] else [[]]) ++ [L "=== Plan"])
             ++ join [10; 10]%N (map (join [10%N]) blocks) ++ [10%N].
End Plans.
