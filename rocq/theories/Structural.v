(** The line-level parser (src/parser/structural.rs l.891-1236).  What a plan
    line may be ([parse_root], [parse_node]) and how trees become relations
    ([build]) are parameters here; Plan.v instantiates them with the grammar of
    relation lines. *)
From Coq Require Import String List NArith ZArith Bool.
From Verif Require Import Base SimpleExt Out ExtLines Lines Tree.
Import ListNotations.

(** [State], l.168-193. *)
Inductive pstate := SInitial | SVersion | SExtensions | SPlan.
Definition section_rank (s : pstate) : nat :=
  match s with SInitial => 0 | SVersion => 1 | SExtensions => 2 | SPlan => 3 end.

(** [proto::Version]. *)
Record version := mk_version {
  v_major : N; v_minor : N; v_patch : N; v_producer : list N; v_git : list N }.

Definition hdr_plan : list N := L "=== Plan".
Definition hdr_version : list N := L "=== Version".

(** [ParseError], src/parser/errors.rs l.32-64.  The context's [line_no] is kept;
    its text is not modelled. *)
Inductive perror :=
| EInitial (line_no : N)
| EValidation (line_no : N) (message : string)
| EExtension (line_no : N) (e : ext_error)
| EPlan (line_no : N) (e : perr)
| EDetail (line_no : N) (what : string)
| EUnregistered (line_no : N) (name : list N).
Definition error_line (e : perror) : N :=
  match e with
  | EInitial n | EValidation n _ | EExtension n _ | EPlan n _ | EDetail n _ | EUnregistered n _ => n
  end.

(** [str::split('.')]. *)
Fixpoint split_dots (s : list N) : list (list N) :=
  match s with
  | [] => [[]]
  | c :: r =>
      if (c =? 46)%N then [] :: split_dots r
      else match split_dots r with
           | p :: ps => (c :: p) :: ps
           | [] => [[c]]
           end
  end.

(** [next_number] in [parse_version_header], src/parser/structural.rs l.1124-1139. *)
Definition next_number (line_no : N) (parts : list (list N)) : res perror (N * list (list N)) :=
  match parts with
  | [] | [] :: _ => Err (EValidation line_no "version header is missing a number")
  | p :: r =>
      match parse_u32 p with
      | Some n => Ok (n, r)
      | None => Err (EValidation line_no "invalid version number")
      end
  end.

(** [parse_version_header], l.1116-1157. *)
Definition parse_version_header (line_no : N) (rest : list N) : res perror version :=
  let? x := next_number line_no (split_dots (trim rest)) in
  let? y := next_number line_no (snd x) in
  let? z := next_number line_no (snd y) in
  match snd z with
  | [] => Ok (mk_version (fst x) (fst y) (fst z) [] [])
  | _ => Err (EValidation line_no "version has too many components")
  end.

(** [parse_version_detail], l.1178-1202. *)
Definition parse_version_detail (line_no : N) (v : option version) (s : list N) : res perror version :=
  match split_at_char c_colon s with
  | None => Err (EValidation line_no "expected producer or git_hash")
  | Some (key, value) =>
      match v with
      | None => Panic "version is set on entry to the version section"
      | Some v =>
          let key := trim key in
          let value := trim value in
          if streqb key (L "producer")
          then Ok (mk_version (v_major v) (v_minor v) (v_patch v) value (v_git v))
          else if streqb key (L "git_hash")
          then Ok (mk_version (v_major v) (v_minor v) (v_patch v) (v_producer v) value)
          else Err (EValidation line_no "unknown version field")
      end
  end.

Section Parser.
  Variables R A Q : Type.
  (** A line of the plan section at indent 0, and deeper. *)
  Variable parse_root : list N -> pres (R + A).
  Variable parse_node : list N -> pres (R + A).
  (** [RelationParser::build] for one tree. *)
  Variable build : exts -> rnode R A -> res perror Q.

  (** [Parser], l.891-903, without the cursor. *)
  Record parser := mk_parser {
    ps_state : pstate;
    ps_version : option version;
    ps_ext : ext_parser;
    ps_tree : builder R A
  }.
  Definition ps_new : parser := mk_parser SInitial None xp_default builder_empty.

  (** [parse_section_header], l.1090-1112. *)
  Definition parse_section_header (p : parser) (line_no : N) (s : list N)
    : res perror (pstate * option version) :=
    if streqb s hdr_extensions then Ok (SExtensions, ps_version p)
    else if streqb s hdr_plan then Ok (SPlan, ps_version p)
    else match strip_prefix hdr_version s with
         | Some rest =>
             if match rest with [] => true | c :: _ => (c =? c_sp)%N end
             then rmap (fun v => (SVersion, Some v)) (parse_version_header line_no rest)
             else Err (EInitial line_no)
         | None => Err (EInitial line_no)
         end.

  Definition tree_message (e : tree_error) : string :=
    match e with
    | TNoParent => "no parent found"
    | TAddendumTopLevel => "addenda cannot appear at the top level"
    | TAddendumNoParent => "no parent found for addendum"
    | TAddendumAfterChild => "addenda must appear before child relations"
    end.
  Definition lift_tree {X} (line_no : N) (x : res tree_error X) : res perror X :=
    match x with
    | Ok a => Ok a
    | Err TNoParent => Err (EPlan line_no (PInvalid (tree_message TNoParent)))
    | Err e => Err (EValidation line_no (tree_message e))
    | Panic p => Panic p
    end.
  Definition lift_plan {X} (line_no : N) (x : pres X) : res perror X :=
    match x with
    | Ok a => Ok a
    | Err e => Err (EPlan line_no e)
    | Panic p => Panic p
    end.
  Definition lift_ext {X} (line_no : N) (x : res ext_error X) : res perror X :=
    match x with
    | Ok a => Ok a
    | Err e => Err (EExtension line_no e)
    | Panic p => Panic p
    end.

  Definition to_lnode (line_no : N) (x : R + A) : lnode R A :=
    match x with inl r => LRel r line_no | inr a => LAdd a line_no end.

  (** [parse_line], l.1024-1084.  In the initial state the error's line number
      is the indentation of the line. *)
  Definition parse_line (p : parser) (line_no : N) (text : list N) : res perror parser :=
    let (indent, s) := indented text in
    if match indent with O => starts_with (L "===") s | _ => false end then
      let? nv := parse_section_header p line_no s in
      if (section_rank (fst nv) <=? section_rank (ps_state p))%nat
      then Err (EValidation line_no "section is out of order")
      else Ok (mk_parser (fst nv) (snd nv) (ps_ext p) (ps_tree p))
    else
      match ps_state p with
      | SInitial =>
          match indent, trim s with
          | O, [] => Ok p
          | _, _ => Err (EInitial (N.of_nat indent))
          end
      | SVersion =>
          match indent, trim s with
          | O, [] => Ok p
          | 1, _ =>
              let? v := parse_version_detail line_no (ps_version p) s in
              Ok (mk_parser SVersion (Some v) (ps_ext p) (ps_tree p))
          | _, _ => Err (EValidation line_no "unexpected line in version section")
          end
      | SExtensions =>
          let? x := lift_ext line_no (ext_parse_line (ps_ext p) (indent, s)) in
          Ok (mk_parser SExtensions (ps_version p) x (ps_tree p))
      | SPlan =>
          let? n := lift_plan line_no (match indent with O => parse_root s | _ => parse_node s end) in
          let? t := lift_tree line_no (add_line (ps_tree p) indent (to_lnode line_no n)) in
          Ok (mk_parser SPlan (ps_version p) (ps_ext p) t)
      end.

  Definition in_plan (p : parser) : bool := match ps_state p with SPlan => true | _ => false end.

  (** The loop of [parse_plan], l.963-984; every iteration consumes a
      character, so the length of the input bounds it. *)
  Fixpoint parse_chunks (fuel : nat) (p : parser) (c : option cursor) : res perror parser :=
    match c, fuel with
    | None, _ => Ok p
    | Some _, O => Panic "out of fuel"
    | Some c, S f =>
        let? k := next_chunk (in_plan p) c in
        match trim (ck_text k) with
        | [] => parse_chunks f p (ck_rest k)
        | _ =>
            let? p' := parse_line p (ck_line_no k) (ck_text k) in
            parse_chunks f p' (ck_rest k)
        end
    end.

  (** [proto::Plan]. *)
  Record plan := mk_plan {
    pl_version : option version;
    pl_urns : list urn_decl;
    pl_decls : list (option ext_decl);
    pl_rels : list Q
  }.

  (** [build_plan], l.1212-1235. *)
  Definition build_plan (p : parser) : res perror plan :=
    let e := xp_exts (ps_ext p) in
    let? rels := rlist (build e) (finish (ps_tree p)) in
    Ok (mk_plan (ps_version p) (to_extension_urns e) (to_extension_declarations e) rels).

  (** [parse_plan], l.963-986. *)
  Definition parse_text (p : parser) (s : list N) : res perror parser :=
    parse_chunks (length s) p (cu_new s 1).
  Definition parse_plan (s : list N) : res perror plan :=
    let? p := parse_text ps_new s in build_plan p.
End Parser.
