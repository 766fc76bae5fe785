(** The table of simple extensions (src/extensions/simple.rs). *)
From Coq Require Import String List NArith ZArith Bool.
From Verif Require Import Base OMap.
Import ListNotations.

(** [ExtensionKind], l.15-21, in [Ord] order. *)
Inductive kind := KFunction | KType | KTypeVariation.
Definition kind_rank (k : kind) : N :=
  match k with KFunction => 0 | KType => 1 | KTypeVariation => 2 end.
Definition kind_eqb (a b : kind) : bool := (kind_rank a =? kind_rank b)%N.
Definition cmp_kind (a b : kind) : comparison := N.compare (kind_rank a) (kind_rank b).

(** [InsertError], l.46-85. *)
Inductive insert_error :=
| MissingMappingType
| DuplicateUrnAnchor (anchor : N) (prev name : list N)
| DuplicateAnchor (k : kind) (anchor : N) (prev name : list N)
| InsMissingUrn (k : kind) (anchor : N) (name : list N) (urn : N)
| DuplicateAndMissingUrn (k : kind) (anchor : N) (prev name : list N) (urn : N)
| InvalidName (k : kind) (name : list N).

(** [MissingReference], l.384-397. *)
Inductive missing_ref :=
| MissingUrn (anchor : N)
| MissingAnchor (k : kind) (anchor : N)
| MissingName (k : kind) (name : list N)
| Mismatched (k : kind) (name : list N) (anchor : N)
| DuplicateName (k : kind) (name : list N).

Definition c_colon : N := 58%N.

(** [CompoundName] (l.87-136) is its text; [base] is the part before the first
    colon (the [index] field caches its position). *)
Definition cn_base (n : list N) : list N :=
  match split_at_char c_colon n with
  | Some (b, _) => b
  | None => n
  end.
Definition cn_has_signature (n : list N) : bool := contains_char c_colon n.
(** [CompoundName::matches], l.128-134. *)
Definition cn_matches (n pattern : list N) : bool :=
  if contains_char c_colon pattern then streqb n pattern else streqb (cn_base n) pattern.

(** [SimpleExtensions], l.145-151. *)
Record exts := mk_exts {
  e_urns : list (N * list N);
  e_decls : list ((N * kind) * (N * list N))
}.
Definition cmp_key : N * kind -> N * kind -> comparison := cmp_pair N.compare cmp_kind.
Definition exts_empty : exts := mk_exts [] [].
Definition urn_get (e : exts) (a : N) : option (list N) := oget N.compare a (e_urns e).
Definition decl_get (e : exts) (k : kind) (a : N) : option (N * list N) :=
  oget cmp_key (a, k) (e_decls e).

(** [add_extension_urn], l.216-230.  The table after the call is returned with
    the error, if any. *)
Definition add_extension_urn (e : exts) (urn : list N) (anchor : N) : exts * option insert_error :=
  match urn_get e anchor with
  | Some prev => (e, Some (DuplicateUrnAnchor anchor prev urn))
  | None => (mk_exts (oput N.compare anchor urn (e_urns e)) (e_decls e), None)
  end.

(** [add_extension], l.232-281. *)
Definition norm_name (k : kind) (name : list N) : option (list N) :=
  match k with
  | KType => Some (match strip_prefix (L "u!") name with Some r => r | None => name end)
  | _ => if starts_with (L "u!") name then None else Some name
  end.

Definition add_extension (e : exts) (k : kind) (urn anchor : N) (name0 : list N)
  : exts * option insert_error :=
  match norm_name k name0 with
  | None => (e, Some (InvalidName k name0))
  | Some name =>
      let missing := match urn_get e urn with Some _ => false | None => true end in
      match decl_get e k anchor with
      | Some (_, prev) =>
          (e, Some (if missing then DuplicateAndMissingUrn k anchor prev name urn
                    else DuplicateAnchor k anchor prev name))
      | None =>
          (mk_exts (e_urns e) (oput cmp_key (anchor, k) (urn, name) (e_decls e)),
           if missing then Some (InsMissingUrn k anchor name urn) else None)
      end
  end.

(** [pext::SimpleExtensionUrn] and [pext::SimpleExtensionDeclaration] (the
    declaration's [mapping_type] is the option). *)
Record urn_decl := mk_urn { u_anchor : N; u_urn : list N }.
Record ext_decl := mk_decl { d_kind : kind; d_urn : N; d_anchor : N; d_name : list N }.

Definition opt_list {A} (o : option A) : list A := match o with Some a => [a] | None => [] end.

(** [from_extensions], l.158-214. *)
Fixpoint from_urns (e : exts) (l : list urn_decl) : exts * list insert_error :=
  match l with
  | [] => (e, [])
  | u :: r =>
      let (e1, er) := add_extension_urn e (u_urn u) (u_anchor u) in
      let (e2, ers) := from_urns e1 r in
      (e2, opt_list er ++ ers)
  end.
Fixpoint from_decls (e : exts) (l : list (option ext_decl)) : exts * list insert_error :=
  match l with
  | [] => (e, [])
  | None :: r => let (e2, ers) := from_decls e r in (e2, MissingMappingType :: ers)
  | Some d :: r =>
      let (e1, er) := add_extension e (d_kind d) (d_urn d) (d_anchor d) (d_name d) in
      let (e2, ers) := from_decls e1 r in
      (e2, opt_list er ++ ers)
  end.
Definition from_extensions (us : list urn_decl) (ds : list (option ext_decl))
  : exts * list insert_error :=
  let (e1, er1) := from_urns exts_empty us in
  let (e2, er2) := from_decls e1 ds in
  (e2, er1 ++ er2).

(** [is_empty], l.283-285. *)
Definition exts_is_empty (e : exts) : bool :=
  match e_urns e, e_decls e with [], [] => true | _, _ => false end.

(** [to_extension_urns], l.288-296. *)
Definition to_extension_urns (e : exts) : list urn_decl :=
  map (fun x => mk_urn (fst x) (snd x)) (e_urns e).

(** [to_extension_declarations], l.299-331. *)
Definition to_extension_declarations (e : exts) : list (option ext_decl) :=
  map (fun x : (N * kind) * (N * list N) =>
         let '((a, k), (u, n)) := x in Some (mk_decl k u a n)) (e_decls e).

(** Section headers, l.9-13. *)
Definition hdr_extensions : list N := L "=== Extensions".
Definition hdr_urns : list N := L "URNs:".
Definition hdr_kind (k : kind) : list N :=
  match k with
  | KFunction => L "Functions:"
  | KType => L "Types:"
  | KTypeVariation => L "Type Variations:"
  end.

(** The lines of [write], l.336-374, without their newlines. *)
Definition urn_line (indent : list N) (x : N * list N) : list N :=
  indent ++ L "@" ++ pad3 (show_N (fst x)) ++ L ": " ++ snd x.
Definition decl_line (indent : list N) (x : (N * kind) * (N * list N)) : list N :=
  let '((a, _), (u, n)) := x in
  indent ++ L "#" ++ pad3 (show_N a) ++ L " @" ++ pad3 (show_N u) ++ L ": " ++ n.
Definition kind_lines (indent : list N) (e : exts) (k : kind) : list (list N) :=
  match filter (fun x : (N * kind) * (N * list N) => kind_eqb (snd (fst x)) k) (e_decls e) with
  | [] => []
  | l => hdr_kind k :: map (decl_line indent) l
  end.
Definition exts_lines (indent : list N) (e : exts) : list (list N) :=
  if exts_is_empty e then []
  else hdr_extensions
       :: (match e_urns e with [] => [] | l => hdr_urns :: map (urn_line indent) l end)
       ++ kind_lines indent e KFunction
       ++ kind_lines indent e KType
       ++ kind_lines indent e KTypeVariation.

(** ** Lookups *)

(** [find_urn], l.421-426. *)
Definition find_urn (e : exts) (a : N) : res missing_ref (list N) :=
  match urn_get e a with Some u => Ok u | None => Err (MissingUrn a) end.

(** [find_by_anchor], l.428-439. *)
Definition find_by_anchor (e : exts) (k : kind) (a : N) : res missing_ref (N * list N) :=
  match decl_get e k a with Some x => Ok x | None => Err (MissingAnchor k a) end.

(** The anchors of the declarations satisfying a predicate, in map order. *)
Definition anchors_where (e : exts) (k : kind) (f : list N -> bool) : list N :=
  map (fun x : (N * kind) * (N * list N) => fst (fst x))
      (filter (fun x : (N * kind) * (N * list N) =>
                 kind_eqb (snd (fst x)) k && f (snd (snd x))) (e_decls e)).

(** [find_by_name], l.441-456. *)
Definition find_by_name (e : exts) (k : kind) (name : list N) : res missing_ref N :=
  match anchors_where e k (fun n => streqb n name) with
  | [] => Err (MissingName k name)
  | [a] => Ok a
  | _ => Err (DuplicateName k name)
  end.

(** [is_name_unique], l.462-503: the loop, with its early exits. *)
Fixpoint name_unique_loop (k : kind) (anchor : N) (name : list N) (found other : bool)
  (l : list ((N * kind) * (N * list N))) : res missing_ref (bool * bool) :=
  match l with
  | [] => Ok (found, other)
  | ((a, k'), (_, n)) :: r =>
      if negb (kind_eqb k' k) then name_unique_loop k anchor name found other r
      else if (a =? anchor)%N then
        if streqb n name then name_unique_loop k anchor name true other r
        else Err (Mismatched k name anchor)
      else if negb (streqb n name) then name_unique_loop k anchor name found other r
      else if found then Ok (found, true)
      else name_unique_loop k anchor name found true r
  end.
Definition is_name_unique (e : exts) (k : kind) (anchor : N) (name : list N) : res missing_ref bool :=
  let? fo := name_unique_loop k anchor name false false (e_decls e) in
  match fo with
  | (true, o) => Ok (negb o)
  | (false, _) => Err (MissingAnchor k anchor)
  end.

(** [is_base_name_unique], l.558-572. *)
Definition is_base_name_unique (e : exts) (k : kind) (anchor : N) : res missing_ref bool :=
  let? un := find_by_anchor e k anchor in
  Ok (negb (existsb (fun x : (N * kind) * (N * list N) =>
                       kind_eqb (snd (fst x)) k && negb (fst (fst x) =? anchor)%N
                       && streqb (cn_base (snd (snd x))) (cn_base (snd un))) (e_decls e))).

(** [find_by_base_name], l.574-589. *)
Definition find_by_base_name (e : exts) (k : kind) (base : list N) : res missing_ref N :=
  match anchors_where e k (fun n => cn_matches n base) with
  | [] => Err (MissingName k base)
  | [a] => Ok a
  | _ => Err (DuplicateName k base)
  end.

(** [ResolvedFunction], l.408-418. *)
Record resolved := mk_resolved {
  rf_anchor : N; rf_urn : N; rf_name : list N; rf_base_unique : bool; rf_unique : bool }.

(** [lookup_function], l.508-519. *)
Definition lookup_function (e : exts) (anchor : N) : res missing_ref resolved :=
  let? un := find_by_anchor e KFunction anchor in
  let? u := is_name_unique e KFunction anchor (snd un) in
  let? b := is_base_name_unique e KFunction anchor in
  Ok (mk_resolved anchor (fst un) (snd un) b u).

(** [resolve_function], l.529-556. *)
Definition resolve_function (e : exts) (name : list N) (anchor : option N) : res missing_ref resolved :=
  let? a :=
    match anchor with
    | Some a =>
        let? un := find_by_anchor e KFunction a in
        if cn_matches (snd un) name then Ok a else Err (Mismatched KFunction name a)
    | None =>
        if contains_char c_colon name then find_by_name e KFunction name
        else find_by_base_name e KFunction name
    end in
  lookup_function e a.
