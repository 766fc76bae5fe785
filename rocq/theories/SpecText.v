(** What a whole text means: its lines, its sections, and the plan they stand for.  As
    in SpecMeaning.v these are relations, without the functions that read a text. *)
From Coq Require Import String List NArith ZArith Bool Sorted.
From Verif Require Import Base Literals Names SimpleExt Tree SpecTree SpecLines RelGrammar Registry Rels Structural Plan
  Pest SpecGrammar SpecMeaning.
Import ListNotations.
Local Open Scope string_scope.
Local Open Scope list_scope.
Local Open Scope nat_scope.

(** ** Lines *)

(** [at_level d l t]: the line [l] is [t] behind [d] times two spaces, but for white
    space at its end.  A white line has level 0 and no text. *)
Definition at_level (d : nat) (l t : list N) : Prop :=
  exists w, l = repeat 32%N (2 * d) ++ t ++ w /\ white w
    /\ (forall a c, t = a ++ [c] -> ~ In c white_space)
    /\ (forall r, t <> 32%N :: 32%N :: r)
    /\ (t = [] -> d = 0).

(** The members of a list that have a property, in order. *)
Inductive only {X} (P : X -> Prop) : list X -> list X -> Prop :=
| on_nil : only P [] []
| on_keep x l m : P x -> only P l m -> only P (x :: l) (x :: m)
| on_skip x l m : ~ P x -> only P l m -> only P (x :: l) m.
Definition written_line (l : list N) : Prop := ~ white l.

(** ** The version *)

Definition natural (s : list N) (n : N) : Prop := number s (Z.of_N n) /\ hd 0%N s <> 45%N /\ (Z.of_N n < 2 ^ 32)%Z.
Definition version_header (h : list N) (a b c : N) : Prop :=
  exists w w' sa sb sc, h = L "=== Version " ++ w ++ sa ++ L "." ++ sb ++ L "." ++ sc ++ w'
    /\ white w /\ white w' /\ natural sa a /\ natural sb b /\ natural sc c.
(** A line [key: value], one level below the header. *)
Definition detail (l : list N) (key : string) (value : list N) : Prop :=
  exists t w w' w'', at_level 1 l t /\ t = w ++ L key ++ w' ++ L ":" ++ w'' ++ value
    /\ white w /\ white w' /\ white w'' /\ (forall c r, value = c :: r -> ~ In c white_space).
(** Of several lines with the same key the last counts. *)
Inductive details : version -> list (list N) -> version -> Prop :=
| de_nil v : details v [] v
| de_producer a b c x y l value ls v : detail l "producer" value -> details (mk_version a b c value y) ls v ->
    details (mk_version a b c x y) (l :: ls) v
| de_git a b c x y l value ls v : detail l "git_hash" value -> details (mk_version a b c x value) ls v ->
    details (mk_version a b c x y) (l :: ls) v.
Inductive version_section : list (list N) -> option version -> Prop :=
| vs_none : version_section [] None
| vs_some h a b c ls ws v : version_header h a b c -> only written_line ls ws -> details (mk_version a b c [] []) ws v ->
    version_section (h :: ls) (Some v).

(** ** The declarations *)

Definition urn_line (l : list N) (u : urn_decl) : Prop :=
  exists t tr a, at_level 1 l t /\ matches the_grammar "extension_urn_declaration" t tr []
    /\ urn_declaration_pairs tr (a, u_urn u) /\ natural a (u_anchor u).
(** The name a declaration line gives, and the name declared: types may be marked by
    [u!], and only functions have signatures. *)
Inductive declared_name : kind -> list N -> list N -> Prop :=
| dn_function n : (forall r, n <> L "u!" ++ r) -> declared_name KFunction n n
| dn_marked n : ~ In 58%N n -> declared_name KType (L "u!" ++ n) n
| dn_type n : (forall r, n <> L "u!" ++ r) -> ~ In 58%N n -> declared_name KType n n
| dn_variation n : (forall r, n <> L "u!" ++ r) -> ~ In 58%N n -> declared_name KTypeVariation n n.
Definition declaration_line (k : kind) (l : list N) (d : ext_decl) : Prop :=
  exists t tr a u n, at_level 1 l t /\ matches the_grammar "simple_extension" t tr []
    /\ simple_extension_pairs tr (a, u, n) /\ natural a (d_anchor d) /\ natural u (d_urn d)
    /\ declared_name k n (d_name d) /\ d_kind d = k.
Definition entry : Type := urn_decl + ext_decl.
Inductive subsection : list (list N) -> list entry -> Prop :=
| su_urns h ls us : at_level 0 h (L "URNs:") -> Forall2 urn_line ls us -> subsection (h :: ls) (map inl us)
| su_functions h ls ds : at_level 0 h (L "Functions:") -> Forall2 (declaration_line KFunction) ls ds ->
    subsection (h :: ls) (map inr ds)
| su_types h ls ds : at_level 0 h (L "Types:") -> Forall2 (declaration_line KType) ls ds -> subsection (h :: ls) (map inr ds)
| su_variations h ls ds : at_level 0 h (L "Type Variations:") -> Forall2 (declaration_line KTypeVariation) ls ds ->
    subsection (h :: ls) (map inr ds).
Inductive extension_section : list (list N) -> list entry -> Prop :=
| es_none : extension_section [] []
| es_some h ls subs ess : at_level 0 h (L "=== Extensions") -> only written_line ls (concat subs) ->
    Forall2 subsection subs ess -> extension_section (h :: ls) (concat ess).

(** The entries of a text: no anchor is given twice to URNs, nor to declarations of one
    kind, and a declaration comes after the URN it names. *)
Definition coherent (es : list entry) : Prop :=
  (forall x y z u v, es = x ++ inl u :: y ++ inl v :: z -> u_anchor u <> u_anchor v)
  /\ (forall x y z d f, es = x ++ inr d :: y ++ inr f :: z -> d_kind d = d_kind f -> d_anchor d <> d_anchor f)
  /\ (forall x y d, es = x ++ inr d :: y -> exists u, In (inl u) x /\ u_anchor u = d_urn d).
(** The URNs in the order of their anchors; the declarations likewise, those with the
    same anchor in the order function, type, type variation. *)
Definition kind_number (k : kind) : N := match k with KFunction => 0 | KType => 1 | KTypeVariation => 2 end.
Definition urn_before (a b : N * list N) : Prop := (fst a < fst b)%N.
Definition declaration_before (a b : (N * kind) * (N * list N)) : Prop :=
  (fst (fst a) < fst (fst b))%N \/ fst (fst a) = fst (fst b) /\ (kind_number (snd (fst a)) < kind_number (snd (fst b)))%N.
Definition table_of (es : list entry) (e : exts) : Prop :=
  StronglySorted urn_before (e_urns e) /\ StronglySorted declaration_before (e_decls e)
  /\ (forall a n, In (a, n) (e_urns e) <-> In (inl (mk_urn a n)) es)
  /\ (forall a k u n, In ((a, k), (u, n)) (e_decls e) <-> In (inr (mk_decl k u a n)) es).

(** ** The plan *)

(** A line belongs to the line above it, and to those that already belong to it, if it
    is one level deeper and begins with a dash. *)
Definition continues (l c : list N) : Prop :=
  exists d t u, at_level d l t /\ at_level (S d) c (L "- " ++ u).
Inductive grouped : list (list N) -> list (list (list N)) -> Prop :=
| gr_nil : grouped [] []
| gr_group l cs rest ks : Forall (continues l) cs -> (forall c r, rest = c :: r -> ~ continues l c) -> grouped rest ks ->
    grouped (l :: cs ++ rest) ((l :: cs) :: ks).
Definition written_group (k : list (list N)) : Prop := ~ white (group_text k).
(** The line of a tree that a group stands for; what follows a match of the grammar is
    not looked at, and lines can have any numbers. *)
Definition group_means (k : list (list N)) (x : nat * lnode rline acst) : Prop :=
  exists t tr rest y, at_level (fst x) (group_text k) t
    /\ (fst x = 0 /\ matches the_grammar "top_level_relation" t tr rest /\ top_pairs tr y
        \/ fst x <> 0 /\ matches the_grammar "planNode" t tr rest /\ node_pairs tr y)
    /\ exists n, snd x = match y with inl r => LRel r n | inr a => LAdd a n end.
Inductive plan_section : list (list N) -> list (rnode rline acst) -> Prop :=
| pl_none : plan_section [] []
| pl_some h ls ks gs trees : at_level 0 h (L "=== Plan") -> grouped ls ks -> only written_group ks gs ->
    Forall2 group_means gs (flatten_all trees) -> plan_section (h :: ls) trees.

(** ** Texts *)

Section Texts.
  Context {F : Floats}.

  Definition text_means (reg : registry) (s : list N) (p : plan plan_rel) : Prop :=
    exists blanks vls els pls es trees e,
      text_lines s = blanks ++ vls ++ els ++ pls
      /\ Forall white blanks
      /\ version_section vls (pl_version _ p)
      /\ extension_section els es /\ coherent es /\ table_of es e
      /\ plan_section pls trees /\ Forall2 (plan_tree_means reg e) trees (pl_rels _ p)
      /\ pl_urns _ p = map (fun x => mk_urn (fst x) (snd x)) (e_urns e)
      /\ pl_decls _ p = map (fun x => Some (mk_decl (snd (fst x)) (fst (snd x)) (fst (fst x)) (snd (snd x)))) (e_decls e).
End Texts.
