(** Which line a rejected text is rejected for, and why: parts are read in the order of
    SpecCrashes.v, and the first that has no meaning is blamed.  As there this is said
    with the meanings of SpecMeaning.v and SpecText.v, without the readers. *)
From Coq Require Import String List NArith ZArith Bool.
From Verif Require Import Base Names SimpleExt Literals ExtArgs Registry Rels RelGrammar Tree SpecTree SpecLines Structural
  SpecRegistry SpecMeaning SpecText SpecCrashes.
Import ListNotations.
Local Open Scope string_scope.
Local Open Scope list_scope.
Local Open Scope nat_scope.

(** ** Complaints *)

Inductive complaint :=
| Misplaced                      (* something stands where it must not *)
| Unreadable                     (* a line of the plan has no meaning *)
| Unregistered (name : list N)   (* no extension of this name *)
| Unsuitable                     (* the arguments do not suit the extension *)
| Undeclared                     (* a line of the declarations has no meaning *)
| Sectionless.                   (* a line outside of all sections, or an unknown header *)
(** The complaint an error is. *)
Definition complaint_of (d : perror) : complaint :=
  match d with
  | EValidation _ _ => Misplaced
  | EPlan _ _ => Unreadable
  | EUnregistered _ name => Unregistered name
  | EDetail _ _ => Unsuitable
  | EExtension _ _ => Undeclared
  | EInitial _ => Sectionless
  end.

(** A part of what is read: whether it has a meaning, and the lines and complaints if not. *)
Definition claim : Type := Prop * (N -> complaint -> Prop).
Fixpoint blamed (ps : list claim) (n : N) (c : complaint) : Prop :=
  match ps with
  | [] => False
  | p :: r => snd p n c \/ fst p /\ blamed r n c
  end.
Definition unless (meaning : Prop) (n : N) (c : complaint) : claim := (meaning, fun n' c' => ~ meaning /\ n' = n /\ c' = c).

Section Values.
  Context `{F : Floats}.

  (** ** Addenda and trees *)

  (** What is said about the arguments given to an extension.  A handler may itself say
      that it does not know the extension. *)
  Definition handler_complains (reg : registry) (k : xtype) (name : list N) (a : xargs) (c : complaint) : Prop :=
    hget (k, name) (rg_handlers reg) = None /\ c = Unregistered name
    \/ exists h x, hget (k, name) (rg_handlers reg) = Some h /\ payload_of h a = Err x
        /\ c = match x with XNotFound _ => Unregistered name | _ => Unsuitable end.
  Definition addendum_claim (e : exts) (a : acst * N) : claim :=
    unless (match fst a with Acst _ _ args => exists xa, arguments_mean e args [] xa end) (snd a) Unreadable.
  Definition payload_claim (reg : registry) (e : exts) (a : acst * N) : claim :=
    (exists d, addendum_means reg e a d,
     fun n c => n = snd a /\ match fst a with
       | Acst k nm args => exists name xa, name_means nm name /\ arguments_mean e args [] xa /\ handler_complains reg k name xa c
       end).
  (** Enhancements, of which there may be one, and optimizations. *)
  Fixpoint payload_claims (reg : registry) (e : exts) (before : list (acst * N)) (ads : list (acst * N)) : list claim :=
    match ads with
    | [] => []
    | a :: r =>
        unless (has_kind XtOptimization a = true \/ has_kind XtEnhancement a = true /\ filter (has_kind XtEnhancement) before = [])
          (snd a) Misplaced ::
        payload_claim reg e a :: payload_claims reg e (before ++ [a]) r
    end.
  (** A table read from an extension has one addendum that says which: without it the
      relation is blamed, with more the second of them. *)
  Definition table_claims (reg : registry) (e : exts) (line : N) (ads : list (acst * N)) : list claim :=
    match filter (has_kind XtTable) ads with
    | [] => [unless False line Misplaced]
    | [a] => payload_claim reg e a :: payload_claims reg e [] (filter (fun a => negb (has_kind XtTable a)) ads)
    | _ :: a :: _ => [unless False (snd a) Misplaced]
    end.
  Definition relation_claim (reg : registry) (e : exts) (line : N) (nm : nm) (args : xargsc) (xcs : list xcolc) : claim :=
    (exists cols a d, Forall2 (xcolumn_means e) xcs cols /\ arguments_mean e args cols a /\ handled reg XtRelation (raw nm) a d,
     fun n c => n = line /\ exists cols a, Forall2 (xcolumn_means e) xcs cols /\ arguments_mean e args cols a
                 /\ handler_complains reg XtRelation (raw nm) a c).
  (** [whole]: the relation has a meaning. *)
  Definition node_claims (reg : registry) (e : exts) (y : rline) (line : N) (ads : list (acst * N)) (ins : nat) (whole : Prop) : list claim :=
    map (addendum_claim e) ads ++
    match y with
    | YExtRead _ => table_claims reg e line ads ++ [unless whole line Unreadable]
    | YExt k nm args xcs =>
        match ads with
        | a :: _ => [unless False (snd a) Misplaced]
        | [] => [unless ((exists cols a, Forall2 (xcolumn_means e) xcs cols /\ arguments_mean e args cols a) /\ inputs_of k ins) line Unreadable;
                 relation_claim reg e line nm args xcs]
        end
    | _ => payload_claims reg e [] ads ++ [unless whole line Unreadable]
    end.
  Fixpoint tree_blames (reg : registry) (e : exts) (t : rnode rline acst) (n : N) (c : complaint) : Prop :=
    match t with
    | RNode y line ads cs =>
        blamed (map (fun t' => (exists r k, tree_means reg e t' r k, tree_blames reg e t')) cs ++
          node_claims reg e y line ads (length cs) (exists r k, tree_means reg e t r k)) n c
    end.
  Definition plan_tree_blames (reg : registry) (e : exts) (t : rnode rline acst) (n : N) (c : complaint) : Prop :=
    match t with
    | RNode (YRoot _) line ads cs =>
        blamed (match ads with a :: _ => [unless False (snd a) Misplaced] | [] => [] end ++
          unless (length cs = 1) line Unreadable :: map (fun t' => (exists r k, tree_means reg e t' r k, tree_blames reg e t')) cs) n c
    | _ => tree_blames reg e t n c
    end.

  (** ** Texts *)

  (** What may stand in front of the plan. *)
  Definition opening (ls : list (list N)) (v : option version) (e : exts) : Prop :=
    exists blanks vls els es, ls = blanks ++ vls ++ els /\ Forall white blanks /\ version_section vls v
      /\ extension_section els es /\ coherent es /\ table_of es e.
  (** In front of all sections lines are not counted: the level of the line is reported. *)
  Definition counted (before : list (list N)) (l : list N) (n : N) : Prop :=
    let sectionless := Forall white before /\ ~ exists r, at_level 0 l (L "===" ++ r) in
    sectionless /\ (exists d t, at_level d l t /\ n = N.of_nat d) \/ ~ sectionless /\ n = (1 + N.of_nat (length before))%N.
  (** What is said about a header: it is misplaced, or no header at all. *)
  Definition header_line (l : list N) : Prop := exists r, at_level 0 l (L "===" ++ r).
  Definition known_header (l : list N) : Prop :=
    at_level 0 l (L "=== Extensions") \/ at_level 0 l (L "=== Plan") \/ at_level 0 l (L "=== Version")
    \/ exists r, at_level 0 l (L "=== Version " ++ r).
  Definition header_complaint (l : list N) (c : complaint) : Prop :=
    known_header l /\ c = Misplaced \/ ~ known_header l /\ c = Sectionless.
  (** What is said about a line: that depends on its section. *)
  Definition opening_complaint (before : list (list N)) (l : list N) (c : complaint) : Prop :=
    let declaring := Exists (fun h => at_level 0 h (L "=== Extensions")) before in
    header_line l /\ header_complaint l c
    \/ ~ header_line l /\ Forall white before /\ c = Sectionless
    \/ ~ header_line l /\ ~ Forall white before /\ declaring /\ c = Undeclared
    \/ ~ header_line l /\ ~ Forall white before /\ ~ declaring /\ c = Misplaced.
  (** In the plan: an addendum without a place, or a group without a meaning or a relation
      without a place. *)
  Definition plan_complaint (k : list (list N)) (c : complaint) : Prop :=
    let addendum := exists d a n, group_means k (d, LAdd a n) in
    header_line (group_text k) /\ header_complaint (group_text k) c
    \/ ~ header_line (group_text k) /\ addendum /\ c = Misplaced
    \/ ~ header_line (group_text k) /\ ~ addendum /\ c = Unreadable.
  (** The trees of a plan whose first line has the number [n], and the lines that their
      relations and addenda begin at. *)
  Definition number_of (x : lnode rline acst) : N := match x with LRel _ n | LAdd _ n => n end.
  Inductive numbered_plan (n : N) : list (list N) -> list (rnode rline acst) -> Prop :=
  | np_none : numbered_plan n [] []
  | np_some h ls ks gs trees : at_level 0 h (L "=== Plan") -> grouped ls ks ->
      only (fun k => written_group (snd k)) (number_groups (n + 1) ks) gs ->
      Forall2 (fun k x => group_means (snd k) x /\ number_of (snd x) = fst k) gs (flatten_all trees) -> numbered_plan n (h :: ls) trees.

  (** A line in front of the plan that is not part of its section. *)
  Definition opening_blamed (s : list N) (n : N) (c : complaint) : Prop :=
    exists before l rest v e, text_lines s = before ++ l :: rest /\ opening before v e
      /\ ~ at_level 0 l (L "=== Plan") /\ (forall v' e', ~ opening (before ++ [l]) v' e')
      /\ counted before l n /\ opening_complaint before l c.
  (** A group of lines of the plan that does not continue it. *)
  Definition plan_blamed (s : list N) (n : N) (c : complaint) : Prop :=
    exists before h ks k ks' v e trees, text_lines s = before ++ h :: concat ks ++ k ++ concat ks' /\ opening before v e
      /\ at_level 0 h (L "=== Plan") /\ grouped (concat ks ++ k ++ concat ks') (ks ++ k :: ks')
      /\ plan_section (h :: concat ks) trees /\ (forall trees', ~ plan_section (h :: concat ks ++ k) trees')
      /\ n = (2 + N.of_nat (length before + length (concat ks)))%N /\ plan_complaint k c.
  (** A relation or addendum: all lines have been read by then. *)
  Definition relation_blamed (reg : registry) (s : list N) (n : N) (c : complaint) : Prop :=
    exists before pls v e trees, text_lines s = before ++ pls /\ opening before v e
      /\ numbered_plan (1 + N.of_nat (length before)) pls trees
      /\ blamed (map (fun t => (exists p, plan_tree_means reg e t p, plan_tree_blames reg e t)) trees) n c.
End Values.
