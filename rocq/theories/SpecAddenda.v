(** What the addenda below a relation line mean. *)
From Coq Require Import String List NArith ZArith Bool.
From Verif Require Import Base Names SimpleExt Out Anchors Types Literals Exprs ExtArgs Registry Rels RelGrammar Tree SpecRels.
Import ListNotations.

Definition rel_adv (r : prel) : option advext :=
  match r with
  | RRead r => rd_adv r
  | RFilter _ _ _ a | RProject _ _ _ a | RAggregate _ _ _ _ _ a | RSort _ _ _ a | RFetch _ _ _ _ a
  | RJoin _ _ _ _ _ _ a | RSet _ _ _ a | RCross _ _ _ a => a
  | RExtLeaf _ _ | RExtSingle _ _ _ | RExtMulti _ _ _ | ROther _ | RNone => None
  end.
Definition rel_enhancement (r : prel) : list any :=
  match rel_adv r with Some a => opt_list (ae_enhancement a) | None => [] end.
Definition rel_optimizations (r : prel) : list any :=
  match rel_adv r with Some a => ae_optimizations a | None => [] end.
(** The detail of the table an extension read reads. *)
Definition rel_table (r : prel) : list any :=
  match r with
  | RRead r => match rd_type r with ReadExtension d => opt_list d | _ => [] end
  | _ => []
  end.

(** [addendum_detail reg e k a d]: addendum line [a] stands for detail [d], which
    the handler registered for its kind and name makes of its arguments. *)
Definition addendum_detail `{Floats} (reg : registry) (e : exts) (a : acst * N) (d : any) : Prop :=
  match fst a with
  | Acst k n args =>
      exists name xa, @lower_name perr n = Ok name /\ lower_xargs e args = Ok xa /\ parse_with_type reg k name xa = Ok d
  end.
Definition addendum_kind (k : xtype) (a : acst * N) : bool :=
  match fst a with Acst k' _ _ => xtype_eqb k' k end.

(** The addenda of one relation are its enhancement, its optimizations and the
    table it reads, in order and nothing else. *)
Definition own_addenda `{Floats} (reg : registry) (e : exts) (ads : list (acst * N)) (r : prel) : Prop :=
  Forall2 (addendum_detail reg e) (filter (addendum_kind XtEnhancement) ads) (rel_enhancement r) /\
  Forall2 (addendum_detail reg e) (filter (addendum_kind XtOptimization) ads) (rel_optimizations r) /\
  Forall2 (addendum_detail reg e) (filter (addendum_kind XtTable) ads) (rel_table r) /\
  filter (addendum_kind XtRelation) ads = [].

(** The same for a relation and all relations below it. *)
Inductive addenda_kept `{Floats} (reg : registry) (e : exts) : rnode rline acst -> prel -> Prop :=
| kept y line ads cs r : own_addenda reg e ads r -> Forall2 (addenda_kept reg e) cs (inputs r) ->
    addenda_kept reg e (RNode y line ads cs) r.
Definition plan_addenda_kept `{Floats} (reg : registry) (e : exts) (n : rnode rline acst) (p : plan_rel) : Prop :=
  match n with
  | RNode (YRoot _) _ ads cs => ads = [] /\ Forall2 (addenda_kept reg e) cs (plan_inputs p)
  | _ => Forall2 (addenda_kept reg e) [n] (plan_inputs p)
  end.
