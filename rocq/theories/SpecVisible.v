(** The part of a plan that its text shows or its errors mention.

    [visible_plan p] is [p] with every field that formatting passes over in silence
    set to a fixed value. *)
From Coq Require Import String List NArith ZArith Bool.
From Verif Require Import Base SimpleExt Types Literals Exprs Registry Rels Structural.
Import ListNotations.

Definition opt_map {A B} (f : A -> B) (o : option A) : option B :=
  match o with Some x => Some (f x) | None => None end.

(** Types: a user-defined type given by its anchor alone is shown as a required one
    without parameters; an interval without precision as one of precision 6; an
    enumeration parameter as a string. *)
Fixpoint visible_type (t : ptype) : ptype :=
  match t with
  | TIntervalDay p n v => TIntervalDay (Some (match p with Some p => p | None => 6%Z end)) n v
  | TStruct ts n v => TStruct (map visible_type ts) n v
  | TList t n v => TList (opt_map visible_type t) n v
  | TMap a b n v => TMap (opt_map visible_type a) (opt_map visible_type b) n v
  | TUser r ps n v => TUser r (map visible_param ps) n v
  | TUserRef r => TUser r [] NRequired 0
  | _ => t
  end
with visible_param (p : pparam) : pparam :=
  match p with
  | PType t => PType (visible_type t)
  | PEnum s => PStr s
  | _ => p
  end.

(** Literals: the type variation, and whether a null is nullable. *)
Definition visible_literal (l : literal) : literal :=
  match l_type l with
  | Some (LNull t) => mk_lit (Some (LNull (visible_type t))) false 0
  | v => mk_lit v (l_nullable l) 0
  end.

(** References: what is selected inside the column. *)
Definition visible_reference (f : field_ref) : field_ref :=
  match fr_ref f with
  | RefDirect (SegField i _) => mk_fieldref (RefDirect (SegField i None)) (fr_root f)
  | _ => f
  end.

Fixpoint visible_expr (x : pexpr) : pexpr :=
  match x with
  | ELit l => ELit (visible_literal l)
  | ESel f => ESel (visible_reference f)
  | EFunc r args opts t => EFunc r (map visible_arg args) opts (opt_map visible_type t)
  | EIf ifs els =>
      EIf (map (fun c => (opt_map visible_expr (fst c), opt_map visible_expr (snd c))) ifs) (opt_map visible_expr els)
  | ECast b i t => ECast b (opt_map visible_expr i) (opt_map visible_type t)
  | _ => x
  end
with visible_arg (a : parg) : parg :=
  match a with
  | AType t => AType (visible_type t)
  | AValue x => AValue (visible_expr x)
  | _ => a
  end.

(** Aggregate functions: invocation and phase. *)
Definition visible_aggfn (a : aggfn) : aggfn :=
  mk_aggfn (af_ref a) (map visible_arg (af_args a)) (af_opts a) (opt_map visible_type (af_out a)) 0 0.

(** What is common to all relations: hints and extensions, and whether the direct
    output is stated. *)
Definition visible_common (c : option rel_common) : option rel_common :=
  Some (mk_common (Some (match c with
                         | Some (mk_common (Some (EmEmit m)) _) => EmEmit m
                         | _ => EmDirect
                         end)) false).
Definition no_common : option rel_common := Some (mk_common (Some EmDirect) false).

(** An extension that holds nothing. *)
Definition visible_adv (a : option advext) : option advext :=
  match a with
  | Some (mk_advext None []) => None
  | _ => a
  end.

(** Schemas: variation and nullability of the outer struct. *)
Definition visible_schema (s : named_struct) : named_struct :=
  mk_named_struct (ns_names s)
    (Some (map visible_type (match ns_struct s with Some (ts, _, _) => ts | None => [] end), 0%N, NRequired)).

(** Reads: the filter, except over a virtual table; the best-effort filter, the
    projection and the extension of the table. *)
Definition visible_read (r : read_rel) : read_rel :=
  mk_read (visible_common (rd_common r)) (opt_map visible_schema (rd_schema r))
    (match rd_type r with ReadVirtual _ => opt_map visible_expr (rd_filter r) | _ => None end)
    (match rd_type r with
     | ReadVirtual rows => ReadVirtual (map (map visible_expr) rows)
     | ReadOther | ReadNone => ReadOther
     | t => t
     end)
    (visible_adv (rd_adv r)) false.

(** Groupings: the references where expressions are given in the deprecated way, and
    the deprecated expressions elsewhere; that there is no grouping set at all. *)
Definition old_groups (gexprs : list pexpr) (groups : list grouping) : bool :=
  match gexprs, groups with
  | [], mk_grouping _ (_ :: _) :: _ => true
  | _, _ => false
  end.
Definition visible_groups (gexprs : list pexpr) (groups : list grouping) : list grouping :=
  if old_groups gexprs groups then map (fun g => mk_grouping [] (gr_exprs g)) groups
  else match groups with
       | [] => [mk_grouping [] []]
       | _ => map (fun g => mk_grouping (gr_refs g) []) groups
       end.
(** Measures: the filter, and measures without a function. *)
Fixpoint visible_measures (l : list measure) : list measure :=
  match l with
  | [] => []
  | mk_measure (Some a) _ :: r => mk_measure (Some (visible_aggfn a)) None :: visible_measures r
  | mk_measure None _ :: r => visible_measures r
  end.

Definition visible_sort (s : sort_field) : sort_field :=
  mk_sort_field (opt_map visible_expr (sf_expr s)) (sf_kind s).
Definition visible_bound (m : fetch_mode) : fetch_mode :=
  match m with FmExpr x => FmExpr (visible_expr x) | FmInt z => FmInt z end.

(** Relations: of extension relations also all that is common. *)
Fixpoint visible_rel (r : prel) : prel :=
  match r with
  | RRead r => RRead (visible_read r)
  | RFilter c i x adv => RFilter (visible_common c) (opt_map visible_rel i) (opt_map visible_expr x) (visible_adv adv)
  | RProject c i xs adv =>
      RProject (visible_common c) (opt_map visible_rel i) (map visible_expr xs) (visible_adv adv)
  | RAggregate c i gexprs groups ms adv =>
      RAggregate (visible_common c) (opt_map visible_rel i) (map visible_expr gexprs)
        (visible_groups gexprs groups) (visible_measures ms) (visible_adv adv)
  | RSort c i ss adv => RSort (visible_common c) (opt_map visible_rel i) (map visible_sort ss) (visible_adv adv)
  | RFetch c i n o adv =>
      RFetch (visible_common c) (opt_map visible_rel i) (opt_map visible_bound n) (opt_map visible_bound o)
        (visible_adv adv)
  | RJoin c l r x p t adv =>
      RJoin (visible_common c) (opt_map visible_rel l) (opt_map visible_rel r) (opt_map visible_expr x)
        (opt_map visible_expr p) t (visible_adv adv)
  | RSet c l o adv => RSet (visible_common c) (map visible_rel l) o (visible_adv adv)
  | RCross c l r adv =>
      RCross (visible_common c) (opt_map visible_rel l) (opt_map visible_rel r) (visible_adv adv)
  | RExtLeaf _ d => RExtLeaf no_common d
  | RExtSingle _ d i => RExtSingle no_common d (opt_map visible_rel i)
  | RExtMulti _ d l => RExtMulti no_common d (map visible_rel l)
  | ROther _ | RNone => RNone
  end.

Definition visible_plan_rel (p : plan_rel) : plan_rel :=
  match p with
  | PRel r => PRel (visible_rel r)
  | PRoot names i => PRoot names (opt_map visible_rel i)
  | PRNone => PRNone
  end.
Definition visible_plan (p : plan plan_rel) : plan plan_rel :=
  mk_plan _ (pl_version _ p) (pl_urns _ p) (pl_decls _ p) (map visible_plan_rel (pl_rels _ p)).
