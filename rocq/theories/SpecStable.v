(** When a parsed plan can be written: what parsing alone does not ensure. *)
From Coq Require Import String List NArith ZArith Bool.
From Verif Require Import Base Names SpecNames SimpleExt Out Types SpecTypes Literals SpecLiterals Exprs SpecExprs ExprEq
  ExtArgs Registry Rels SpecRels Structural Version SpecPlan SpecLits.
Import ListNotations.
Local Open Scope list_scope.
Local Open Scope nat_scope.

(** ** Literals *)

(** Strings without characters that are escaped in a way the reader does not know,
    floating point numbers that are written with a point and read back, and times
    of day and instants that are not in a leap second beyond the last one. *)
Definition literal_kept `{Unicode} `{Floats} (l : literal) : Prop :=
  match l_type l with
  | Some (LString s) => str_ok s = true
  | Some (LFp32 f) => is_float_text (show32 f) = true /\ to32 (read64 (show32 f)) = f
  | Some (LFp64 f) => is_float_text (show64 f) = true /\ read64 (show64 f) = f
  | Some (LTime v) => (v < 86400 * 10 ^ 6)%Z
  | Some (LPrecisionTime p v) => (v < 86400 * 10 ^ p)%Z
  | Some (LTimestamp v) => (v < (last_day + 1) * 86400 * 10 ^ 6)%Z
  | Some (LPrecisionTimestamp p v) | Some (LPrecisionTimestampTz p v) => (v < (last_day + 1) * 86400 * 10 ^ p)%Z
  | _ => True
  end.

(** ** Columns *)

Section Width.
  Context {F : Floats}.
  Variable reg : registry.

  (** What a message of an extension relation shows as its columns. *)
  Definition detail_width (d : option any) (widths : list nat) : nat :=
    match d with
    | Some d => match decode_with_type reg XtRelation d widths with Ok (_, a) => length (xa_columns a) | _ => 0 end
    | None => 0
    end.

  (** The number of columns a relation puts out; a join is taken to have all the
      columns of both inputs. *)
  Fixpoint width (r : prel) : nat :=
    let one (i : option prel) := match i with Some i => width i | None => 0 end in
    match rel_emit r with
    | Some (EmEmit m) => length m
    | _ =>
        match r with
        | RRead r => match rd_schema r with Some s => length (ns_names s) | None => 0 end
        | RFilter _ i _ _ | RSort _ i _ _ | RFetch _ i _ _ _ => one i
        | RProject _ i xs _ => one i + length xs
        | RAggregate _ _ xs _ ms _ => length xs + length ms
        | RJoin _ l r _ _ _ _ | RCross _ l r _ => one l + one r
        | RSet _ (i :: _) _ _ => width i
        | RExtLeaf _ d => detail_width d []
        | RExtSingle _ d i => detail_width d [one i]
        | RExtMulti _ d l => detail_width d (map width l)
        | RSet _ [] _ _ | ROther _ | RNone => 0
        end
    end.

  (** The number of columns a relation can put out, before any choice among them. *)
  Definition available (r : prel) : nat :=
    match r with
    | RProject _ i xs _ => list_sum (map width (inputs r)) + length xs
    | RAggregate _ _ xs _ ms _ => length xs + length ms
    | RSet _ l _ _ => hd 0 (map width l)
    | _ => list_sum (map width (inputs r))
    end.
End Width.

(** ** Relations *)

Section Kept.
  Context `{U : Unicode} `{F : Floats}.
  Variables (reg : registry) (op : options) (e : exts).

  (** Every column put out by number is one of the first [n]. *)
  Definition refers_within (r : prel) (n : nat) : Prop :=
    match rel_emit r with
    | Some (EmEmit m) => Forall (fun i => (0 <= i < Z.of_nat n)%Z) m
    | _ => True
    end.
  Definition detail_kept (t : xtype) (d : any) (widths : list nat) : Prop :=
    exists columns, detail_writable reg e (fun x => expr_ok e x = true) (fun t => type_ok e t = true) t d widths columns /\
      (t = XtRelation \/ columns = []).
  Definition addenda_kept (a : option advext) : Prop :=
    match a with
    | Some a =>
        (forall d, ae_enhancement a = Some d -> detail_kept XtEnhancement d []) /\
        (forall d, In d (ae_optimizations a) -> detail_kept XtOptimization d [])
    | None => True
    end.
  (** A number as limit or offset is only understood without its type. *)
  Definition bound_kept (m : option fetch_mode) : Prop :=
    match m with
    | Some (FmExpr (ELit l)) => is_number l = true -> op_literal_types op = VRequired
    | _ => True
    end.

  (** What a single relation must satisfy. *)
  Definition rel_kept (r : prel) : Prop :=
    (Z.of_nat (available reg r) <= column_limit)%Z /\ ~ narrow_join r /\
    match r with
    | RRead r =>
        (forall n, rd_type r = ReadNamed n -> Forall name_ok n) /\
        (forall s, rd_schema r = Some s -> Forall name_ok (ns_names s)) /\
        (forall d, rd_type r = ReadExtension (Some d) -> detail_kept XtTable d []) /\
        addenda_kept (rd_adv r)
    | RFilter _ _ _ a | RCross _ _ _ a | RSet _ _ _ a =>
        addenda_kept a /\ refers_within r (available reg r)
    | RProject _ i xs a =>
        addenda_kept a /\ refers_within r (available reg r) /\
        (forall m, rel_emit r = Some (EmEmit m) -> in_order (list_sum (map (width reg) (inputs r))) (length xs) m)
    | RAggregate _ _ xs gs _ a =>
        addenda_kept a /\
        (forall g i rest, gs = [g] -> gr_refs g = i :: rest -> is_cast (nth (N.to_nat i) xs ENone) = false)
    | RSort _ _ ss a =>
        addenda_kept a /\ refers_within r (available reg r) /\ ss <> []
    | RFetch _ _ count offset a =>
        addenda_kept a /\ refers_within r (available reg r) /\ bound_kept count /\ bound_kept offset
    | RJoin _ (Some l) (Some r') _ _ t a =>
        addenda_kept a /\
        (forall name shown, enum_name join_types t = Some name -> join_output name (width reg l) (width reg r') shown ->
           refers_within r shown /\ (Z.of_nat shown <= column_limit)%Z)
    | RExtLeaf _ (Some d) => detail_kept XtRelation d []
    | RExtSingle _ (Some d) (Some i) => detail_kept XtRelation d [width reg i]
    | RExtMulti _ (Some d) l => detail_kept XtRelation d (map (width reg) l)
    | _ => True
    end.
End Kept.

(** ** Plans *)

Definition root_names (p : plan_rel) : list (list N) := match p with PRoot names _ => names | _ => [] end.

Section Plans.
  Context `{U : Unicode} `{F : Floats}.

  (** The version is not the one that is never written, the names of declared types
      are not taken for built-in ones, the names of columns can be written, and so
      can every literal and every relation. *)
  Definition plan_kept (reg : registry) (op : options) (p : plan plan_rel) : Prop :=
    pl_version _ p <> Some (mk_version 0 0 0 [] []) /\
    (forall l, SpecLits.in_plan l p -> literal_kept l) /\
    Forall (fun q => Forall name_ok (root_names q)) (pl_rels _ p) /\
    forall e, declares e (pl_urns _ p) (pl_decls _ p) ->
      types_usable e /\ forall r, in_plan_rels r (pl_rels _ p) -> rel_kept reg op e r.
End Plans.
