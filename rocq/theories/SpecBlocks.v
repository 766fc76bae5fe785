(** Blocks of a plan section: lines of which the first is not indented. *)
From Coq Require Import String List NArith.
From Verif Require Import Base Rels RelGrammar SpecRels Tree Structural Plan SpecMeaning SpecText.
Import ListNotations.
Local Open Scope string_scope.
Local Open Scope list_scope.

Definition plan_header (h : list N) : Prop := at_level 0 h (L "=== Plan").
Definition unindented (l : list N) : Prop := exists t, at_level 0 l t /\ t <> [].
Definition block (b : list (list N)) : Prop := exists l r, b = l :: r /\ unindented l.
(** Only the first line is not indented; lines with nothing but white space do not count. *)
Definition single_block (b : list (list N)) : Prop := exists l r, b = l :: r /\ unindented l /\ Forall (fun x => ~ unindented x) r.

(** Equal version and declarations. *)
Definition same_preamble (p q : pplan) : Prop :=
  pl_version _ p = pl_version _ q /\ pl_urns _ p = pl_urns _ q /\ pl_decls _ p = pl_decls _ q.

(** ** Trees and relations with a place for another *)

(** A relation with other inputs. *)
Definition with_inputs (r : prel) (l : list prel) : prel :=
  match r with
  | RFilter c _ x a => RFilter c (nth_error l 0) x a
  | RProject c _ xs a => RProject c (nth_error l 0) xs a
  | RAggregate c _ xs gs ms a => RAggregate c (nth_error l 0) xs gs ms a
  | RSort c _ ss a => RSort c (nth_error l 0) ss a
  | RFetch c _ n o a => RFetch c (nth_error l 0) n o a
  | RJoin c _ _ x p t a => RJoin c (nth_error l 0) (nth_error l 1) x p t a
  | RSet c _ o a => RSet c l o a
  | RCross c _ _ a => RCross c (nth_error l 0) (nth_error l 1) a
  | RExtSingle c d _ => RExtSingle c d (nth_error l 0)
  | RExtMulti c d _ => RExtMulti c d l
  | RRead _ | RExtLeaf _ _ | ROther _ | RNone => r
  end.

Inductive node_context : (rnode rline acst -> rnode rline acst) -> Prop :=
| nc_here : node_context (fun n => n)
| nc_in y l ads xs T ys : node_context T -> node_context (fun n => RNode y l ads (xs ++ T n :: ys)).
Inductive rel_context : (prel -> prel) -> Prop :=
| rc_here : rel_context (fun r => r)
| rc_in r xs C ys : length (inputs r) = length xs + S (length ys) -> rel_context C ->
    rel_context (fun x => with_inputs r (xs ++ C x :: ys)).
Inductive plan_rel_context : (prel -> plan_rel) -> Prop :=
| pc_rel C : rel_context C -> plan_rel_context (fun x => PRel (C x))
| pc_root names C : rel_context C -> plan_rel_context (fun x => PRoot names (Some (C x))).
