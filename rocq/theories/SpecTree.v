(** The lines of a tree: one line per relation, followed by its addenda and then
    its children, each one level deeper. *)
From Coq Require Import List NArith.
From Verif Require Import Base Tree.
Import ListNotations.

Fixpoint flatten {R A} (depth : nat) (n : rnode R A) : list (nat * lnode R A) :=
  let '(RNode r l ads cs) := n in
  (depth, LRel r l)
  :: map (fun a => (S depth, LAdd (fst a) (snd a))) ads
  ++ concat (map (flatten (S depth)) cs).
Definition flatten_all {R A} (f : list (rnode R A)) : list (nat * lnode R A) :=
  concat (map (flatten 0) f).

(** Feeding lines to a builder. *)
Fixpoint add_lines {R A} (b : builder R A) (ls : list (nat * lnode R A)) : res tree_error (builder R A) :=
  match ls with
  | [] => Ok b
  | (d, n) :: r => match add_line b d n with
                   | Ok b' => add_lines b' r
                   | Err e => Err e
                   | Panic p => Panic p
                   end
  end.

(** A tree without its line numbers. *)
Fixpoint unnumber {R A} (n : rnode R A) : rnode R A :=
  let '(RNode r _ ads cs) := n in
  RNode r 0 (map (fun a => (fst a, 0%N)) ads) (map unnumber cs).

(** Which depths a sequence of lines may have: a relation is at most one level
    below the relation before it ([limit] is one more than that relation's
    depth); an addendum is exactly one level below the relation before it. *)
Fixpoint depths_ok {R A} (limit : nat) (ls : list (nat * lnode R A)) : Prop :=
  match ls with
  | [] => True
  | (d, LRel _ _) :: r => d <= limit /\ depths_ok (S d) r
  | (d, LAdd _ _) :: r => d = limit /\ 0 < d /\ depths_ok limit r
  end.

(** Nodes of a tree. *)
Inductive subnode {R A} (x : rnode R A) : rnode R A -> Prop :=
| subnode_self : subnode x x
| subnode_child r l ads cs c : In c cs -> subnode x c -> subnode x (RNode r l ads cs).

(** The addenda at the start of a sequence of lines. *)
Fixpoint leading_addenda {R A} (ls : list (nat * lnode R A)) : list (nat * (A * N)) :=
  match ls with
  | (d, LAdd a n) :: r => (d, (a, n)) :: leading_addenda r
  | _ => []
  end.
