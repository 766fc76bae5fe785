(** Building the relation tree from lines (src/parser/structural.rs l.59-294).
    [R] is a parsed relation line and [A] a parsed addendum line. *)
From Coq Require Import String List NArith ZArith Bool.
From Verif Require Import Base.
Import ListNotations.

(** [RelationNode], l.68-74; the addenda carry their line number. *)
Inductive rnode (R A : Type) :=
| RNode (rel : R) (line_no : N) (addenda : list (A * N)) (children : list (rnode R A)).
Arguments RNode {R A} rel line_no addenda children.

Definition rn_line {R A} (n : rnode R A) : N := let '(RNode _ l _ _) := n in l.

(** [LineNode], l.90-94. *)
Inductive lnode (R A : Type) :=
| LRel (rel : R) (line_no : N)
| LAdd (add : A) (line_no : N).
Arguments LRel {R A} rel line_no.
Arguments LAdd {R A} add line_no.

(** [TreeBuilder], l.203-210. *)
Record builder (R A : Type) := mk_builder {
  b_current : option (rnode R A);
  b_completed : list (rnode R A)
}.
Arguments mk_builder {R A} b_current b_completed.
Arguments b_current {R A} b.
Arguments b_completed {R A} b.
Definition builder_empty {R A} : builder R A := mk_builder None [].

(** The ways [add_line] can fail. *)
Inductive tree_error := TNoParent | TAddendumTopLevel | TAddendumNoParent | TAddendumAfterChild.

(** Descending to the last child [depth] times ([get_at_depth], l.214-220) and
    changing the node found there. *)
Fixpoint at_depth {R A} (depth : nat) (f : rnode R A -> res tree_error (rnode R A))
  (missing : tree_error) (n : rnode R A) {struct depth} : res tree_error (rnode R A) :=
  match depth with
  | O => f n
  | S d =>
      let '(RNode r l ads cs) := n in
      match rev cs with
      | [] => Err missing
      | last :: before =>
          let? last' := at_depth d f missing last in
          Ok (RNode r l ads (rev before ++ [last']))
      end
  end.

Definition at_current {R A} (depth : nat) (f : rnode R A -> res tree_error (rnode R A))
  (missing : tree_error) (b : builder R A) : res tree_error (builder R A) :=
  match b_current b with
  | None => Err missing
  | Some n =>
      let? n' := at_depth depth f missing n in
      Ok (mk_builder (Some n') (b_completed b))
  end.

Definition push_child {R A} (c : rnode R A) (n : rnode R A) : res tree_error (rnode R A) :=
  let '(RNode r l ads cs) := n in Ok (RNode r l ads (cs ++ [c])).
Definition push_addendum {R A} (a : A * N) (n : rnode R A) : res tree_error (rnode R A) :=
  let '(RNode r l ads cs) := n in
  match cs with
  | [] => Ok (RNode r l (ads ++ [a]) cs)
  | _ => Err TAddendumAfterChild
  end.

(** [add_line], l.222-282. *)
Definition add_line {R A} (b : builder R A) (depth : nat) (n : lnode R A)
  : res tree_error (builder R A) :=
  match n, depth with
  | LRel r l, O =>
      Ok (mk_builder (Some (RNode r l [] []))
            (b_completed b ++ match b_current b with Some p => [p] | None => [] end))
  | LRel r l, S d => at_current d (push_child (RNode r l [] [])) TNoParent b
  | LAdd _ _, O => Err TAddendumTopLevel
  | LAdd a l, S d => at_current d (push_addendum (a, l)) TAddendumNoParent b
  end.

(** [finish], l.288-293. *)
Definition finish {R A} (b : builder R A) : list (rnode R A) :=
  b_completed b ++ match b_current b with Some p => [p] | None => [] end.
