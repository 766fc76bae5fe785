(** Parsing expression grammar combinators.

    pest's semantics: ordered choice, greedy repetition without backtracking
    into it, lookahead without consumption.  The grammar of
    src/parser/expression_grammar.pest defines no implicit WHITESPACE rule, so
    sequences are plain concatenations. *)
From Coq Require Import String List NArith Bool Lia.
From Verif Require Import Base.
Import ListNotations.

Definition peg (A : Type) : Type := list N -> option (A * list N).

Definition pret {A} (a : A) : peg A := fun s => Some (a, s).
Definition pfail {A} : peg A := fun _ => None.

Definition pbind {A B} (p : peg A) (f : A -> peg B) : peg B := fun s =>
  match p s with
  | Some (a, r) => f a r
  | None => None
  end.

Definition pmap {A B} (f : A -> B) (p : peg A) : peg B := fun s =>
  match p s with
  | Some (a, r) => Some (f a, r)
  | None => None
  end.

(** [p ~ q], keeping one side. *)
Definition pthen {A B} (p : peg A) (q : peg B) : peg B := pbind p (fun _ => q).

(** [p | q]. *)
Definition palt {A} (p q : peg A) : peg A := fun s =>
  match p s with
  | Some x => Some x
  | None => q s
  end.

(** [p?]. *)
Definition popt {A} (p : peg A) : peg (option A) := fun s =>
  match p s with
  | Some (a, r) => Some (Some a, r)
  | None => Some (None, s)
  end.

(** ["literal"]. *)
Definition ptok (t : list N) : peg unit := fun s =>
  match strip_prefix t s with
  | Some r => Some (tt, r)
  | None => None
  end.

(** [^"literal"] (ASCII case-insensitive); [t] must be given in lower case. *)
Fixpoint strip_prefix_ci (p s : list N) : option (list N) :=
  match p, s with
  | [], _ => Some s
  | x :: p', y :: s' => if (x =? to_lower y)%N then strip_prefix_ci p' s' else None
  | _ :: _, [] => None
  end.
Definition ptok_ci (t : list N) : peg unit := fun s =>
  match strip_prefix_ci t s with
  | Some r => Some (tt, r)
  | None => None
  end.

(** One character of a class. *)
Definition pchar (f : N -> bool) : peg N := fun s =>
  match s with
  | c :: r => if f c then Some (c, r) else None
  | [] => None
  end.

(** [class*] as text. *)
Definition pwhile (f : N -> bool) : peg (list N) := fun s => Some (span f s).

(** [class+] as text. *)
Definition pwhile1 (f : N -> bool) : peg (list N) := fun s =>
  match span f s with
  | ([], _) => None
  | x => Some x
  end.

(** [!p]. *)
Definition pnot {A} (p : peg A) : peg unit := fun s =>
  match p s with
  | Some _ => None
  | None => Some (tt, s)
  end.

(** End of input. *)
Definition peoi : peg unit := fun s =>
  match s with [] => Some (tt, s) | _ => None end.

(** [p*].  The recursion is bounded by the length of the input: every repeated
    rule of the grammar consumes at least one character. *)
Fixpoint pstar_n {A} (n : nat) (p : peg A) (s : list N) : list A * list N :=
  match n with
  | O => ([], s)
  | S n' =>
      match p s with
      | Some (a, r) => let (l, r') := pstar_n n' p r in (a :: l, r')
      | None => ([], s)
      end
  end.
Definition pstar {A} (p : peg A) : peg (list A) := fun s => Some (pstar_n (length s) p s).

(** [p+]. *)
Definition pplus {A} (p : peg A) : peg (list A) :=
  pbind p (fun a => pbind (pstar p) (fun l => pret (a :: l))).

(** [p] then any number of [sep ~ p]. *)
Definition psep1 {A} (sep : peg unit) (p : peg A) : peg (list A) :=
  pbind p (fun a => pbind (pstar (pthen sep p)) (fun l => pret (a :: l))).

(** The same, or nothing. *)
Definition psep0 {A} (sep : peg unit) (p : peg A) : peg (list A) :=
  palt (psep1 sep p) (pret []).

(** First matching alternative among literals, as text. *)
Fixpoint ptoks (l : list (list N)) : peg (list N) :=
  match l with
  | [] => pfail
  | t :: r => palt (pmap (fun _ => t) (ptok t)) (ptoks r)
  end.

(** Recursive rules.  The recursion is bounded by the length of the input: every
    recursive call of the grammar happens after consuming a character
    (PegFacts.prun_eq shows the bound is never met). *)
Fixpoint pfix {A} (F : peg A -> peg A) (n : nat) : peg A :=
  match n with
  | O => pfail
  | S n' => F (pfix F n')
  end.
Definition prun {A} (F : peg A -> peg A) : peg A := fun s => pfix F (S (length s)) s.

(** [sp = whitespace*] (grammar l.3-5). *)
Definition sp : peg unit := pmap (fun _ => tt) (pwhile (fun c => (c =? c_sp)%N)).

Declare Scope peg_scope.
Delimit Scope peg_scope with peg.
Notation "x '<-' p ';;' q" := (pbind p (fun x => q))
  (at level 100, p at next level, right associativity, q at level 200) : peg_scope.
Notation "p ';;;' q" := (pthen p q)
  (at level 100, right associativity) : peg_scope.
Notation "p '<|>' q" := (palt p q) (at level 70, right associativity) : peg_scope.
