(** Reading a text as lines: vocabulary for the properties of the line parser. *)
From Coq Require Import String List NArith Bool.
From Verif Require Import Base Lines.
Import ListNotations.

(** The lines of a text, without line breaks; a final line break adds no line. *)
Fixpoint text_lines (s : list N) : list (list N) :=
  match s with
  | [] => []
  | c :: r =>
      if (c =? 10)%N then [] :: text_lines r
      else match text_lines r with
           | l :: ls => (c :: l) :: ls
           | [] => [[c]]
           end
  end.

(** Section headers: lines starting with [===]. *)
Definition headers (s : list N) : list (list N) := filter (starts_with (L "===")) (text_lines s).

(** The section a header announces: 1 Version, 2 Extensions, 3 Plan. *)
Definition header_section (h : list N) : option nat :=
  let h := trim_end h in
  if streqb h (L "=== Extensions") then Some 2
  else if streqb h (L "=== Plan") then Some 3
  else if starts_with (L "=== Version ") h then Some 1
  else None.

Definition blank (s : list N) : bool := forallb is_ws s.

(** Pieces of text with the number of the line each begins on. *)
Fixpoint breaks (s : list N) : N :=
  match s with
  | [] => 0
  | c :: r => if (c =? 10)%N then (1 + breaks r)%N else breaks r
  end.
Fixpoint numbered (n : N) (ks : list (list N)) : list (N * list N) :=
  match ks with
  | [] => []
  | k :: r => (n, k) :: numbered (n + breaks k) r
  end.

(** ** Layout that carries no meaning *)

(** A line that continues the relation above it: its text starts with [- ]. *)
Definition continuation (l : list N) : bool := starts_with (L "- ") (snd (indented l)).
Definition starts_fresh (ls : list (list N)) : bool :=
  match ls with
  | [] => true
  | l :: _ => negb (continuation l)
  end.

(** [tidied ls ls']: [ls'] is [ls] with white space added or removed at the end
    of lines (a carriage return is white space), and with blank lines inserted,
    except in front of a continuation line. *)
Inductive tidied : list (list N) -> list (list N) -> Prop :=
| tidied_nil : tidied [] []
| tidied_same l ls ls' : tidied ls ls' -> tidied (l :: ls) (l :: ls')
| tidied_end l l' ls ls' :
    trim_end l = trim_end l' -> starts_fresh ls = true -> tidied ls ls' -> tidied (l :: ls) (l' :: ls')
| tidied_blank l ls ls' :
    blank l = true -> starts_fresh ls = true -> tidied ls ls' -> tidied ls (l :: ls').

(** ** Groups of lines *)

(** A line together with the continuation lines below it, one level deeper. *)
Definition line_group (k : list (list N)) : Prop :=
  match k with
  | [] => False
  | l :: cs => Forall (fun c => fst (indented c) = S (fst (indented l)) /\ continuation c = true) cs
  end.
(** A group is read as one piece of text. *)
Definition group_text (k : list (list N)) : list N := concat (map (fun l => l ++ [10%N]) k).
Definition written (k : N * list (list N)) : bool := negb (blank (group_text (snd k))).
(** Groups with the number of the line each begins on. *)
Fixpoint number_groups (n : N) (ks : list (list (list N))) : list (N * list (list N)) :=
  match ks with
  | [] => []
  | k :: r => (n, k) :: number_groups (n + N.of_nat (length k)) r
  end.
