(** The layouts in which a virtual table may be written: on one line, or with any
    of its arguments on a line of its own that starts with a dash. *)
From Coq Require Import String List NArith ZArith Bool.
From Verif Require Import Base.
Import ListNotations.
Local Open Scope string_scope.
Local Open Scope list_scope.
Local Open Scope nat_scope.

Definition spaces (k : nat) : list N := repeat c_sp k.
(** The end of a line and the start of a continuation line. *)
Inductive new_line : list N -> Prop :=
| new_line_intro a b c : new_line (spaces a ++ [c_nl] ++ spaces b ++ L "- " ++ spaces c)
| new_line_return a b c : new_line (spaces a ++ [c_cr; c_nl] ++ spaces b ++ L "- " ++ spaces c).
(** What may stand between two tokens. *)
Inductive gap : list N -> Prop :=
| gap_inline k : gap (spaces k)
| gap_line s : new_line s -> gap s.
(** Opening bracket, comma and arrow. *)
Inductive opening : list N -> Prop :=
| open_inline : opening (L "[")
| open_line s : new_line s -> opening (L "[" ++ s).
Inductive comma : list N -> Prop :=
| comma_intro a s : gap s -> comma (spaces a ++ L "," ++ s).
Inductive arrow_text : list N -> Prop :=
| arrow_intro s k : gap s -> arrow_text (s ++ L "=>" ++ spaces k).

(** Arguments with a comma between each two of them. *)
Inductive separated : list (list N) -> list N -> Prop :=
| sep_one a : separated [a] a
| sep_more a b l c t : comma c -> separated (b :: l) t -> separated (a :: b :: l) (a ++ c ++ t).

(** A virtual table with the given arguments and columns. *)
Inductive virtual_text (args : list (list N)) (columns : list N) : list N -> Prop :=
| virtual_intro o t a k :
    opening o -> separated args t -> arrow_text a ->
    virtual_text args columns (L "Read:Virtual" ++ o ++ t ++ a ++ columns ++ L "]" ++ spaces k).
