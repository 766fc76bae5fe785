(** Listing the registered extensions (src/extensions/registry.rs). *)
From Coq Require Import String List NArith Bool.
From Verif Require Import Base Utf8 ExtArgs Registry.
Import ListNotations.

(** [Ord] of [&str]: that of the bytes. *)
Fixpoint bytes_leb (a b : list N) : bool :=
  match a, b with
  | [], _ => true
  | _ :: _, [] => false
  | x :: a, y :: b => if (x =? y)%N then bytes_leb a b else (x <? y)%N
  end.
Definition str_leb (a b : list N) : bool := bytes_leb (utf8_encode a) (utf8_encode b).

(** [sort_unstable], as insertion sort. *)
Fixpoint sorted_insert (x : list N) (l : list (list N)) : list (list N) :=
  match l with
  | [] => [x]
  | y :: r => if str_leb x y then x :: y :: r else y :: sorted_insert x r
  end.
Definition str_sort (l : list (list N)) : list (list N) := fold_right sorted_insert [] l.
(** [Vec::dedup]: of equal neighbours the first. *)
Fixpoint dedup (l : list (list N)) : list (list N) :=
  match l with
  | x :: (y :: _) as r => if streqb x y then dedup r else x :: dedup r
  | l => l
  end.

(** [ExtensionRegistry::extension_names], src/extensions/registry.rs l.703-718. *)
Definition extension_names (r : registry) (t : xtype) : list (list N) :=
  dedup (str_sort (map snd (filter (fun kv => xtype_eqb (fst (fst kv)) t) (rg_urls r)))).
