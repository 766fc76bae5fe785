(** Specification vocabulary for the extension table. *)
From Coq Require Import String List NArith ZArith Bool.
From Verif Require Import Base Names SimpleExt.
Import ListNotations.

(** The name a declaration is stored under, if it is acceptable: a type may
    carry the [u!] marker, which is dropped; no other kind may. *)
Definition stored_name (k : kind) (n : list N) : option (list N) :=
  match k, strip_prefix (L "u!") n with
  | KType, Some r => Some r
  | KType, None => Some n
  | _, Some _ => None
  | _, None => Some n
  end.

(** The first acceptable declaration with a given kind and anchor. *)
Fixpoint first_decl (k : kind) (a : N) (ds : list (option ext_decl)) : option (N * list N) :=
  match ds with
  | [] => None
  | Some d :: r =>
      if kind_eqb (d_kind d) k && (d_anchor d =? a)%N then
        match stored_name (d_kind d) (d_name d) with
        | Some n => Some (d_urn d, n)
        | None => first_decl k a r
        end
      else first_decl k a r
  | None :: r => first_decl k a r
  end.

(** The first URN declared with a given anchor. *)
Fixpoint first_urn (a : N) (us : list urn_decl) : option (list N) :=
  match us with
  | [] => None
  | u :: r => if (u_anchor u =? a)%N then Some (u_urn u) else first_urn a r
  end.

(** Nothing to complain about: distinct URN anchors; every declaration has a
    kind, an acceptable name and a declared URN; distinct anchors within a kind. *)
Definition clean_decls (us : list urn_decl) (ds : list (option ext_decl)) : Prop :=
  NoDup (map u_anchor us) /\
  exists l : list ext_decl,
    ds = map Some l /\
    (forall d, In d l -> stored_name (d_kind d) (d_name d) <> None /\
                         In (d_urn d) (map u_anchor us)) /\
    NoDup (map (fun d => (d_anchor d, d_kind d)) l).

(** ** Names a function reference can carry *)

Fixpoint split_on (c : N) (s : list N) : list (list N) :=
  match s with
  | [] => [[]]
  | x :: r =>
      if (x =? c)%N then [] :: split_on c r
      else match split_on c r with
           | p :: ps => (x :: p) :: ps
           | [] => [[x]]
           end
  end.

(** One argument type of a signature: letters and digits, starting with a
    letter, optionally marked [u!]. *)
Definition short_name_ok (s : list N) : bool :=
  match s with c :: r => is_alpha c && forallb is_alnum r | [] => false end.
Definition arg_type_ok (s : list N) : bool :=
  match strip_prefix (L "u!") s with
  | Some r => short_name_ok r
  | None => short_name_ok s
  end.

(** A function name: an identifier, optionally followed by a colon and
    argument types separated by underscores. *)
Definition fn_name_ok (n : list N) : bool :=
  match split_at_char c_colon n with
  | None => is_identifier n
  | Some (b, []) => is_identifier b
  | Some (b, s) => is_identifier b && forallb arg_type_ok (split_on c_under s)
  end.
