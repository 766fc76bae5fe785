(** Declarations and registrations added to those there are. *)
From Coq Require Import String List NArith ZArith Bool.
From Verif Require Import Base SimpleExt Structural SpecMeaning SpecText.
Import ListNotations.

(** [es'] has all entries of [es], and the further declarations in it share their base
    name with no declaration of the same kind in [es]. *)
Definition more_entries (es es' : list entry) : Prop :=
  (forall x, In x es -> In x es') /\
  (forall d f b, In (inr d) es -> In (inr f) es' -> ~ In (inr f) es -> d_kind d = d_kind f ->
     base_name (d_name d) b -> ~ base_name (d_name f) b).
(** The same of tables. *)
Definition more_declared (e e' : exts) : Prop :=
  (forall k a x, decl_get e k a = Some x -> decl_get e' k a = Some x) /\
  (forall k a u n a' u' n' b, decl_get e k a = Some (u, n) -> decl_get e' k a' = Some (u', n') -> decl_get e k a' = None ->
     base_name n b -> ~ base_name n' b).
