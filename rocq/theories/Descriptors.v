(** The descriptor pool for JSON input (src/json.rs). *)
From Coq Require Import String List NArith Bool.
From Verif Require Import Base.
Import ListNotations.
Local Open Scope list_scope.

(** [prost_types::FileDescriptorProto]: its optional name, and the rest of it as it
    was encoded. *)
Record pfile := mk_pfile { pf_name : option (list N); pf_rest : list N }.
(** The getter [FileDescriptorProto::name]: an absent name reads as the empty one. *)
Definition file_name (f : pfile) : list N := match pf_name f with Some n => n | None => [] end.

(** [HashSet::insert]: whether the name is new, and the set with it. *)
Definition name_in (n : list N) (seen : list (list N)) : bool := existsb (streqb n) seen.

(** The inner loop of [build_descriptor_pool], src/json.rs l.51-55: the files
    collected so far and the names seen. *)
Fixpoint add_files (fs : list pfile) (acc : list pfile) (seen : list (list N)) : list pfile * list (list N) :=
  match fs with
  | [] => (acc, seen)
  | f :: r =>
      if name_in (file_name f) seen then add_files r acc seen
      else add_files r (acc ++ [f]) (file_name f :: seen)
  end.

(** The outer loop, l.48-56.  [decode] is [FileDescriptorSet::decode]. *)
Fixpoint add_blobs (decode : list N -> option (list pfile)) (bs : list (list N)) (acc : list pfile) (seen : list (list N))
  : res string (list pfile) :=
  match bs with
  | [] => Ok acc
  | b :: r =>
      match decode b with
      | None => Err "failed to decode extra descriptor"%string
      | Some fs => let (acc', seen') := add_files fs acc seen in add_blobs decode r acc' seen'
      end
  end.

(** [build_descriptor_pool], l.36-60, as the list of files handed to
    [DescriptorPool::decode]; [accepts] says whether that succeeds.  Encoding the
    list and decoding it again is taken to be the identity. *)
Definition build_descriptor_pool (decode : list N -> option (list pfile)) (accepts : list pfile -> bool)
  (core : list N) (extra : list (list N)) : res string (list pfile) :=
  match decode core with
  | None => Err "failed to decode substrait core descriptor"%string
  | Some fs =>
      let? all := add_blobs decode extra fs (map file_name fs) in
      if accepts all then Ok all else Err "failed to build descriptor pool"%string
  end.
