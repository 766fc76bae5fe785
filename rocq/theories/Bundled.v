(** The bundled example extensions (src/extensions/examples.rs) and the conversion of
    protobuf messages to and from [Any] (src/extensions/any.rs,
    src/extensions/registry.rs). *)
From Coq Require Import String List NArith ZArith Bool.
From Verif Require Import Base Utf8 Wire ExtArgs Registry.
Import ListNotations.
Local Open Scope string_scope.
Local Open Scope list_scope.

(** The blanket [AnyConvertible] of a message (src/extensions/registry.rs l.246-264) by
    way of [Any::encode] and [AnyRef::decode] (src/extensions/any.rs l.28-43, 91-103). *)
Definition message_to_any (url : string) (sch : schema) (vs : list fval) : any := mk_any (L url) (encode_message sch vs).
Definition message_of_any (url : string) (sch : schema) (d : any) : res xerror (list fval) :=
  if streqb (any_url d) (L url)
  then match decode_message sch (any_value d) with Some vs => Ok vs | None => Err XDecodeFailed end
  else Err XUrlMismatch.

(** ** PartitionHint *)

(** [PartitionStrategy], src/extensions/examples.rs l.27-62: numbers and names. *)
Definition strategies : list (Z * string) := [(0, "UNSPECIFIED"); (1, "HASH"); (2, "RANGE"); (3, "BROADCAST")]%Z.
Definition strategy_of_name (s : list N) : option Z :=
  option_map fst (find (fun p => streqb s (L (snd p))) strategies).
(** [try_from(raw).unwrap_or(Unspecified)] and its name, l.153-156. *)
Definition strategy_name (z : Z) : list N :=
  match find (fun p => (fst p =? z)%Z) strategies with Some p => L (snd p) | None => L "UNSPECIFIED" end.

(** l.94-103. *)
Record partition_hint := mk_hint { ph_strategies : list Z; ph_count : Z }.
Definition hint_schema : schema := [(1, KEnums); (2, KInt64)]%N.
Definition hint_fields (h : partition_hint) : list fval := [FEnums (ph_strategies h); FInt64 (ph_count h)].
(** The fields of a decoded message have the kinds of the schema. *)
Definition hint_of_fields (vs : list fval) : res xerror partition_hint :=
  match vs with [FEnums l; FInt64 z] => Ok (mk_hint l z) | _ => Err XDecodeFailed end.
Definition hint_url : string := "type.googleapis.com/example.PartitionHint".

(** l.124-148: an unknown strategy is reported after the count has been read. *)
Definition hint_from_args : prog partition_hint :=
  PPositional (fun vs =>
    let l := rlist (fun v =>
               let? s := as_enum v in
               match strategy_of_name s with
               | Some z => Ok z
               | None => Err (XInvalidArgument "Unknown PartitionStrategy variant")
               end) vs in
    get_named as_i64 (L "count") (fun c =>
      PReturn (let? l := l in Ok (mk_hint l (match c with Some z => z | None => 0%Z end))))).
(** l.150-161. *)
Definition hint_to_args (h : partition_hint) (ctx : list nat) : res xerror xargs :=
  Ok (mk_xargs (map (fun z => XEnum (strategy_name z)) (ph_strategies h))
        (if (ph_count h =? 0)%Z then [] else [(L "count", XInteger (ph_count h))]) []).
Definition hint_from_any (d : any) : res xerror partition_hint :=
  let? vs := message_of_any hint_url hint_schema d in hint_of_fields vs.
Definition hint_extension : extension :=
  mk_extension partition_hint (L "PartitionHint") (L hint_url) hint_from_args hint_to_args
    (fun h => Ok (message_to_any hint_url hint_schema (hint_fields h))) hint_from_any.

(** ** PlanHint *)

(** l.194-199. *)
Definition plan_hint_schema : schema := [(1, KString)]%N.
Definition plan_hint_fields (s : list N) : list fval := [FString s].
Definition plan_hint_of_fields (vs : list fval) : res xerror (list N) :=
  match vs with [FString s] => Ok s | _ => Err XDecodeFailed end.
Definition plan_hint_url : string := "type.googleapis.com/example.PlanHint".
(** l.219-228. *)
Definition plan_hint_from_args : prog (list N) :=
  PPositional (fun vs =>
    match vs with
    | [] => expect_named as_string (L "hint") (fun s => PReturn (Ok s))
    | _ => PReturn (Err (XInvalidArgument "PlanHint does not accept positional arguments"))
    end).
(** l.230-236. *)
Definition plan_hint_to_args (s : list N) (ctx : list nat) : res xerror xargs :=
  Ok (mk_xargs [] [(L "hint", XString s)] []).
Definition plan_hint_from_any (d : any) : res xerror (list N) :=
  let? vs := message_of_any plan_hint_url plan_hint_schema d in plan_hint_of_fields vs.
Definition plan_hint_extension : extension :=
  mk_extension (list N) (L "PlanHint") (L plan_hint_url) plan_hint_from_args plan_hint_to_args
    (fun s => Ok (message_to_any plan_hint_url plan_hint_schema (plan_hint_fields s))) plan_hint_from_any.

(** ** BlobStoreRead *)

(** l.270-281. *)
Record blob_read := mk_blob { br_path : list N; br_limit : Z; br_archived : bool }.
Definition blob_schema : schema := [(1, KString); (2, KInt64); (3, KBool)]%N.
Definition blob_fields (m : blob_read) : list fval := [FString (br_path m); FInt64 (br_limit m); FBool (br_archived m)].
Definition blob_of_fields (vs : list fval) : res xerror blob_read :=
  match vs with [FString s; FInt64 z; FBool b] => Ok (mk_blob s z b) | _ => Err XDecodeFailed end.
Definition blob_url : string := "type.googleapis.com/example.BlobStoreRead".
(** l.301-323. *)
Definition blob_from_args : prog blob_read :=
  PPositional (fun vs =>
    match vs with
    | [v] =>
        PColumns (fun cs =>
          match cs with
          | [] =>
              match as_string v with
              | Ok path =>
                  get_named as_i64 (L "limit") (fun limit =>
                  get_named as_bool (L "include_archived") (fun archived =>
                    PReturn (Ok (mk_blob path (match limit with Some z => z | None => 0%Z end)
                                   (match archived with Some b => b | None => false end)))))
              | Err e => PReturn (Err e)
              | Panic p => PReturn (Panic p)
              end
          | _ => PReturn (Err (XInvalidArgument "BlobStoreRead output columns belong in Read:Extension[...]"))
          end)
    | _ => PReturn (Err (XInvalidArgument "BlobStoreRead expects exactly 1 positional path argument"))
    end).
(** l.325-339. *)
Definition blob_to_args (m : blob_read) (ctx : list nat) : res xerror xargs :=
  Ok (mk_xargs [XString (br_path m)]
        ((if (br_limit m =? 0)%Z then [] else [(L "limit", XInteger (br_limit m))])
         ++ (if br_archived m then [(L "include_archived", XBoolean true)] else [])) []).
Definition blob_from_any (d : any) : res xerror blob_read :=
  let? vs := message_of_any blob_url blob_schema d in blob_of_fields vs.
Definition blob_extension : extension :=
  mk_extension blob_read (L "BlobStoreRead") (L blob_url) blob_from_args blob_to_args
    (fun m => Ok (message_to_any blob_url blob_schema (blob_fields m))) blob_from_any.

(** [registry], l.343-355; [expect] panics. *)
Definition expect_register (t : xtype) (h : extension) (r : registry) : res unit registry :=
  match register t h r with
  | (Ok _, r') => Ok r'
  | (Err _, _) => Panic "register example"
  | (Panic m, _) => Panic m
  end.
Definition bundled : res unit registry :=
  let? r := expect_register XtEnhancement hint_extension registry_new in
  let? r := expect_register XtOptimization plan_hint_extension r in
  expect_register XtTable blob_extension r.
