(** The protobuf encoding of the messages the bundled extensions use: what
    [#[derive(prost::Message)]] (prost 0.14, not in the repository; written down
    from its published source) makes of a struct of strings, [int64], [bool] and
    repeated enumerations. *)
From Coq Require Import List NArith ZArith Bool.
From Verif Require Import Base Utf8.
Import ListNotations.
Local Open Scope N_scope.

(** [u64 as i64], [u64 as i32], [i64 as u64]. *)
Definition to_i64 (n : N) : Z := if n <? 9223372036854775808 then Z.of_N n else (Z.of_N n - 18446744073709551616)%Z.
Definition to_i32 (n : N) : Z :=
  let m := n mod 4294967296 in
  if m <? 2147483648 then Z.of_N m else (Z.of_N m - 4294967296)%Z.
Definition to_u64 (z : Z) : N := Z.to_N (z mod 18446744073709551616).

(** [encode_varint]: groups of seven bits, the lowest first. A [u64] has at most ten. *)
Fixpoint varint (fuel : nat) (n : N) : list N :=
  match fuel with
  | O => [n]
  | S f => if n <? 128 then [n] else (n mod 128 + 128) :: varint f (n / 128)
  end.
Definition encode_varint (n : N) : list N := varint 9 n.

(** [decode_varint]: the tenth byte may only be 0 or 1. *)
Fixpoint unvarint (fuel : nat) (b : list N) : option (N * list N) :=
  match b with
  | [] => None
  | x :: r =>
      if x <? 128 then
        match fuel with
        | O => if x <? 2 then Some (x, r) else None
        | S _ => Some (x, r)
        end
      else
        match fuel with
        | O => None
        | S f => match unvarint f r with Some (v, r') => Some (x - 128 + 128 * v, r') | None => None end
        end
  end.
Definition decode_varint (b : list N) : option (N * list N) := unvarint 9 b.

(** [WireType]: 0 varint, 1 64-bit, 2 length-delimited, 3 and 4 the ends of a group,
    5 32-bit. [encode_key] and [decode_key]. *)
Definition encode_key (tag wt : N) : list N := encode_varint (tag * 8 + wt).
Definition decode_key (b : list N) : option (N * N * list N) :=
  match decode_varint b with
  | Some (k, r) =>
      if (4294967295 <? k) || (5 <? k mod 8) || (k / 8 <? 1) then None else Some (k / 8, k mod 8, r)
  | None => None
  end.

(** The next [len] bytes. *)
Definition take_bytes (len : N) (b : list N) : option (list N * list N) :=
  if N.of_nat (length b) <? len then None else Some (firstn (N.to_nat len) b, skipn (N.to_nat len) b).
Definition take_delimited (b : list N) : option (list N * list N) :=
  match decode_varint b with Some (len, r) => take_bytes len r | None => None end.

(** [skip_field] for a field of wire type [wt]; [depth] is what is left of the
    recursion limit. [fuel] only makes the definition structural: WireFacts.v shows
    that more than [merge_field] gives it makes no difference. *)
Fixpoint skip_field (fuel : nat) (depth : nat) (tag wt : N) (b : list N) {struct fuel} : option (list N) :=
  match fuel, depth with
  | O, _ | _, O => None
  | S fuel, S depth' =>
      if wt =? 0 then option_map snd (decode_varint b)
      else if wt =? 1 then option_map snd (take_bytes 8 b)
      else if wt =? 2 then option_map snd (take_delimited b)
      else if wt =? 3 then skip_group fuel depth' tag b
      else if wt =? 5 then option_map snd (take_bytes 4 b)
      else None
  end
(** The loop of a group: up to the end of the group with its own tag. *)
with skip_group (fuel : nat) (depth : nat) (tag : N) (b : list N) {struct fuel} : option (list N) :=
  match fuel with
  | O => None
  | S fuel =>
      match decode_key b with
      | Some (t, wt, r) =>
          if wt =? 4 then if t =? tag then Some r else None
          else match skip_field fuel depth t wt r with
               | Some r' => skip_group fuel depth tag r'
               | None => None
               end
      | None => None
      end
  end.
Definition recursion_limit : nat := 100.

(** ** Fields *)

Inductive kind := KString | KInt64 | KBool | KEnums.
Inductive fval := FString (s : list N) | FInt64 (z : Z) | FBool (b : bool) | FEnums (l : list Z).
Definition default_of (k : kind) : fval :=
  match k with KString => FString [] | KInt64 => FInt64 0 | KBool => FBool false | KEnums => FEnums [] end.

Definition encode_bytes (tag : N) (b : list N) : list N :=
  encode_key tag 2 ++ encode_varint (N.of_nat (length b)) ++ b.
(** The derived [encode_raw]: defaults are left out, repeated enumerations packed. *)
Definition encode_field (tag : N) (v : fval) : list N :=
  match v with
  | FString [] => []
  | FString s => encode_bytes tag (utf8_encode s)
  | FInt64 z => if (z =? 0)%Z then [] else encode_key tag 0 ++ encode_varint (to_u64 z)
  | FBool b => if b then encode_key tag 0 ++ encode_varint 1 else []
  | FEnums [] => []
  | FEnums l => encode_bytes tag (concat (map (fun z => encode_varint (to_u64 z)) l))
  end.

(** The varints of a packed field, all of its bytes ([merge_loop]; a varint that runs
    over the end of the field is an error there as well). *)
Fixpoint unpack (fuel : nat) (b : list N) : option (list Z) :=
  match b with
  | [] => Some []
  | _ =>
      match fuel with
      | O => None
      | S fuel =>
          match decode_varint b with
          | Some (n, r) => option_map (cons (to_i32 n)) (unpack fuel r)
          | None => None
          end
      end
  end.

(** [merge] of the field's module, with [check_wire_type]: a later value replaces an
    earlier one; enumerations accumulate, packed or one by one. *)
Definition merge_value (v : fval) (wt : N) (b : list N) : option (fval * list N) :=
  match v with
  | FString _ =>
      if wt =? 2 then
        match take_delimited b with
        | Some (x, r) => option_map (fun s => (FString s, r)) (utf8_decode x)
        | None => None
        end
      else None
  | FInt64 _ => if wt =? 0 then option_map (fun p => (FInt64 (to_i64 (fst p)), snd p)) (decode_varint b) else None
  | FBool _ => if wt =? 0 then option_map (fun p => (FBool (negb (fst p =? 0)), snd p)) (decode_varint b) else None
  | FEnums l =>
      if wt =? 2 then
        match take_delimited b with
        | Some (x, r) => option_map (fun l' => (FEnums (l ++ l'), r)) (unpack (length x) x)
        | None => None
        end
      else if wt =? 0 then option_map (fun p => (FEnums (l ++ [to_i32 (fst p)]), snd p)) (decode_varint b)
      else None
  end.

(** ** Messages *)

(** The fields of a message: tags and kinds, in the order of the tags. *)
Definition schema : Type := list (N * kind).

(** The derived [merge_field]; unknown fields are skipped. *)
Fixpoint merge_field (sch : schema) (vs : list fval) (tag wt : N) (b : list N) : option (list fval * list N) :=
  match sch, vs with
  | (t, _) :: sch', v :: vs' =>
      if t =? tag then option_map (fun p => (fst p :: vs', snd p)) (merge_value v wt b)
      else option_map (fun p => (v :: fst p, snd p)) (merge_field sch' vs' tag wt b)
  | _, _ => option_map (fun r => (vs, r)) (skip_field (S (S (2 * length b))) recursion_limit tag wt b)
  end.
(** [Message::merge]: fields up to the end of the bytes (each takes a byte at least,
    see WireFacts.v). *)
Fixpoint merge_fields (fuel : nat) (sch : schema) (vs : list fval) (b : list N) : option (list fval) :=
  match b with
  | [] => Some vs
  | _ =>
      match fuel with
      | O => None
      | S fuel =>
          match decode_key b with
          | Some (tag, wt, r) =>
              match merge_field sch vs tag wt r with
              | Some (vs', r') => merge_fields fuel sch vs' r'
              | None => None
              end
          | None => None
          end
      end
  end.

(** [Message::encode] into a growing buffer (which does not fail) and
    [Message::decode]. *)
Definition encode_message (sch : schema) (vs : list fval) : list N :=
  concat (map (fun p => encode_field (fst (fst p)) (snd p)) (combine sch vs)).
Definition decode_message (sch : schema) (b : list N) : option (list fval) :=
  merge_fields (length b) sch (map (fun p => default_of (snd p)) sch) b.
