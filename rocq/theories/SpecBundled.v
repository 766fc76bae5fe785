(** What the bundled example extensions are documented to do. *)
From Coq Require Import String List NArith ZArith Bool.
From Verif Require Import Base Utf8 Names SimpleExt Out ExtArgs Registry Bundled.
Import ListNotations.
Local Open Scope string_scope.
Local Open Scope list_scope.

(** The strategies, by number. *)
Inductive strategy : Z -> string -> Prop :=
| st_unspecified : strategy 0 "UNSPECIFIED"
| st_hash : strategy 1 "HASH"
| st_range : strategy 2 "RANGE"
| st_broadcast : strategy 3 "BROADCAST".

(** The arguments that stand for a message: strategies in order, then the count unless
    it is zero. *)
Definition optional_int (name : string) (z : Z) (l : list (list N * xvalue)) : Prop :=
  l = [(L name, XInteger z)] \/ z = 0%Z /\ l = [].
Definition hint_args (h : partition_hint) (a : xargs) : Prop :=
  Forall2 (fun z v => exists s, strategy z s /\ v = XEnum (L s)) (ph_strategies h) (xa_positional a) /\
  optional_int "count" (ph_count h) (xa_named a).
Definition plan_hint_args (s : list N) (a : xargs) : Prop :=
  xa_positional a = [] /\ xa_named a = [(L "hint", XString s)].
(** Either argument may be left out if it is the default; they may come in any order. *)
Definition blob_args (m : blob_read) (a : xargs) : Prop :=
  xa_positional a = [XString (br_path m)] /\ xa_columns a = [] /\
  exists l1 l2, optional_int "limit" (br_limit m) l1 /\
    (l2 = [(L "include_archived", XBoolean (br_archived m))] \/ br_archived m = false /\ l2 = []) /\
    (xa_named a = l1 ++ l2 \/ xa_named a = l2 ++ l1).

(** What is written for a message. *)
Definition listed (l : list (list N)) : list N := match l with [] => L "_" | _ => join (L ", ") l end.
Definition strategy_text (z : Z) : list N := L "&" ++ L (nth (Z.to_nat z) ["UNSPECIFIED"; "HASH"; "RANGE"; "BROADCAST"] "UNSPECIFIED").
Definition int_text (name : string) (z : Z) : list (list N) := if (z =? 0)%Z then [] else [L name ++ L "=" ++ show_Z z].
Definition hint_text (h : partition_hint) : list N := listed (map strategy_text (ph_strategies h) ++ int_text "count" (ph_count h)).
Definition plan_hint_text `{U : Unicode} (s : list N) : list N := L "hint=" ++ show_string s.
Definition blob_text `{U : Unicode} (m : blob_read) : list N :=
  listed (show_string (br_path m) :: int_text "limit" (br_limit m) ++ (if br_archived m then [L "include_archived=true"] else [])).

(** Messages that Rust values can be: strings of scalar values, integers in range,
    nothing longer than memory. *)
Definition short (n : nat) : Prop := (N.of_nat (10 * n) < 18446744073709551616)%N.
Definition string_value (s : list N) : Prop := Forall (fun c => scalar c = true) s /\ short (length (utf8_encode s)).
Definition int64_value (z : Z) : Prop := (-9223372036854775808 <= z <= 9223372036854775807)%Z.
Definition hint_value (h : partition_hint) : Prop :=
  Forall (fun z => -2147483648 <= z <= 2147483647)%Z (ph_strategies h) /\ short (length (ph_strategies h)) /\ int64_value (ph_count h).
Definition blob_value (m : blob_read) : Prop := string_value (br_path m) /\ int64_value (br_limit m).
Definition known_strategies (h : partition_hint) : Prop := Forall (fun z => exists s, strategy z s) (ph_strategies h).

(** Protobuf's variable-length integers: seven bits to a byte, the lowest first; all
    bytes but the last have the highest bit set. *)
Inductive base128 : list N -> N -> Prop :=
| base128_last x : (x < 128)%N -> base128 [x] x
| base128_more x r n : (x < 128)%N -> base128 r n -> base128 ((x + 128)%N :: r) (x + 128 * n)%N.
