(** The protobuf wire format, as its documentation describes it: a message is a
    sequence of records, and a field's value follows from the records with its
    number. *)
From Coq Require Import List NArith ZArith Bool.
From Verif Require Import Base Utf8 Wire SpecBundled.
Import ListNotations.
Local Open Scope N_scope.

(** A variable-length integer of 64 bits: at most ten bytes, not necessarily the fewest. *)
Definition varint_bytes (b : list N) (n : N) : Prop :=
  base128 b n /\ (length b <= 10)%nat /\ n < 2 ^ 64.

(** Records.  Groups hold records of their own. *)
Inductive payload :=
| PVarint (n : N)
| PFixed64 (b : list N)
| PBytes (b : list N)
| PGroup (fs : list (N * payload))
| PFixed32 (b : list N).
Definition wire_type (p : payload) : N :=
  match p with PVarint _ => 0 | PFixed64 _ => 1 | PBytes _ => 2 | PGroup _ => 3 | PFixed32 _ => 5 end.
(** A key: field number and wire type, in 32 bits. *)
Definition key_bytes (b : list N) (tag wt : N) : Prop :=
  1 <= tag /\ tag * 8 + wt < 2 ^ 32 /\ varint_bytes b (tag * 8 + wt).

(** [payload_bytes tag p b]: the record's bytes after its key; a group goes up to a key
    with its own number and wire type 4. *)
Inductive payload_bytes : N -> payload -> list N -> Prop :=
| pb_varint tag n b : varint_bytes b n -> payload_bytes tag (PVarint n) b
| pb_fixed64 tag b : length b = 8%nat -> payload_bytes tag (PFixed64 b) b
| pb_bytes tag v b : varint_bytes v (N.of_nat (length b)) -> payload_bytes tag (PBytes b) (v ++ b)
| pb_group tag fs b k : records fs b -> key_bytes k tag 4 -> payload_bytes tag (PGroup fs) (b ++ k)
| pb_fixed32 tag b : length b = 4%nat -> payload_bytes tag (PFixed32 b) b
with records : list (N * payload) -> list N -> Prop :=
| rec_nil : records [] []
| rec_cons tag p k b fs r : key_bytes k tag (wire_type p) -> payload_bytes tag p b -> records fs r ->
    records ((tag, p) :: fs) (k ++ b ++ r).

(** How deep groups are nested. *)
Fixpoint nesting (p : payload) : nat :=
  match p with
  | PGroup fs => S (fold_right Nat.max O (map (fun f => nesting (snd f)) fs))
  | _ => 1
  end.

(** Signed integers in two's complement. *)
Definition signed (bits : Z) (n : N) (z : Z) : Prop :=
  (- 2 ^ (bits - 1) <= z < 2 ^ (bits - 1))%Z /\ (exists q, Z.of_N n = z + q * 2 ^ bits)%Z.

(** The value of a field from its records in order.  The last one counts; repeated
    fields collect all, one to a record or packed in one. *)
Inductive packed : list N -> list Z -> Prop :=
| packed_nil : packed [] []
| packed_cons v n z b l : varint_bytes v n -> signed 32 n z -> packed b l -> packed (v ++ b) (z :: l).
Definition enum_record (p : payload) (l : list Z) : Prop :=
  match p with
  | PVarint n => exists z, signed 32 n z /\ l = [z]
  | PBytes b => packed b l
  | _ => False
  end.
Definition field_value (k : kind) (ps : list payload) (v : fval) : Prop :=
  match k with
  | KString => exists ss, Forall2 (fun p s => Forall (fun c => scalar c = true) s /\ p = PBytes (utf8_encode s)) ps ss /\
                 v = FString (last ss [])
  | KInt64 => exists zs, Forall2 (fun p z => exists n, p = PVarint n /\ signed 64 n z) ps zs /\ v = FInt64 (last zs 0%Z)
  | KBool => exists bs, Forall2 (fun p (b : bool) => exists n, p = PVarint n /\ (b = true <-> n <> 0)) ps bs /\
                 v = FBool (last bs false)
  | KEnums => exists ls, Forall2 enum_record ps ls /\ v = FEnums (concat ls)
  end.
Definition with_tag (t : N) (fs : list (N * payload)) : list payload :=
  map snd (filter (fun f => fst f =? t) fs).

(** A message: the records of its fields, and any others, which may not nest groups
    more than a hundred deep. *)
Definition message (sch : schema) (b : list N) (vs : list fval) : Prop :=
  exists fs, records fs b /\
    Forall2 (fun f v => field_value (snd f) (with_tag (fst f) fs) v) sch vs /\
    Forall (fun f => In (fst f) (map fst sch) \/ (nesting (snd f) <= 100)%nat) fs.
