(** C48: the bytes of messages. *)
From Coq Require Import String List NArith ZArith Bool Lia.
From Verif Require Import Base BaseFacts Utf8 Wire WireFacts ExtArgs Registry Bundled SpecBundled SpecWire WireSpecFacts.
Import ListNotations.
Local Open Scope string_scope.
Local Open Scope list_scope.
Local Open Scope N_scope.

(** Decoding accepts exactly the byte strings that are messages and gives the values the
    wire format gives them. *)
Theorem C48_decoding : forall sch b vs, NoDup (map fst sch) -> byte_list b ->
  (decode_message sch b = Some vs <-> message sch b vs).
Proof. exact decode_iff. Qed.

(** The same for the messages of the bundled extensions, with their field numbers. *)
Theorem C48_hint_bytes : forall b h, byte_list b ->
  (hint_from_any (mk_any (L "type.googleapis.com/example.PartitionHint") b) = Ok h <->
   message [(1, KEnums); (2, KInt64)] b [FEnums (ph_strategies h); FInt64 (ph_count h)]).
Proof.
  intros b h Hb. rewrite <- C48_decoding by (auto; repeat constructor; cbn; intuition discriminate).
  change (L "type.googleapis.com/example.PartitionHint") with (L hint_url). unfold hint_from_any, message_of_any. cbn [any_url any_value]. rewrite streqb_refl.
  destruct (decode_message [(1, KEnums); (2, KInt64)] b) as [vs|] eqn:E; fold hint_schema in E; rewrite E; cbn [rbind].
  - apply decode_bounded in E as [Hk _]; [|exact Hb]. destruct vs as [|[] [|[] [|]]]; try discriminate. cbn [hint_of_fields].
    destruct h as [l' z']. cbn [ph_strategies ph_count]. split; intros [= -> ->]; reflexivity.
  - split; discriminate.
Qed.
Theorem C48_plan_hint_bytes : forall b s, byte_list b ->
  (plan_hint_from_any (mk_any (L "type.googleapis.com/example.PlanHint") b) = Ok s <-> message [(1, KString)] b [FString s]).
Proof.
  intros b s Hb. rewrite <- C48_decoding by (auto; repeat constructor; cbn; intuition discriminate).
  change (L "type.googleapis.com/example.PlanHint") with (L plan_hint_url). unfold plan_hint_from_any, message_of_any. cbn [any_url any_value]. rewrite streqb_refl.
  destruct (decode_message [(1, KString)] b) as [vs|] eqn:E; fold plan_hint_schema in E; rewrite E; cbn [rbind].
  - apply decode_bounded in E as [Hk _]; [|exact Hb]. destruct vs as [|[] [|]]; try discriminate. cbn [plan_hint_of_fields].
    split; intros [= ->]; reflexivity.
  - split; discriminate.
Qed.
Theorem C48_blob_bytes : forall b m, byte_list b ->
  (blob_from_any (mk_any (L "type.googleapis.com/example.BlobStoreRead") b) = Ok m <->
   message [(1, KString); (2, KInt64); (3, KBool)] b [FString (br_path m); FInt64 (br_limit m); FBool (br_archived m)]).
Proof.
  intros b h Hb. rewrite <- C48_decoding by (auto; repeat constructor; cbn; intuition discriminate).
  change (L "type.googleapis.com/example.BlobStoreRead") with (L blob_url). unfold blob_from_any, message_of_any. cbn [any_url any_value]. rewrite streqb_refl.
  destruct (decode_message [(1, KString); (2, KInt64); (3, KBool)] b) as [vs|] eqn:E; fold blob_schema in E; rewrite E; cbn [rbind].
  - apply decode_bounded in E as [Hk _]; [|exact Hb]. destruct vs as [|[] [|[] [|[] [|]]]]; try discriminate. cbn [blob_of_fields].
    destruct h as [l' z' c']. cbn [br_path br_limit br_archived]. split; intros [= -> -> ->]; reflexivity.
  - split; discriminate.
Qed.

(** What is encoded is bytes, and a message with the given values. *)
Lemma varint_byte f : forall n, n < 2 * 128 ^ N.of_nat f -> byte_list (varint f n).
Proof.
  induction f as [|f IH]; intros n H; cbn [varint].
  - cbn in H. repeat constructor. lia.
  - destruct (N.ltb_spec n 128) as [C|C]; [repeat constructor; lia|]. pose proof (mod128 n). constructor; [lia|].
    apply IH. apply N.div_lt_upper_bound; [discriminate|]. rewrite Nat2N.inj_succ, N.pow_succ_r' in H. lia.
Qed.
Lemma encode_varint_byte n : n < 18446744073709551616 -> byte_list (encode_varint n).
Proof. exact (varint_byte 9 n). Qed.
Lemma encode_bytes_byte tag x : 1 <= tag < 536870912 -> byte_list x -> N.of_nat (length x) < 18446744073709551616 -> byte_list (encode_bytes tag x).
Proof.
  intros Ht Hx Hl. unfold encode_bytes, encode_key. rewrite !byte_app. repeat split; [apply encode_varint_byte; lia|now apply encode_varint_byte|exact Hx].
Qed.
Lemma encode_field_byte tag v : 1 <= tag < 536870912 -> field_ok v -> byte_list (encode_field tag v).
Proof.
  intros Ht Hv. destruct v as [s|z|c|l]; cbn [field_ok encode_field] in *.
  - destruct s as [|x s]; [constructor|]. apply encode_bytes_byte; [exact Ht|now apply utf8_bytes|apply Hv].
  - destruct (z =? 0)%Z; [constructor|]. unfold encode_key. rewrite byte_app. split; apply encode_varint_byte; [lia|apply to_u64_bound].
  - destruct c; [|constructor]. unfold encode_key. rewrite byte_app. split; apply encode_varint_byte; lia.
  - destruct l as [|x l]; [constructor|]. destruct Hv as [_ Hv]. apply encode_bytes_byte; [exact Ht| |].
    + clear. induction (x :: l) as [|y m IH]; cbn [map concat]; [constructor|]. rewrite byte_app. split; [apply encode_varint_byte, to_u64_bound|exact IH].
    + pose proof (packed_length (x :: l)). lia.
Qed.
Lemma encode_message_byte sch : forall vs, schema_ok sch -> message_ok sch vs -> byte_list (encode_message sch vs).
Proof.
  induction sch as [|[t k] sch IH]; intros [|v vs] [Hd Ht] [Hk Hv]; try discriminate; [constructor|].
  unfold encode_message. cbn [combine map concat fst snd]. cbn [map fst snd] in *. injection Hk as _ Hk.
  inversion Hd; subst. inversion Ht as [|? ? Ht1 Ht2]; subst. inversion Hv; subst. cbn [fst] in Ht1. rewrite byte_app. split.
  - apply encode_field_byte; auto.
  - apply IH; split; auto.
Qed.
(** The schemas here have numbers of at most 29 bits; values are those Rust has. *)
Theorem C48_encoding : forall sch vs, schema_ok sch -> message_ok sch vs ->
  byte_list (encode_message sch vs) /\ message sch (encode_message sch vs) vs.
Proof.
  intros sch vs Hs Hm. pose proof (encode_message_byte sch vs Hs Hm) as Hb. split; [exact Hb|].
  apply C48_decoding; [apply Hs|exact Hb|]. now apply decode_encode.
Qed.

(** The wire format gives a byte string one meaning at most. *)
Theorem C48_unambiguous : forall sch b vs vs', NoDup (map fst sch) -> byte_list b ->
  message sch b vs -> message sch b vs' -> vs = vs'.
Proof. intros sch b vs vs' Hd Hb H H'. apply C48_decoding in H; auto. apply C48_decoding in H'; auto. congruence. Qed.

(** Fields the reader does not know, and the way the records of the known fields are
    distributed among them, make no difference. *)
Theorem C48_unknown_fields : forall sch fs fs' b b' vs, NoDup (map fst sch) -> byte_list b -> byte_list b' ->
  records fs b -> records fs' b' ->
  (forall t, In t (map fst sch) -> with_tag t fs = with_tag t fs') ->
  Forall (fun f => (nesting (snd f) <= 100)%nat) fs -> Forall (fun f => (nesting (snd f) <= 100)%nat) fs' ->
  (decode_message sch b = Some vs <-> decode_message sch b' = Some vs).
Proof.
  assert (G : forall sch fs fs' b b' vs, NoDup (map fst sch) -> byte_list b -> byte_list b' -> records fs b -> records fs' b' ->
    (forall t, In t (map fst sch) -> with_tag t fs = with_tag t fs') ->
    Forall (fun f => (nesting (snd f) <= 100)%nat) fs -> Forall (fun f => (nesting (snd f) <= 100)%nat) fs' ->
    decode_message sch b = Some vs -> decode_message sch b' = Some vs).
  { intros sch fs fs' b b' vs Hd Hb Hb' Hr Hr' Ht Hn Hn' H. apply C48_decoding in H; auto. apply C48_decoding; auto.
    destruct H as (gs & Hg & HF & _). assert (gs = fs) as -> by (now apply (records_unique fs gs b)).
    exists fs'. split; [exact Hr'|]. split; [|apply Forall_impl with (2 := Hn'); auto].
    clear - HF Ht. induction HF as [|[t k] v sch vs Hv _ IH]; constructor.
    - cbn [fst snd] in *. rewrite <- Ht by now left. exact Hv.
    - apply IH. intros u Hu. apply Ht. now right. }
  intros sch fs fs' b b' vs Hd Hb Hb' Hr Hr' Ht Hn Hn'. split; [apply (G sch fs fs')|apply (G sch fs' fs)]; auto. intros t Hi. symmetry. auto.
Qed.

Section Examples.
  (** A field of each kind, an unknown group and a repeated field both single and packed. *)
  Definition wx_bytes : list N := [8; 1; 35; 8; 0; 36; 10; 2; 3; 2; 16; 8; 16; 9].
  Example wx_message : message [(1, KEnums); (2, KInt64)] wx_bytes [FEnums [1; 3; 2]%Z; FInt64 9].
  Proof. apply C48_decoding; [repeat constructor; cbn; intuition discriminate|repeat constructor|vm_compute; reflexivity]. Qed.
  (** Groups nested a hundred deep are skipped, no deeper. *)
  Definition wx_groups (n : nat) : list N := repeat 35 n ++ repeat 36 n.
  Example wx_nesting : decode_message [(1, KBool)] (wx_groups 100) = Some [FBool false] /\ decode_message [(1, KBool)] (wx_groups 101) = None.
  Proof. split; vm_compute; reflexivity. Qed.
  (** Any varint but zero is true, one of eleven bytes is none. *)
  Example wx_bool : decode_message [(1, KBool)] [8; 128; 2] = Some [FBool true] /\
    decode_message [(1, KBool)] [8; 128; 128; 128; 128; 128; 128; 128; 128; 128; 128; 0] = None.
  Proof. split; vm_compute; reflexivity. Qed.
End Examples.
