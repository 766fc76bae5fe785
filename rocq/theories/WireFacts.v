(** Decoding what was encoded. *)
From Coq Require Import List NArith ZArith Bool PeanoNat Lia.
From Verif Require Import Base Utf8 Wire.
Import ListNotations.
Local Open Scope N_scope.

(** ** Integers *)

Lemma i64_back z : (-9223372036854775808 <= z <= 9223372036854775807)%Z -> to_i64 (to_u64 z) = z.
Proof.
  intros H. unfold to_i64, to_u64. pose proof (Z.mod_pos_bound z 18446744073709551616 eq_refl) as B.
  rewrite Z2N.id by lia.
  destruct (Z.ltb_spec z 0) as [Hz|Hz].
  - assert (E : (z mod 18446744073709551616 = z + 18446744073709551616)%Z).
    { rewrite <- (Z.mod_add z 1 18446744073709551616) by discriminate. rewrite Z.mul_1_l. apply Z.mod_small. lia. }
    rewrite E in *. replace (_ <? _) with false by (symmetry; apply N.ltb_ge; lia). lia.
  - rewrite Z.mod_small by lia. replace (_ <? _) with true by (symmetry; apply N.ltb_lt; lia). reflexivity.
Qed.
Lemma i32_back z : (-2147483648 <= z <= 2147483647)%Z -> to_i32 (to_u64 z) = z.
Proof.
  intros H. unfold to_i32, to_u64.
  assert (E : Z.to_N (z mod 18446744073709551616) mod 4294967296 = Z.to_N (z mod 4294967296)).
  { change 4294967296 with (Z.to_N 4294967296) at 1. rewrite <- Z2N.inj_mod; [|apply Z.mod_pos_bound; reflexivity|lia].
    f_equal. change 18446744073709551616%Z with (4294967296 * 4294967296)%Z. rewrite Z.rem_mul_r by lia.
    rewrite (Z.mul_comm 4294967296 (_ mod _)), Z.mod_add by discriminate. apply Z.mod_mod. discriminate. }
  rewrite E. pose proof (Z.mod_pos_bound z 4294967296 eq_refl) as B. rewrite Z2N.id by lia.
  destruct (Z.ltb_spec z 0) as [Hz|Hz].
  - assert (E' : (z mod 4294967296 = z + 4294967296)%Z).
    { rewrite <- (Z.mod_add z 1 4294967296) by discriminate. rewrite Z.mul_1_l. apply Z.mod_small. lia. }
    rewrite E' in *. replace (_ <? _) with false by (symmetry; apply N.ltb_ge; lia). lia.
  - rewrite Z.mod_small by lia. replace (_ <? _) with true by (symmetry; apply N.ltb_lt; lia). reflexivity.
Qed.
Lemma to_u64_bound z : to_u64 z < 18446744073709551616.
Proof.
  unfold to_u64. pose proof (Z.mod_pos_bound z 18446744073709551616 eq_refl) as B. lia.
Qed.

(** ** Varints *)

Lemma mod128 n : 0 <= n mod 128 < 128.
Proof. split; [apply N.le_0_l|]. apply N.mod_lt. discriminate. Qed.
Lemma varint_back f : forall n r, n < 2 * 128 ^ N.of_nat f -> unvarint f (varint f n ++ r) = Some (n, r).
Proof.
  induction f as [|f IH]; intros n r H.
  - cbn in H. cbn [varint app unvarint]. replace (n <? 128) with true by (symmetry; apply N.ltb_lt; lia).
    replace (n <? 2) with true by (symmetry; apply N.ltb_lt; lia). reflexivity.
  - cbn [varint]. destruct (n <? 128) eqn:C.
    + cbn [app unvarint]. now rewrite C.
    + cbn [app unvarint]. pose proof (mod128 n).
      replace (_ <? 128) with false by (symmetry; apply N.ltb_ge; lia).
      rewrite IH.
      * f_equal. f_equal. pose proof (N.div_mod n 128). lia.
      * apply N.div_lt_upper_bound; [discriminate|]. rewrite Nat2N.inj_succ, N.pow_succ_r' in H. lia.
Qed.
Lemma decode_varint_back n r : n < 18446744073709551616 -> decode_varint (encode_varint n ++ r) = Some (n, r).
Proof. intros H. apply varint_back. exact H. Qed.
Lemma varint_cons f n : exists x l, varint f n = x :: l.
Proof. destruct f; cbn [varint]; [eauto|]. destruct (n <? 128); eauto. Qed.

Lemma unvarint_shrinks f : forall b v r, unvarint f b = Some (v, r) -> (length r < length b)%nat.
Proof.
  induction f as [|f IH]; intros [|x b] v r H; cbn [unvarint] in H; try discriminate; destruct (x <? 128); try discriminate.
  - destruct (x <? 2); [|discriminate]. injection H as _ <-. cbn [length]. lia.
  - injection H as _ <-. cbn [length]. lia.
  - destruct (unvarint f b) as [[v' r']|] eqn:E; [|discriminate]. injection H as _ <-. apply IH in E. cbn [length]. lia.
Qed.
Lemma decode_varint_shrinks b v r : decode_varint b = Some (v, r) -> (length r < length b)%nat.
Proof. apply unvarint_shrinks. Qed.
Lemma decode_key_shrinks b t w r : decode_key b = Some (t, w, r) -> (length r < length b)%nat.
Proof.
  unfold decode_key. destruct (decode_varint b) as [[k r']|] eqn:E; [|discriminate].
  destruct (_ || _ || _); [discriminate|]. intros H. injection H as _ _ <-. eapply decode_varint_shrinks; eauto.
Qed.
Lemma take_bytes_shrinks n b x r : take_bytes n b = Some (x, r) -> (length r <= length b)%nat.
Proof.
  unfold take_bytes. destruct (_ <? _); [discriminate|]. intros H. injection H as _ <-. rewrite skipn_length. lia.
Qed.
Lemma take_delimited_shrinks b x r : take_delimited b = Some (x, r) -> (length r < length b)%nat.
Proof.
  unfold take_delimited. destruct (decode_varint b) as [[n r']|] eqn:E; [|discriminate]. intros H.
  apply take_bytes_shrinks in H. apply decode_varint_shrinks in E. lia.
Qed.

Lemma decode_key_back tag wt r : 1 <= tag -> tag < 536870912 -> wt <= 5 -> decode_key (encode_key tag wt ++ r) = Some (tag, wt, r).
Proof.
  intros H1 H2 H3. unfold decode_key, encode_key. rewrite decode_varint_back by lia.
  assert (Hd : (tag * 8 + wt) / 8 = tag) by (rewrite N.add_comm, N.div_add, N.div_small by lia; lia).
  assert (Hm : (tag * 8 + wt) mod 8 = wt) by (rewrite N.add_comm, N.mod_add, N.mod_small by lia; lia).
  rewrite Hd, Hm. replace (4294967295 <? _) with false by (symmetry; apply N.ltb_ge; lia).
  replace (5 <? wt) with false by (symmetry; apply N.ltb_ge; lia). replace (tag <? 1) with false by (symmetry; apply N.ltb_ge; lia). reflexivity.
Qed.
Lemma take_bytes_back x r : take_bytes (N.of_nat (length x)) (x ++ r) = Some (x, r).
Proof.
  unfold take_bytes. rewrite app_length. replace (_ <? _) with false by (symmetry; apply N.ltb_ge; lia).
  rewrite Nat2N.id, firstn_app, skipn_app, Nat.sub_diag, firstn_all, skipn_all. cbn. now rewrite app_nil_r.
Qed.

(** ** Skipping *)

Lemma skip_fuel : forall n,
  (forall f f' d t w b, (length b <= n)%nat -> (2 * length b + 2 <= f)%nat -> (2 * length b + 2 <= f')%nat -> skip_field f d t w b = skip_field f' d t w b) /\
  (forall f f' d t b, (length b <= n)%nat -> (2 * length b + 1 <= f)%nat -> (2 * length b + 1 <= f')%nat -> skip_group f d t b = skip_group f' d t b) /\
  (forall f d t w b r, (length b <= n)%nat -> skip_field f d t w b = Some r -> (length r <= length b)%nat) /\
  (forall f d t b r, (length b <= n)%nat -> skip_group f d t b = Some r -> (length r < length b)%nat).
Proof.
  induction n as [|n (I1 & I2 & I3 & I4)].
  - assert (G2 : forall f f' d t b, (length b <= 0)%nat -> (2 * length b + 1 <= f)%nat -> (2 * length b + 1 <= f')%nat -> skip_group f d t b = skip_group f' d t b).
    { intros f f' d t [|x b] Hb; [|cbn in Hb; lia]. intros Hf Hf'. destruct f, f'; try (cbn in *; lia). reflexivity. }
    assert (G4 : forall f d t b r, (length b <= 0)%nat -> skip_group f d t b = Some r -> (length r < length b)%nat).
    { intros f d t [|x b] r Hb; [|cbn in Hb; lia]. destruct f; discriminate. }
    split; [|split; [exact G2|split; [|exact G4]]].
    + intros f f' d t w b Hb Hf Hf'. destruct f as [|f], f' as [|f']; try lia. destruct d; [reflexivity|]. cbn [skip_field].
      rewrite (G2 f f') by lia. reflexivity.
    + intros f d t w [|x b] r Hb; [|cbn in Hb; lia]. destruct f, d; try discriminate. cbn [skip_field].
      destruct (w =? 0), (w =? 1), (w =? 2), (w =? 3), (w =? 5); try discriminate; destruct f; discriminate.
  - assert (G2 : forall f f' d t b, (length b <= S n)%nat -> (2 * length b + 1 <= f)%nat -> (2 * length b + 1 <= f')%nat -> skip_group f d t b = skip_group f' d t b).
    { intros f f' d t b Hb Hf Hf'. destruct f as [|f], f' as [|f']; try lia. cbn [skip_group].
      destruct (decode_key b) as [[[t' w'] r]|] eqn:E; [|reflexivity]. apply decode_key_shrinks in E.
      destruct (w' =? 4); [reflexivity|]. rewrite (I1 f f') by lia.
      destruct (skip_field f' d t' w' r) as [r'|] eqn:E'; [|reflexivity]. apply I3 in E'; [|lia]. apply I2; lia. }
    assert (G4 : forall f d t b r, (length b <= S n)%nat -> skip_group f d t b = Some r -> (length r < length b)%nat).
    { intros f d t b r Hb H. destruct f as [|f]; [discriminate|]. cbn [skip_group] in H.
      destruct (decode_key b) as [[[t' w'] r1]|] eqn:E; [|discriminate]. apply decode_key_shrinks in E.
      destruct (w' =? 4). { destruct (t' =? t); [|discriminate]. injection H as <-. exact E. }
      destruct (skip_field f d t' w' r1) as [r'|] eqn:E'; [|discriminate]. apply I3 in E'; [|lia]. apply I4 in H; lia. }
    split; [|split; [exact G2|split; [|exact G4]]].
    + intros f f' d t w b Hb Hf Hf'. destruct f as [|f], f' as [|f']; try lia. destruct d; [reflexivity|]. cbn [skip_field].
      rewrite (G2 f f') by lia. reflexivity.
    + intros f d t w b r Hb H. destruct f as [|f], d as [|d]; try discriminate. cbn [skip_field] in H.
      destruct (w =? 0). { destruct (decode_varint b) as [[? ?]|] eqn:E; [|discriminate]. injection H as <-. apply decode_varint_shrinks in E. cbn [snd]. lia. }
      destruct (w =? 1). { destruct (take_bytes 8 b) as [[? ?]|] eqn:E; [|discriminate]. injection H as <-. now apply take_bytes_shrinks in E. }
      destruct (w =? 2). { destruct (take_delimited b) as [[? ?]|] eqn:E; [|discriminate]. injection H as <-. apply take_delimited_shrinks in E. cbn [snd]. lia. }
      destruct (w =? 3). { apply G4 in H; lia. }
      destruct (w =? 5); [|discriminate]. destruct (take_bytes 4 b) as [[? ?]|] eqn:E; [|discriminate]. injection H as <-. now apply take_bytes_shrinks in E.
Qed.
(** Fuel: more than [merge_field] gives makes no difference. *)
Lemma skip_field_fuel f d t w b : (2 * length b + 2 <= f)%nat -> skip_field f d t w b = skip_field (S (S (2 * length b))) d t w b.
Proof. intros H. destruct (skip_fuel (length b)) as (G & _). apply G; lia. Qed.

Lemma merge_value_shrinks v w b v' r : merge_value v w b = Some (v', r) -> (length r <= length b)%nat.
Proof.
  unfold merge_value. intros H. destruct v.
  - destruct (w =? 2); [|discriminate]. destruct (take_delimited b) as [[x r']|] eqn:E; [|discriminate].
    destruct (utf8_decode x); [|discriminate]. injection H as _ <-. apply take_delimited_shrinks in E. lia.
  - destruct (w =? 0); [|discriminate]. destruct (decode_varint b) as [[x r']|] eqn:E; [|discriminate].
    injection H as _ <-. apply decode_varint_shrinks in E. cbn [snd]. lia.
  - destruct (w =? 0); [|discriminate]. destruct (decode_varint b) as [[x r']|] eqn:E; [|discriminate].
    injection H as _ <-. apply decode_varint_shrinks in E. cbn [snd]. lia.
  - destruct (w =? 2).
    + destruct (take_delimited b) as [[x r']|] eqn:E; [|discriminate].
      destruct (unpack (length x) x); [|discriminate]. injection H as _ <-. apply take_delimited_shrinks in E. lia.
    + destruct (w =? 0); [|discriminate]. destruct (decode_varint b) as [[x r']|] eqn:E; [|discriminate].
      injection H as _ <-. apply decode_varint_shrinks in E. cbn [snd]. lia.
Qed.
Lemma merge_field_shrinks sch : forall vs t w b vs' r, merge_field sch vs t w b = Some (vs', r) -> (length r <= length b)%nat.
Proof.
  assert (G : forall (vs : list fval) t w b vs' r, option_map (fun r => (vs, r)) (skip_field (S (S (2 * length b))) recursion_limit t w b) = Some (vs', r) -> (length r <= length b)%nat).
  { intros vs t w b vs' r H. destruct (skip_field _ _ t w b) as [r'|] eqn:E in H; [|discriminate]. injection H as _ <-.
    destruct (skip_fuel (length b)) as (_ & _ & G & _). eapply G; eauto. }
  induction sch as [|[t0 k] sch IH]; intros vs t w b vs' r H; [exact (G _ _ _ _ _ _ H)|].
  destruct vs as [|v vs]; [exact (G _ _ _ _ _ _ H)|]. cbn [merge_field] in H. destruct (t0 =? t).
  - destruct (merge_value v w b) as [[v' r']|] eqn:E; [|discriminate]. injection H as _ <-. cbn [snd]. now apply merge_value_shrinks in E.
  - destruct (merge_field sch vs t w b) as [[v' r']|] eqn:E; [|discriminate]. injection H as _ <-. cbn [snd]. now apply IH in E.
Qed.
Lemma merge_fields_fuel sch : forall f f' vs b, (length b <= f)%nat -> (length b <= f')%nat -> merge_fields f sch vs b = merge_fields f' sch vs b.
Proof.
  induction f as [|f IH]; intros f' vs b Hf Hf'.
  - destruct b; [|cbn in Hf; lia]. destruct f'; reflexivity.
  - destruct b as [|x b]; [destruct f'; reflexivity|]. destruct f' as [|f']; [cbn in Hf'; lia|]. cbn [merge_fields].
    destruct (decode_key (x :: b)) as [[[t w] r]|] eqn:E; [|reflexivity]. apply decode_key_shrinks in E.
    destruct (merge_field sch vs t w r) as [[vs' r']|] eqn:E'; [|reflexivity]. apply merge_field_shrinks in E'. apply IH; lia.
Qed.

(** ** Fields *)

Definition kind_of (v : fval) : kind :=
  match v with FString _ => KString | FInt64 _ => KInt64 | FBool _ => KBool | FEnums _ => KEnums end.
(** The values a field can have: strings of scalar values, integers in range, and no
    longer than a length can say. *)
Definition field_ok (v : fval) : Prop :=
  match v with
  | FString s => Forall (fun c => scalar c = true) s /\ N.of_nat (length (utf8_encode s)) < 18446744073709551616
  | FInt64 z => (-9223372036854775808 <= z <= 9223372036854775807)%Z
  | FBool _ => True
  | FEnums l => Forall (fun z => -2147483648 <= z <= 2147483647)%Z l /\ N.of_nat (10 * length l) < 18446744073709551616
  end.

Lemma varint_length f n : (length (varint f n) <= S f)%nat.
Proof.
  revert n. induction f as [|f IH]; intros n; cbn [varint]; [cbn; lia|]. destruct (n <? 128); cbn [length]; [lia|]. specialize (IH (n / 128)). lia.
Qed.
Lemma packed_length (l : list Z) : (length (concat (map (fun z => encode_varint (to_u64 z)) l)) <= 10 * length l)%nat.
Proof.
  induction l as [|z l IH]; [cbn; lia|]. cbn [map concat length]. rewrite app_length. pose proof (varint_length 9 (to_u64 z)). unfold encode_varint at 1. lia.
Qed.
Lemma unpack_back l : Forall (fun z => -2147483648 <= z <= 2147483647)%Z l ->
  forall f, (length (concat (map (fun z => encode_varint (to_u64 z)) l)) <= f)%nat ->
  unpack f (concat (map (fun z => encode_varint (to_u64 z)) l)) = Some l.
Proof.
  induction 1 as [|z l Hz _ IH]; intros f Hf; [destruct f; reflexivity|]. cbn [map concat] in *. rewrite app_length in Hf.
  pose proof (decode_varint_back (to_u64 z) (concat (map (fun z => encode_varint (to_u64 z)) l)) (to_u64_bound z)) as E.
  assert (Hl : (0 < length (encode_varint (to_u64 z)))%nat).
  { unfold encode_varint. destruct (varint_cons 9 (to_u64 z)) as (x & t & ->). cbn. lia. }
  destruct (encode_varint (to_u64 z)) as [|x y] eqn:Ev; [cbn in Hl; lia|]. cbn [app] in *. destruct f as [|f]; [cbn in Hf; lia|].
  cbn [unpack]. rewrite E. rewrite IH by (cbn [length] in Hf; lia). cbn [option_map]. now rewrite i32_back.
Qed.

Lemma take_delimited_back x r : N.of_nat (length x) < 18446744073709551616 ->
  take_delimited (encode_varint (N.of_nat (length x)) ++ x ++ r) = Some (x, r).
Proof. intros H. unfold take_delimited. rewrite decode_varint_back by exact H. apply take_bytes_back. Qed.

(** A field that was left out is the default one; any other is read back. *)
Lemma field_back tag v r : field_ok v ->
  encode_field tag v = [] /\ v = default_of (kind_of v) \/
  exists w b, encode_field tag v ++ r = encode_key tag w ++ b /\ w <= 5 /\ merge_value (default_of (kind_of v)) w b = Some (v, r).
Proof.
  intros H. destruct v as [s|z|b|l]; cbn [encode_field kind_of default_of].
  - destruct H as [Hs Hl]. destruct s as [|c s]; [now left|]. right. exists 2, (encode_varint (N.of_nat (length (utf8_encode (c :: s)))) ++ utf8_encode (c :: s) ++ r).
    split; [unfold encode_bytes; now rewrite <- !app_assoc|]. split; [lia|]. unfold merge_value.
    rewrite take_delimited_back by exact Hl. rewrite utf8_decode_encode by exact Hs. reflexivity.
  - destruct (Z.eqb_spec z 0) as [->|Hz]; [now left|]. right. exists 0, (encode_varint (to_u64 z) ++ r).
    split; [now rewrite <- app_assoc|]. split; [lia|]. unfold merge_value. rewrite decode_varint_back by apply to_u64_bound.
    cbn [option_map fst snd N.eqb]. now rewrite i64_back.
  - destruct b; [|now left]. right. exists 0, (encode_varint 1 ++ r). split; [now rewrite <- app_assoc|]. split; [lia|]. reflexivity.
  - destruct H as [Hr Hl]. destruct l as [|z l]; [now left|]. right. set (x := concat (map (fun z => encode_varint (to_u64 z)) (z :: l))).
    exists 2, (encode_varint (N.of_nat (length x)) ++ x ++ r). split; [unfold encode_bytes; now rewrite <- !app_assoc|]. split; [lia|].
    unfold merge_value. rewrite take_delimited_back. 2:{ pose proof (packed_length (z :: l)). fold x in H. lia. }
    cbn [N.eqb Pos.eqb]. unfold x. rewrite unpack_back; auto.
Qed.

(** ** Messages *)

Definition message_ok (sch : schema) (vs : list fval) : Prop :=
  map snd sch = map kind_of vs /\ Forall field_ok vs.
Definition schema_ok (sch : schema) : Prop :=
  NoDup (map fst sch) /\ Forall (fun p => 1 <= fst p /\ fst p < 536870912) sch.

Lemma merge_at sch0 : forall vs0 tag k sch1 v vs1 w b v' r, length sch0 = length vs0 -> ~ In tag (map fst sch0) ->
  merge_value v w b = Some (v', r) ->
  merge_field (sch0 ++ (tag, k) :: sch1) (vs0 ++ v :: vs1) tag w b = Some (vs0 ++ v' :: vs1, r).
Proof.
  induction sch0 as [|[t k0] sch0 IH]; intros [|v0 vs0] tag k sch1 v vs1 w b v' r Hl Hn Hm; try discriminate; cbn [app merge_field].
  - rewrite N.eqb_refl, Hm. reflexivity.
  - cbn [map fst In] in Hn. replace (t =? tag) with false by (symmetry; apply N.eqb_neq; intuition).
    rewrite (IH vs0 tag k sch1 v vs1 w b v' r) by (cbn in Hl; intuition). reflexivity.
Qed.

Lemma message_back sch1 : forall sch0 vs0 vs1, schema_ok (sch0 ++ sch1) -> length sch0 = length vs0 -> message_ok sch1 vs1 ->
  forall f, (length (encode_message sch1 vs1) <= f)%nat ->
  merge_fields f (sch0 ++ sch1) (vs0 ++ map (fun p => default_of (snd p)) sch1) (encode_message sch1 vs1) = Some (vs0 ++ vs1).
Proof.
  induction sch1 as [|[tag k] sch1 IH]; intros sch0 vs0 vs1 Hs Hl [Hk Ho] f Hf.
  - destruct vs1; [|discriminate]. destruct f; reflexivity.
  - destruct vs1 as [|v vs1]; [discriminate|]. cbn [map snd] in Hk. injection Hk as -> Hk. inversion Ho as [|? ? Hv Ho']; subst.
    assert (Hs' : schema_ok ((sch0 ++ [(tag, kind_of v)]) ++ sch1)) by now rewrite <- app_assoc.
    assert (Hn : ~ In tag (map fst sch0)).
    { destruct Hs as [Hs _]. rewrite map_app in Hs. cbn [map fst] in Hs. apply NoDup_remove_2 in Hs. intros Hi. apply Hs, in_or_app. now left. }
    assert (Ht : 1 <= tag /\ tag < 536870912).
    { destruct Hs as [_ Hs]. apply Forall_app in Hs as [_ Hs]. inversion Hs; subst. assumption. }
    assert (Hl' : length (sch0 ++ [(tag, kind_of v)]) = length (vs0 ++ [v])) by (rewrite !app_length; cbn; lia).
    specialize (IH (sch0 ++ [(tag, kind_of v)]) (vs0 ++ [v]) vs1 Hs' Hl' (conj Hk Ho')). rewrite <- !app_assoc in IH. cbn [app] in IH.
    change (encode_message ((tag, kind_of v) :: sch1) (v :: vs1)) with (encode_field tag v ++ encode_message sch1 vs1) in *.
    cbn [map snd]. destruct (field_back tag v (encode_message sch1 vs1) Hv) as [[E D]|(w & b & E & Hw & Hm)].
    + rewrite E in *. cbn [app] in *. rewrite <- D. now apply IH.
    + rewrite E in *. assert (Hb : decode_key (encode_key tag w ++ b) = Some (tag, w, b)) by (apply decode_key_back; tauto).
      pose proof (decode_key_shrinks _ _ _ _ Hb) as Hlt. destruct f as [|f]; [lia|].
      destruct (encode_key tag w ++ b) as [|x y] eqn:Ex; [cbn in Hlt; lia|]. cbn [merge_fields]. rewrite Hb.
      rewrite (merge_at sch0 vs0 tag (kind_of v) sch1 _ _ w b v (encode_message sch1 vs1)) by auto.
      apply IH. apply merge_value_shrinks in Hm. lia.
Qed.

(** What is encoded is decoded again. *)
Theorem decode_encode sch vs : schema_ok sch -> message_ok sch vs -> decode_message sch (encode_message sch vs) = Some vs.
Proof. intros Hs Hm. unfold decode_message. exact (message_back sch [] [] vs Hs eq_refl Hm _ (le_n _)). Qed.

(** ** Whatever was decoded *)

(** A value within its range and no longer than [n]. *)
Definition bounded (n : nat) (v : fval) : Prop :=
  match v with
  | FString s => Forall (fun c => scalar c = true) s /\ (length (utf8_encode s) <= n)%nat
  | FInt64 z => (-9223372036854775808 <= z <= 9223372036854775807)%Z
  | FBool _ => True
  | FEnums l => Forall (fun z => -2147483648 <= z <= 2147483647)%Z l /\ (length l <= n)%nat
  end.
Notation byte_list := (Forall (fun x => x < 256)).

Lemma unvarint_bytes f : forall b v r, byte_list b -> unvarint f b = Some (v, r) -> v < 2 * 128 ^ N.of_nat f /\ byte_list r.
Proof.
  induction f as [|f IH]; intros [|x b] v r Hb H; cbn [unvarint] in H; try discriminate; inversion Hb as [|? ? Hx Hb']; subst; destruct (x <? 128) eqn:C; try discriminate.
  - destruct (x <? 2) eqn:C2; [|discriminate]. injection H as <- <-. apply N.ltb_lt in C2. cbn. auto.
  - injection H as <- <-. apply N.ltb_lt in C. split; [|exact Hb']. rewrite Nat2N.inj_succ, N.pow_succ_r'.
    assert (0 < 128 ^ N.of_nat f) by (apply N.neq_0_lt_0, N.pow_nonzero; discriminate). lia.
  - destruct (unvarint f b) as [[v' r']|] eqn:E; [|discriminate]. injection H as <- <-. apply IH in E as [E1 E2]; [|exact Hb'].
    split; [|exact E2]. rewrite Nat2N.inj_succ, N.pow_succ_r'. apply N.ltb_ge in C. cbv beta in Hx. change (x - 128 + 128 * v' < 2 * (128 * 128 ^ N.of_nat f)). lia.
Qed.
Lemma decode_varint_bytes b v r : byte_list b -> decode_varint b = Some (v, r) -> v < 18446744073709551616 /\ byte_list r.
Proof. intros Hb H. exact (unvarint_bytes 9 b v r Hb H). Qed.
Lemma decode_key_bytes b t w r : byte_list b -> decode_key b = Some (t, w, r) -> byte_list r.
Proof.
  unfold decode_key. intros Hb. destruct (decode_varint b) as [[k r']|] eqn:E; [|discriminate].
  destruct (_ || _ || _); [discriminate|]. intros H. injection H as _ _ <-. now apply decode_varint_bytes in E.
Qed.
Lemma take_bytes_bytes n b x r : byte_list b -> take_bytes n b = Some (x, r) -> (length x + length r = length b)%nat /\ byte_list x /\ byte_list r.
Proof.
  unfold take_bytes. intros Hb. destruct (_ <? _); [discriminate|]. intros H. injection H as <- <-.
  rewrite <- (firstn_skipn (N.to_nat n) b), Forall_app in Hb. split; [|exact Hb]. rewrite <- app_length. now rewrite firstn_skipn.
Qed.
Lemma take_delimited_bytes b x r : byte_list b -> take_delimited b = Some (x, r) -> (length x + length r <= length b)%nat /\ byte_list x /\ byte_list r.
Proof.
  unfold take_delimited. intros Hb. destruct (decode_varint b) as [[n r']|] eqn:E; [|discriminate]. intros H.
  pose proof (decode_varint_shrinks _ _ _ E). apply decode_varint_bytes in E as [_ E]; [|exact Hb].
  apply take_bytes_bytes in H as (H1 & H2); [|exact E]. split; [lia|exact H2].
Qed.
Lemma skip_bytes : forall f,
  (forall d t w b r, byte_list b -> skip_field f d t w b = Some r -> byte_list r) /\
  (forall d t b r, byte_list b -> skip_group f d t b = Some r -> byte_list r).
Proof.
  induction f as [|f [I1 I2]]; [split; intros; discriminate|]. split.
  - intros d t w b r Hb H. destruct d as [|d]; [discriminate|]. cbn [skip_field] in H.
    destruct (w =? 0). { destruct (decode_varint b) as [[? ?]|] eqn:E; [|discriminate]. injection H as <-. now apply decode_varint_bytes in E. }
    destruct (w =? 1). { destruct (take_bytes 8 b) as [[? ?]|] eqn:E; [|discriminate]. injection H as <-. now apply take_bytes_bytes in E. }
    destruct (w =? 2). { destruct (take_delimited b) as [[? ?]|] eqn:E; [|discriminate]. injection H as <-. now apply take_delimited_bytes in E. }
    destruct (w =? 3); [eauto|].
    destruct (w =? 5); [|discriminate]. destruct (take_bytes 4 b) as [[? ?]|] eqn:E; [|discriminate]. injection H as <-. now apply take_bytes_bytes in E.
  - intros d t b r Hb H. cbn [skip_group] in H. destruct (decode_key b) as [[[t' w'] r1]|] eqn:E; [|discriminate].
    apply decode_key_bytes in E; [|exact Hb]. destruct (w' =? 4). { destruct (t' =? t); [|discriminate]. now injection H as <-. }
    destruct (skip_field f d t' w' r1) as [r'|] eqn:E'; [|discriminate]. eauto.
Qed.
Lemma to_i64_range n : n < 18446744073709551616 -> (-9223372036854775808 <= to_i64 n <= 9223372036854775807)%Z.
Proof. intros H. unfold to_i64. destruct (n <? _) eqn:C; [apply N.ltb_lt in C|apply N.ltb_ge in C]; lia. Qed.
Lemma to_i32_range n : (-2147483648 <= to_i32 n <= 2147483647)%Z.
Proof.
  unfold to_i32. assert (n mod 4294967296 < 4294967296) by (apply N.mod_lt; discriminate).
  generalize dependent (n mod 4294967296). intros m H. destruct (m <? _) eqn:C; [apply N.ltb_lt in C|apply N.ltb_ge in C]; lia.
Qed.
Lemma unpack_range f : forall b l, unpack f b = Some l -> Forall (fun z => -2147483648 <= z <= 2147483647)%Z l /\ (length l <= length b)%nat.
Proof.
  induction f as [|f IH]; intros [|x b] l H; cbn [unpack] in H; try discriminate; try (injection H as <-; split; [constructor|cbn; lia]).
  destruct (decode_varint (x :: b)) as [[n r]|] eqn:E; [|discriminate]. destruct (unpack f r) as [l'|] eqn:E'; [|discriminate].
  injection H as <-. apply IH in E' as [E1 E2]. apply decode_varint_shrinks in E. split; [constructor; [apply to_i32_range|exact E1]|]. cbn [length] in *. lia.
Qed.

Lemma bounded_le n m v : (n <= m)%nat -> bounded n v -> bounded m v.
Proof. intros H. destruct v; cbn [bounded]; intuition lia. Qed.

Lemma merge_value_bounded n v w b v' r : byte_list b -> bounded n v -> merge_value v w b = Some (v', r) ->
  byte_list r /\ kind_of v' = kind_of v /\ bounded (n + (length b - length r)) v'.
Proof.
  intros Hb Hv H. unfold merge_value in H. destruct v as [s|z|c|l]; cbn [bounded kind_of] in *.
  - destruct (w =? 2); [|discriminate]. destruct (take_delimited b) as [[x r']|] eqn:E; [|discriminate].
    destruct (utf8_decode x) as [s'|] eqn:Es; [|discriminate]. injection H as <- <-. apply take_delimited_bytes in E as (E1 & E2 & E3); [|exact Hb].
    apply utf8_encode_decode in Es as [Es1 Es2]. split; [exact E3|]. split; [reflexivity|]. split; [exact Es2|]. rewrite Es1. lia.
  - destruct (w =? 0); [|discriminate]. destruct (decode_varint b) as [[x r']|] eqn:E; [|discriminate].
    injection H as <- <-. apply decode_varint_bytes in E as [E1 E2]; [|exact Hb]. split; [exact E2|]. split; [reflexivity|]. now apply to_i64_range.
  - destruct (w =? 0); [|discriminate]. destruct (decode_varint b) as [[x r']|] eqn:E; [|discriminate].
    injection H as <- <-. apply decode_varint_bytes in E as [E1 E2]; [|exact Hb]. split; [exact E2|]. split; reflexivity.
  - destruct Hv as [Hv Hn]. destruct (w =? 2).
    + destruct (take_delimited b) as [[x r']|] eqn:E; [|discriminate].
      destruct (unpack (length x) x) as [l'|] eqn:El; [|discriminate]. injection H as <- <-. apply take_delimited_bytes in E as (E1 & E2 & E3); [|exact Hb].
      apply unpack_range in El as [El1 El2]. split; [exact E3|]. split; [reflexivity|]. split; [apply Forall_app; auto|]. rewrite app_length. lia.
    + destruct (w =? 0); [|discriminate]. destruct (decode_varint b) as [[x r']|] eqn:E; [|discriminate].
      injection H as <- <-. cbn [fst snd]. pose proof (decode_varint_shrinks _ _ _ E). apply decode_varint_bytes in E as [E1 E2]; [|exact Hb]. split; [exact E2|]. split; [reflexivity|].
      split; [apply Forall_app; split; [exact Hv|repeat constructor; apply to_i32_range]|]. rewrite app_length. cbn [length]. lia.
Qed.
Lemma merge_field_bounded n sch : forall vs t w b vs' r, byte_list b -> Forall (bounded n) vs -> merge_field sch vs t w b = Some (vs', r) ->
  byte_list r /\ map kind_of vs' = map kind_of vs /\ Forall (bounded (n + (length b - length r))) vs'.
Proof.
  assert (G : forall (vs : list fval) t w b vs' r, byte_list b -> Forall (bounded n) vs ->
    option_map (fun r => (vs, r)) (skip_field (S (S (2 * length b))) recursion_limit t w b) = Some (vs', r) ->
    byte_list r /\ map kind_of vs' = map kind_of vs /\ Forall (bounded (n + (length b - length r))) vs').
  { intros vs t w b vs' r Hb Hv H. destruct (skip_field _ _ t w b) as [r'|] eqn:E in H; [|discriminate]. injection H as <- <-.
    split; [exact (proj1 (skip_bytes _) _ _ _ _ _ Hb E)|]. split; [reflexivity|]. eapply Forall_impl; [|exact Hv]. intros v. apply bounded_le. lia. }
  induction sch as [|[t0 k] sch IH]; intros vs t w b vs' r Hb Hv H; [exact (G _ _ _ _ _ _ Hb Hv H)|].
  destruct vs as [|v vs]; [exact (G _ _ _ _ _ _ Hb Hv H)|]. cbn [merge_field] in H. inversion Hv as [|? ? Hv1 Hv2]; subst. destruct (t0 =? t).
  - destruct (merge_value v w b) as [[v' r']|] eqn:E; [|discriminate]. injection H as <- <-. cbn [fst snd].
    destruct (merge_value_bounded n v w b v' r' Hb Hv1 E) as (E1 & E2 & E3). split; [exact E1|]. cbn [map]. rewrite E2. split; [reflexivity|].
    constructor; [exact E3|]. eapply Forall_impl; [|exact Hv2]. intros x. apply bounded_le. lia.
  - destruct (merge_field sch vs t w b) as [[v' r']|] eqn:E; [|discriminate]. injection H as <- <-. cbn [fst snd].
    destruct (IH vs t w b v' r' Hb Hv2 E) as (E1 & E2 & E3). split; [exact E1|]. cbn [map]. rewrite E2. split; [reflexivity|].
    constructor; [|exact E3]. eapply bounded_le; [|exact Hv1]. lia.
Qed.
Lemma merge_fields_bounded sch : forall f n vs b vs', byte_list b -> Forall (bounded n) vs -> merge_fields f sch vs b = Some vs' ->
  map kind_of vs' = map kind_of vs /\ Forall (bounded (n + length b)) vs'.
Proof.
  induction f as [|f IH]; intros n vs [|x b] vs' Hb Hv H; cbn [merge_fields] in H; try discriminate;
    try (injection H as <-; split; [reflexivity|]; eapply Forall_impl; [|exact Hv]; intros v; apply bounded_le; lia).
  destruct (decode_key (x :: b)) as [[[t w] r]|] eqn:E; [|discriminate]. pose proof (decode_key_shrinks _ _ _ _ E) as Hs.
  apply decode_key_bytes in E; [|exact Hb].
  destruct (merge_field sch vs t w r) as [[vs1 r']|] eqn:E1; [|discriminate]. pose proof (merge_field_shrinks _ _ _ _ _ _ _ E1) as Hs1.
  apply merge_field_bounded with (n := n) in E1 as (F1 & F2 & F3); [|exact E|exact Hv].
  destruct (IH _ _ _ _ F1 F3 H) as [G1 G2]. split; [congruence|]. eapply Forall_impl; [|exact G2]. intros v. apply bounded_le. lia.
Qed.
(** Whatever bytes are decoded, the values are of the right kinds and in range. *)
Lemma decode_bounded sch b vs : byte_list b -> decode_message sch b = Some vs ->
  map kind_of vs = map snd sch /\ Forall (bounded (length b)) vs.
Proof.
  intros Hb H. unfold decode_message in H. apply merge_fields_bounded with (n := 0%nat) in H; [|exact Hb|].
  - destruct H as [H1 H2]. split; [|exact H2]. rewrite H1. rewrite map_map. apply map_ext. intros [t k]. now destruct k.
  - apply Forall_map, Forall_forall. intros [t k] _. destruct k; cbn; try (split; [constructor|lia]); try lia; auto.
Qed.
Lemma bounded_ok n v : N.of_nat (10 * n) < 18446744073709551616 -> bounded n v -> field_ok v.
Proof. intros Hn. destruct v; cbn [bounded field_ok]; intuition lia. Qed.
