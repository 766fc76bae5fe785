(** The decoder of Wire.v decodes exactly what SpecWire.v says. *)
From Coq Require Import List NArith ZArith Bool Lia PeanoNat.
From Verif Require Import Base Utf8 Wire WireFacts SpecBundled SpecWire.
Import ListNotations.
Local Open Scope N_scope.

(** ** Integers and keys *)

Lemma unvarint_base128 f : forall v n r, base128 v n -> (length v <= S f)%nat -> n < 2 * 128 ^ N.of_nat f ->
  unvarint f (v ++ r) = Some (n, r).
Proof.
  induction f as [|f IH]; intros v n r Hv Hl Hn; destruct Hv as [x Hx|x v n Hx Hv]; cbn [app unvarint].
  - replace (x <? 128) with true by (symmetry; now apply N.ltb_lt). cbn in Hn.
    replace (x <? 2) with true by (symmetry; apply N.ltb_lt; lia). reflexivity.
  - destruct Hv; cbn in Hl; lia.
  - replace (x <? 128) with true by (symmetry; now apply N.ltb_lt). reflexivity.
  - replace (x + 128 <? 128) with false by (symmetry; apply N.ltb_ge; lia).
    rewrite (IH v n r Hv); [|cbn in Hl; lia|].
    + do 2 f_equal. lia.
    + rewrite Nat2N.inj_succ, N.pow_succ_r' in Hn. lia.
Qed.
Lemma base128_unvarint f : forall b n r, byte_list b -> unvarint f b = Some (n, r) ->
  exists v, b = v ++ r /\ base128 v n /\ (length v <= S f)%nat.
Proof.
  induction f as [|f IH]; intros [|x b] n r Hb H; cbn [unvarint] in H; try discriminate; inversion Hb as [|? ? Hx Hb']; subst;
    cbv beta in Hx; destruct (N.ltb_spec x 128) as [C|C]; try discriminate.
  - destruct (x <? 2); [|discriminate]. injection H as <- <-. exists [x]. cbn. repeat split; [now constructor|lia].
  - injection H as <- <-. exists [x]. cbn. repeat split; [now constructor|lia].
  - destruct (unvarint f b) as [[n' r']|] eqn:E; [|discriminate]. apply IH in E as (v & -> & Hv & Hl); [|exact Hb'].
    assert (En : n = (x - 128 + 128 * n')) by congruence. assert (r' = r) by congruence. subst n r'.
    exists (x :: v). cbn [app length]. repeat split; [|lia]. replace x with (x - 128 + 128) at 1 by lia. constructor; [lia|exact Hv].
Qed.
Lemma decode_varint_iff b n r : byte_list b ->
  (decode_varint b = Some (n, r) <-> exists v, b = v ++ r /\ varint_bytes v n).
Proof.
  intros Hb. split.
  - intros H. destruct (decode_varint_bytes _ _ _ Hb H) as [Hn _]. apply base128_unvarint in H as (v & -> & Hv & Hl); [|exact Hb].
    exists v. repeat split; auto.
  - intros (v & -> & Hv & Hl & Hn). apply unvarint_base128; auto.
Qed.
Lemma varint_bytes_nonempty v n : varint_bytes v n -> (1 <= length v)%nat.
Proof. intros [H _]. destruct H; cbn; lia. Qed.

Lemma key_parts tag wt : wt <= 5 -> (tag * 8 + wt) / 8 = tag /\ (tag * 8 + wt) mod 8 = wt.
Proof.
  intros H. split.
  - rewrite N.add_comm, N.div_add, N.div_small by lia. lia.
  - rewrite N.add_comm, N.mod_add, N.mod_small by lia. lia.
Qed.
Lemma decode_key_iff b t w r : byte_list b ->
  (decode_key b = Some (t, w, r) <-> exists k, b = k ++ r /\ key_bytes k t w /\ w <= 5).
Proof.
  intros Hb. unfold decode_key. split.
  - destruct (decode_varint b) as [[k r']|] eqn:E; [|discriminate].
    destruct ((4294967295 <? k) || (5 <? k mod 8) || (k / 8 <? 1)) eqn:C; [discriminate|].
    intros H. assert (t = k / 8) by congruence. assert (w = k mod 8) by congruence. assert (r' = r) by congruence. subst t w r'. clear H.
    apply orb_false_iff in C as [C C3]. apply orb_false_iff in C as [C1 C2].
    apply N.ltb_ge in C1. apply N.ltb_ge in C2. apply N.ltb_ge in C3.
    apply decode_varint_iff in E as (v & -> & Hv); [|exact Hb]. exists v. split; [reflexivity|]. split; [|exact C2].
    assert (Ek : k / 8 * 8 + k mod 8 = k) by (rewrite N.mul_comm; symmetry; now apply N.div_mod).
    unfold key_bytes. rewrite Ek. repeat split; try apply Hv; [exact C3|]. change (2 ^ 32) with 4294967296. lia.
  - intros (k & -> & (H1 & H2 & Hk) & Hw).
    replace (decode_varint (k ++ r)) with (Some (t * 8 + w, r)) by (symmetry; apply decode_varint_iff; [exact Hb|eauto]).
    destruct (key_parts t w Hw) as [-> ->]. change (2 ^ 32) with 4294967296 in H2.
    replace (4294967295 <? t * 8 + w) with false by (symmetry; apply N.ltb_ge; lia).
    replace (5 <? w) with false by (symmetry; apply N.ltb_ge; lia).
    replace (t <? 1) with false by (symmetry; apply N.ltb_ge; lia). reflexivity.
Qed.

Lemma take_bytes_iff n b x r : take_bytes n b = Some (x, r) <-> b = x ++ r /\ N.of_nat (length x) = n.
Proof.
  split.
  - unfold take_bytes. destruct (N.ltb_spec (N.of_nat (length b)) n) as [|C]; [discriminate|]. intros [= <- <-].
    split; [now rewrite firstn_skipn|]. rewrite firstn_length. lia.
  - intros [-> <-]. apply take_bytes_back.
Qed.
Lemma take_delimited_iff b x r : byte_list b ->
  (take_delimited b = Some (x, r) <-> exists v, b = v ++ x ++ r /\ varint_bytes v (N.of_nat (length x))).
Proof.
  intros Hb. unfold take_delimited. split.
  - destruct (decode_varint b) as [[n r']|] eqn:E; [|discriminate]. intros H. apply take_bytes_iff in H as [-> <-].
    apply decode_varint_iff in E as (v & -> & Hv); [|exact Hb]. eauto.
  - intros (v & -> & Hv).
    replace (decode_varint (v ++ x ++ r)) with (Some (N.of_nat (length x), x ++ r)) by (symmetry; apply decode_varint_iff; [exact Hb|eauto]).
    apply take_bytes_iff. auto.
Qed.

(** ** Skipping *)

Scheme payload_bytes_min := Minimality for payload_bytes Sort Prop
  with records_min := Minimality for records Sort Prop.
Combined Scheme wire_min from payload_bytes_min, records_min.

Definition nestings (fs : list (N * payload)) : nat := fold_right Nat.max O (map (fun f => nesting (snd f)) fs).
Lemma nesting_pos p : (1 <= nesting p)%nat.
Proof. destruct p; cbn [nesting]; lia. Qed.
Lemma byte_app a b : byte_list (a ++ b) <-> byte_list a /\ byte_list b.
Proof. apply Forall_app. Qed.

Lemma skip_complete :
  (forall t p x, payload_bytes t p x -> forall f d r, byte_list (x ++ r) -> (nesting p <= d)%nat -> (2 * length x + 2 <= f)%nat ->
     skip_field f d t (wire_type p) (x ++ r) = Some r) /\
  (forall fs x, records fs x -> forall f d t k r, byte_list (x ++ k ++ r) -> (nestings fs <= d)%nat -> key_bytes k t 4 ->
     (2 * length x + 2 * length k + 1 <= f)%nat -> skip_group f d t (x ++ k ++ r) = Some r).
Proof.
  apply wire_min.
  - intros t n b Hv f d r Hb Hd Hf. destruct f as [|f]; [lia|]. destruct d as [|d]; [cbn in Hd; lia|]. cbn [skip_field wire_type]. cbn [N.eqb].
    replace (decode_varint (b ++ r)) with (Some (n, r)) by (symmetry; apply decode_varint_iff; [exact Hb|eauto]). reflexivity.
  - intros t b Hl f d r Hb Hd Hf. destruct f as [|f]; [lia|]. destruct d as [|d]; [cbn in Hd; lia|]. cbn [skip_field wire_type]. cbn [N.eqb Pos.eqb].
    replace (take_bytes 8 (b ++ r)) with (Some (b, r)) by (symmetry; apply take_bytes_iff; rewrite Hl; auto). reflexivity.
  - intros t v b Hv f d r Hb Hd Hf. destruct f as [|f]; [lia|]. destruct d as [|d]; [cbn in Hd; lia|]. cbn [skip_field wire_type]. cbn [N.eqb Pos.eqb].
    rewrite <- app_assoc in *.
    replace (take_delimited (v ++ b ++ r)) with (Some (b, r)) by (symmetry; apply take_delimited_iff; [exact Hb|eauto]). reflexivity.
  - intros t fs b k _ IH Hk f d r Hb Hd Hf. destruct f as [|f]; [lia|]. cbn [nesting] in Hd. destruct d as [|d]; [lia|].
    cbn [skip_field wire_type]. cbn [N.eqb Pos.eqb]. rewrite <- app_assoc in *. rewrite app_length in Hf.
    apply IH; auto; unfold nestings; lia.
  - intros t b Hl f d r Hb Hd Hf. destruct f as [|f]; [lia|]. destruct d as [|d]; [cbn in Hd; lia|]. cbn [skip_field wire_type]. cbn [N.eqb Pos.eqb].
    replace (take_bytes 4 (b ++ r)) with (Some (b, r)) by (symmetry; apply take_bytes_iff; rewrite Hl; auto). reflexivity.
  - intros f d t k r Hb _ Hk Hf. destruct f as [|f]; [lia|]. cbn [app skip_group].
    replace (decode_key (k ++ r)) with (Some (t, 4, r))
      by (symmetry; apply decode_key_iff; [exact Hb|]; exists k; repeat split; try apply Hk; lia).
    cbn [N.eqb Pos.eqb]. now rewrite N.eqb_refl.
  - intros t p k b fs r Hk _ IHp _ IHr f d t' k' r' Hb Hd Hk' Hf. destruct f as [|f]; [lia|].
    rewrite <- !app_assoc in *. cbn [skip_group]. rewrite !app_length in Hf.
    pose proof (varint_bytes_nonempty _ _ (proj2 (proj2 Hk))). pose proof (varint_bytes_nonempty _ _ (proj2 (proj2 Hk'))).
    assert (Hw : wire_type p <= 5) by (destruct p; cbn; lia).
    replace (decode_key (k ++ b ++ r ++ k' ++ r')) with (Some (t, wire_type p, b ++ r ++ k' ++ r'))
      by (symmetry; apply decode_key_iff; [exact Hb|eauto]).
    replace (wire_type p =? 4) with false by (destruct p; reflexivity).
    apply byte_app in Hb as [_ Hb]. unfold nestings in Hd. cbn [map fold_right snd] in Hd.
    rewrite IHp; [|exact Hb|lia|lia]. apply byte_app in Hb as [_ Hb]. apply IHr; auto; unfold nestings; lia.
Qed.

Lemma skip_sound : forall f,
  (forall d t w b r, byte_list b -> skip_field f d t w b = Some r ->
     exists p x, b = x ++ r /\ payload_bytes t p x /\ wire_type p = w /\ (nesting p <= d)%nat) /\
  (forall d t b r, byte_list b -> skip_group f d t b = Some r ->
     exists fs x k, b = x ++ k ++ r /\ records fs x /\ key_bytes k t 4 /\ (nestings fs <= d)%nat).
Proof.
  induction f as [|f [IH1 IH2]]; (split; [intros d t w b r Hb H|intros d t b r Hb H]); try discriminate.
  - destruct d as [|d]; [discriminate|]. cbn [skip_field] in H.
    destruct (N.eqb_spec w 0) as [->|_].
    { destruct (decode_varint b) as [[n r']|] eqn:E; [|discriminate]. injection H as <-. apply decode_varint_iff in E as (v & -> & Hv); [|exact Hb].
      exists (PVarint n), v. repeat split; [now constructor|cbn; lia]. }
    destruct (N.eqb_spec w 1) as [->|_].
    { destruct (take_bytes 8 b) as [[x r']|] eqn:E; [|discriminate]. injection H as <-. apply take_bytes_iff in E as [-> El].
      exists (PFixed64 x), x. repeat split; [constructor; lia|cbn; lia]. }
    destruct (N.eqb_spec w 2) as [->|_].
    { destruct (take_delimited b) as [[x r']|] eqn:E; [|discriminate]. injection H as <-. apply take_delimited_iff in E as (v & -> & Hv); [|exact Hb].
      exists (PBytes x), (v ++ x). rewrite <- app_assoc. repeat split; [now constructor|cbn; lia]. }
    destruct (N.eqb_spec w 3) as [->|_].
    { apply IH2 in H as (fs & x & k & -> & Hr & Hk & Hn); [|exact Hb]. exists (PGroup fs), (x ++ k). rewrite <- app_assoc.
      repeat split; [now constructor|]. cbn [nesting]. unfold nestings in Hn. lia. }
    destruct (N.eqb_spec w 5) as [->|_]; [|discriminate].
    destruct (take_bytes 4 b) as [[x r']|] eqn:E; [|discriminate]. injection H as <-. apply take_bytes_iff in E as [-> El].
    exists (PFixed32 x), x. repeat split; [constructor; lia|cbn; lia].
  - cbn [skip_group] in H. destruct (decode_key b) as [[[t' w] r']|] eqn:E; [|discriminate].
    apply decode_key_iff in E as (k & -> & Hk & Hw); [|exact Hb]. apply byte_app in Hb as [_ Hb].
    destruct (N.eqb_spec w 4) as [->|_].
    { destruct (N.eqb_spec t' t) as [->|]; [|discriminate]. injection H as <-. exists [], [], k. repeat split; try apply Hk; [constructor|unfold nestings; cbn; lia]. }
    destruct (skip_field f d t' w r') as [r2|] eqn:E; [|discriminate]. apply IH1 in E as (p & x & -> & Hp & <- & Hn); [|exact Hb].
    apply byte_app in Hb as [_ Hb]. apply IH2 in H as (fs & y & k' & -> & Hr & Hk' & Hns); [|exact Hb].
    exists ((t', p) :: fs), (k ++ x ++ y), k'. rewrite <- !app_assoc. repeat split; try apply Hk'; [now constructor|].
    unfold nestings in *. cbn [map fold_right snd]. lia.
Qed.

Lemma skip_iff d t w b r : byte_list b ->
  (skip_field (S (S (2 * length b))) d t w b = Some r <->
   exists p x, b = x ++ r /\ payload_bytes t p x /\ wire_type p = w /\ (nesting p <= d)%nat).
Proof.
  intros Hb. split.
  - now apply skip_sound.
  - intros (p & x & -> & Hp & <- & Hn). apply skip_complete; auto. rewrite app_length. lia.
Qed.

(** ** Fields *)

Lemma signed64_iff n z : n < 2 ^ 64 -> (signed 64 n z <-> z = to_i64 n).
Proof.
  intros Hn. unfold signed, to_i64. change (2 ^ 64) with 18446744073709551616 in Hn.
  change (2 ^ (64 - 1))%Z with 9223372036854775808%Z. change (2 ^ 64)%Z with 18446744073709551616%Z. split.
  - intros [Hz (q & Hq)]. destruct (N.ltb_spec n 9223372036854775808); nia.
  - intros ->. destruct (N.ltb_spec n 9223372036854775808); (split; [lia|]); [exists 0%Z|exists 1%Z]; lia.
Qed.
Lemma signed32_iff n z : signed 32 n z <-> z = to_i32 n.
Proof.
  unfold signed, to_i32. change (2 ^ (32 - 1))%Z with 2147483648%Z. change (2 ^ 32)%Z with 4294967296%Z.
  pose proof (N.div_mod n 4294967296) as E. specialize (E ltac:(discriminate)).
  pose proof (N.mod_lt n 4294967296 ltac:(discriminate)) as Hm. pose proof (N.le_0_l (n mod 4294967296)).
  generalize dependent (n mod 4294967296). generalize (n / 4294967296). intros d m E Hm Hm0. split.
  - intros [Hz (q & Hq)]. destruct (N.ltb_spec m 2147483648).
    + assert (Z.of_N d = q) by nia. nia.
    + assert (Z.of_N d + 1 = q)%Z by nia. nia.
  - intros ->. destruct (N.ltb_spec m 2147483648); (split; [lia|]); [exists (Z.of_N d)|exists (Z.of_N d + 1)%Z]; lia.
Qed.

Lemma packed_empty l : packed [] l -> l = [].
Proof.
  remember [] as b eqn:E. intros H. destruct H as [|v n z b l Hv]; [reflexivity|]. apply varint_bytes_nonempty in Hv.
  destruct v; [cbn in Hv; lia|discriminate].
Qed.
Lemma unpack_iff f : forall b l, byte_list b -> (length b <= f)%nat -> (unpack f b = Some l <-> packed b l).
Proof.
  induction f as [|f IH]; intros b l Hb Hf.
  - destruct b; [|cbn in Hf; lia]. cbn [unpack]. split; [intros [= <-]; constructor|]. intros H. now rewrite (packed_empty _ H).
  - destruct b as [|x b].
    { cbn [unpack]. split; [intros [= <-]; constructor|]. intros H. now rewrite (packed_empty _ H). }
    revert Hb Hf. remember (x :: b) as c eqn:Ec. intros Hb Hf. assert (Hc : c <> []) by (subst; discriminate). clear Ec x b.
    replace (unpack (S f) c) with (match decode_varint c with Some (n, r) => option_map (cons (to_i32 n)) (unpack f r) | None => None end)
      by (destruct c; [congruence|reflexivity]). split.
    + destruct (decode_varint c) as [[n r]|] eqn:E; [|discriminate]. apply decode_varint_iff in E as (v & -> & Hv); [|exact Hb].
      apply byte_app in Hb as [_ Hb]. rewrite app_length in Hf. pose proof (varint_bytes_nonempty _ _ Hv).
      destruct (unpack f r) as [l'|] eqn:El; [|discriminate]. intros [= <-]. apply IH in El; [|exact Hb|lia].
      econstructor; [exact Hv|now apply signed32_iff|exact El].
    + intros H. inversion H as [|v n z b' l' Hv Hz Hp]; [congruence|]. subst.
      replace (decode_varint (v ++ b')) with (Some (n, b')) by (symmetry; apply decode_varint_iff; [exact Hb|eauto]).
      apply byte_app in Hb as [_ Hb]. rewrite app_length in Hf. pose proof (varint_bytes_nonempty _ _ Hv).
      apply signed32_iff in Hz as <-. apply IH in Hp as ->; [reflexivity|exact Hb|lia].
Qed.

(** One record's effect on a value. *)
Definition step (v : fval) (p : payload) (v' : fval) : Prop :=
  match v with
  | FString _ => exists s, Forall (fun c => scalar c = true) s /\ p = PBytes (utf8_encode s) /\ v' = FString s
  | FInt64 _ => exists n z, p = PVarint n /\ signed 64 n z /\ v' = FInt64 z
  | FBool _ => exists n b, p = PVarint n /\ (b = true <-> n <> 0) /\ v' = FBool b
  | FEnums l => exists l', enum_record p l' /\ v' = FEnums (l ++ l')
  end.
Lemma payload_varint t b r : byte_list (b ++ r) -> forall n, payload_bytes t (PVarint n) b -> decode_varint (b ++ r) = Some (n, r).
Proof. intros Hb n H. inversion H; subst. apply decode_varint_iff; [exact Hb|eauto]. Qed.
Lemma payload_delimited t b r : byte_list (b ++ r) -> forall x, payload_bytes t (PBytes x) b -> take_delimited (b ++ r) = Some (x, r).
Proof. intros Hb n H. inversion H; subst. rewrite <- app_assoc in *. apply take_delimited_iff; [exact Hb|eauto]. Qed.
Lemma payload_bound t n b : payload_bytes t (PVarint n) b -> n < 2 ^ 64.
Proof. intros H. inversion H; subst. match goal with H : varint_bytes _ _ |- _ => apply H end. Qed.

Lemma varint_payload t b n r : byte_list b -> decode_varint b = Some (n, r) -> exists x, b = x ++ r /\ payload_bytes t (PVarint n) x.
Proof. intros Hb E. apply decode_varint_iff in E as (x & -> & Hx); [|exact Hb]. exists x. split; [reflexivity|now constructor]. Qed.
Lemma delimited_payload t b y r : byte_list b -> take_delimited b = Some (y, r) -> exists x, b = x ++ r /\ payload_bytes t (PBytes y) x.
Proof.
  intros Hb E. apply take_delimited_iff in E as (x & -> & Hx); [|exact Hb]. exists (x ++ y). rewrite <- app_assoc. split; [reflexivity|now constructor].
Qed.

Lemma merge_value_iff t v w b v' r : byte_list b ->
  (merge_value v w b = Some (v', r) <->
   exists p x, b = x ++ r /\ payload_bytes t p x /\ wire_type p = w /\ step v p v').
Proof.
  intros Hb.
  unfold merge_value. split.
  - destruct v as [s|z|c|l].
    + destruct (N.eqb_spec w 2) as [->|]; [|discriminate]. destruct (take_delimited b) as [[y r']|] eqn:E; [|discriminate].
      destruct (utf8_decode y) as [s'|] eqn:Eu; [|discriminate]. intros [= <- <-].
      apply (delimited_payload t) in E as (x & -> & Hx); [|exact Hb]. apply utf8_encode_decode in Eu as [E1 E2]. subst y.
      exists (PBytes (utf8_encode s')), x. repeat split; auto. cbn [step]. eauto.
    + destruct (N.eqb_spec w 0) as [->|]; [|discriminate]. destruct (decode_varint b) as [[n r']|] eqn:E; [|discriminate].
      intros H. assert (v' = FInt64 (to_i64 n)) by (cbn in H; congruence). assert (r' = r) by (cbn in H; congruence). subst. clear H.
      apply (varint_payload t) in E as (x & -> & Hx); [|exact Hb]. exists (PVarint n), x. repeat split; auto. cbn [step]. exists n, (to_i64 n).
      split; [reflexivity|]. split; [|reflexivity]. apply signed64_iff; [eapply payload_bound; eauto|reflexivity].
    + destruct (N.eqb_spec w 0) as [->|]; [|discriminate]. destruct (decode_varint b) as [[n r']|] eqn:E; [|discriminate].
      intros H. assert (v' = FBool (negb (n =? 0))) by (cbn in H; congruence). assert (r' = r) by (cbn in H; congruence). subst. clear H.
      apply (varint_payload t) in E as (x & -> & Hx); [|exact Hb]. exists (PVarint n), x. repeat split; auto. cbn [step]. exists n, (negb (n =? 0)).
      split; [reflexivity|]. split; [|reflexivity]. rewrite negb_true_iff. apply N.eqb_neq.
    + destruct (N.eqb_spec w 2) as [->|].
      * destruct (take_delimited b) as [[y r']|] eqn:E; [|discriminate]. destruct (unpack (length y) y) as [l'|] eqn:Eu; [|discriminate].
        intros [= <- <-]. assert (Hy : byte_list y). { destruct (take_delimited_bytes _ _ _ Hb E) as (_ & ? & _). assumption. }
        apply unpack_iff in Eu; [|exact Hy|lia]. apply (delimited_payload t) in E as (x & -> & Hx); [|exact Hb]. exists (PBytes y), x. repeat split; auto. cbn [step]. exists l'. auto.
      * destruct (N.eqb_spec w 0) as [->|]; [|discriminate]. destruct (decode_varint b) as [[n' r']|] eqn:E; [|discriminate].
        intros H. assert (v' = FEnums (l ++ [to_i32 n'])) by (cbn in H; congruence). assert (r' = r) by (cbn in H; congruence). subst. clear H.
        apply (varint_payload t) in E as (x & -> & Hx); [|exact Hb]. exists (PVarint n'), x. repeat split; auto. cbn [step]. exists [to_i32 n']. split; [|reflexivity].
        cbn [enum_record]. exists (to_i32 n'). split; [now apply signed32_iff|reflexivity].
  - intros (p & x & -> & Hp & <- & Hs). destruct v as [s|z|c|l]; cbn [step] in Hs.
    + destruct Hs as (s' & Hs & -> & ->). cbn [wire_type N.eqb Pos.eqb]. rewrite (payload_delimited _ _ _ Hb _ Hp).
      now rewrite utf8_decode_encode.
    + destruct Hs as (n & z' & -> & Hz & ->). cbn [wire_type N.eqb]. rewrite (payload_varint _ _ _ Hb _ Hp). cbn [option_map fst snd].
      apply signed64_iff in Hz as ->; [reflexivity|]. eapply payload_bound; eauto.
    + destruct Hs as (n & c' & -> & Hc & ->). cbn [wire_type N.eqb]. rewrite (payload_varint _ _ _ Hb _ Hp). cbn [option_map fst snd].
      do 3 f_equal. destruct (N.eqb_spec n 0) as [->|Hn]; cbn [negb]; destruct c'; intuition congruence.
    + destruct Hs as (l' & Hl & ->). destruct p as [n| |y| |]; cbn [enum_record] in Hl; try contradiction; cbn [wire_type N.eqb Pos.eqb].
      * destruct Hl as (z & Hz & ->). rewrite (payload_varint _ _ _ Hb _ Hp). cbn [option_map fst snd]. apply signed32_iff in Hz as ->. reflexivity.
      * rewrite (payload_delimited _ _ _ Hb _ Hp). assert (Hy : byte_list y). { inversion Hp; subst. apply byte_app in Hb as [Hb _]. now apply byte_app in Hb as [_ Hb]. }
        apply unpack_iff with (f := length y) in Hl as ->; [reflexivity|exact Hy|lia].
Qed.

(** ** Messages *)

(** The effect of several records. *)
Inductive steps : fval -> list payload -> fval -> Prop :=
| steps_nil v : steps v [] v
| steps_cons v p v1 ps v2 : step v p v1 -> steps v1 ps v2 -> steps v (p :: ps) v2.
Lemma steps_one v p v' : steps v [p] v' <-> step v p v'.
Proof.
  split.
  - intros H. inversion H as [|? ? v1 ? ? H1 H2]; subst. inversion H2; subst. exact H1.
  - intros H. econstructor; [exact H|constructor].
Qed.
Lemma steps_none v v' : steps v [] v' <-> v = v'.
Proof. split; [intros H; now inversion H|intros ->; constructor]. Qed.
Lemma step_kind v p v' : step v p v' -> kind_of v' = kind_of v.
Proof. destruct v; cbn [step]; intros H; repeat destruct H as (? & H); subst; reflexivity. Qed.

Inductive all_steps (fs : list (N * payload)) : schema -> list fval -> list fval -> Prop :=
| as_nil : all_steps fs [] [] []
| as_cons t k sch v vs v' vs' : steps v (with_tag t fs) v' -> all_steps fs sch vs vs' ->
    all_steps fs ((t, k) :: sch) (v :: vs) (v' :: vs').

Lemma with_tag_cons t u p fs : with_tag t ((u, p) :: fs) = if u =? t then p :: with_tag t fs else with_tag t fs.
Proof. unfold with_tag. cbn [filter fst]. now destruct (u =? t). Qed.
Lemma all_steps_none sch : forall vs vs', length sch = length vs -> (all_steps [] sch vs vs' <-> vs = vs').
Proof.
  induction sch as [|[t k] sch IH]; intros [|v vs] vs' Hl; try discriminate.
  - split; [intros H; now inversion H|intros <-; constructor].
  - injection Hl as Hl. split.
    + intros H. inversion H as [|? ? ? ? ? ? ? H1 H2]; subst. apply steps_none in H1 as <-. f_equal. now apply IH.
    + intros <-. constructor; [constructor|]. now apply IH.
Qed.
Lemma all_steps_cons f fs sch : forall vs vs', length sch = length vs ->
  (all_steps (f :: fs) sch vs vs' <-> exists vs1, all_steps [f] sch vs vs1 /\ all_steps fs sch vs1 vs').
Proof.
  destruct f as [u p]. induction sch as [|[t k] sch IH]; intros [|v vs] vs' Hl; try discriminate.
  - split; [intros H; inversion H; subst; exists []; repeat constructor|]. intros (vs1 & H1 & H2). inversion H1; subst. inversion H2; subst. constructor.
  - injection Hl as Hl. split.
    + intros H. inversion H as [|? ? ? ? ? v' ? H1 H2]; subst. apply IH in H2 as (vs1 & A & B); [|exact Hl].
      rewrite with_tag_cons in H1. destruct (u =? t) eqn:E.
      * inversion H1 as [|? ? v1 ? ? S1 S2]; subst. exists (v1 :: vs1). split; constructor; auto.
        rewrite with_tag_cons, E. now apply steps_one.
      * exists (v :: vs1). split; constructor; auto. rewrite with_tag_cons, E. constructor.
    + intros (vs1 & A & B). inversion A as [|? ? ? ? ? v1 ? A1 A2]; subst. inversion B as [|? ? ? ? ? v' ? B1 B2]; subst.
      constructor; [|apply IH; [exact Hl|eauto]]. rewrite with_tag_cons in *. destruct (u =? t).
      * apply steps_one in A1. econstructor; eauto.
      * apply steps_none in A1 as ->. exact B1.
Qed.
Lemma all_steps_length fs sch vs vs' : all_steps fs sch vs vs' -> length sch = length vs'.
Proof. induction 1; cbn; congruence. Qed.
Lemma all_steps_unknown t p sch : ~ In t (map fst sch) -> forall vs vs', length sch = length vs -> (all_steps [(t, p)] sch vs vs' <-> vs = vs').
Proof.
  induction sch as [|[u k] sch IH]; cbn [map fst In]; intros Ht [|v vs] vs' Hl; try discriminate.
  - split; [intros H; now inversion H|intros <-; constructor].
  - injection Hl as Hl. assert (E : (t =? u) = false) by (apply N.eqb_neq; intros ->; tauto). split.
    + intros H. inversion H as [|? ? ? ? ? ? ? H1 H2]; subst. rewrite with_tag_cons, E in H1. apply steps_none in H1 as <-. f_equal. apply IH; auto.
    + intros <-. constructor; [rewrite with_tag_cons, E; constructor|]. apply IH; auto.
Qed.

Lemma merge_field_iff sch : forall vs t w b vs' r, NoDup (map fst sch) -> length sch = length vs -> byte_list b ->
  (merge_field sch vs t w b = Some (vs', r) <->
   exists p x, b = x ++ r /\ payload_bytes t p x /\ wire_type p = w /\ all_steps [(t, p)] sch vs vs' /\
     (In t (map fst sch) \/ (nesting p <= 100)%nat)).
Proof.
  induction sch as [|[u k] sch IH]; intros [|v vs] t w b vs' r Hd Hl Hb; try discriminate.
  - cbn [merge_field]. split.
    + destruct (skip_field _ _ t w b) as [r'|] eqn:E; [|discriminate]. intros [= <- <-].
      apply skip_iff in E as (p & x & -> & Hp & <- & Hn); [|exact Hb]. exists p, x. repeat split; auto. constructor.
    + intros (p & x & -> & Hp & <- & Hs & [[]|Hn]). inversion Hs; subst.
      replace (skip_field (S (S (2 * length (x ++ r)))) recursion_limit t (wire_type p) (x ++ r)) with (Some r); [reflexivity|].
      symmetry. apply skip_iff; [exact Hb|]. exists p, x. auto.
  - injection Hl as Hl. cbn [map fst] in Hd. inversion Hd as [|? ? Hu Hd']; subst. cbn [merge_field]. destruct (N.eqb_spec u t) as [->|Hut].
    + split.
      * destruct (merge_value v w b) as [[v' r']|] eqn:E; [|discriminate]. intros [= <- <-].
        apply (merge_value_iff t) in E as (p & x & -> & Hp & <- & Hs); [|exact Hb]. exists p, x. repeat split; auto; [|left; now left].
        constructor; [rewrite with_tag_cons, N.eqb_refl; now apply steps_one|]. now apply all_steps_unknown.
      * intros (p & x & -> & Hp & <- & Hs & _). inversion Hs as [|? ? ? ? ? v' ? H1 H2]; subst.
        rewrite with_tag_cons, N.eqb_refl in H1. apply steps_one in H1. apply all_steps_unknown in H2 as <-; auto.
        replace (merge_value v (wire_type p) (x ++ r)) with (Some (v', r)); [reflexivity|]. symmetry. apply (merge_value_iff t); [exact Hb|eauto 6].
    + assert (Etu : (t =? u) = false) by (apply N.eqb_neq; congruence). split.
      * destruct (merge_field sch vs t w b) as [[vs1 r']|] eqn:E; [|discriminate]. intros [= <- <-].
        apply IH in E as (p & x & -> & Hp & <- & Hs & Hn); auto. exists p, x. repeat split; auto; [|destruct Hn; [left; now right|now right]].
        constructor; [rewrite with_tag_cons, Etu; constructor|exact Hs].
      * intros (p & x & -> & Hp & <- & Hs & Hn). inversion Hs as [|? ? ? ? ? v' ? H1 H2]; subst.
        rewrite with_tag_cons, Etu in H1. apply steps_none in H1 as <-.
        replace (merge_field sch vs t (wire_type p) (x ++ r)) with (Some (vs'0, r)); [reflexivity|]. symmetry. apply IH; auto.
        exists p, x. repeat split; auto. destruct Hn as [[Hn|Hn]|Hn]; [cbn in Hn; congruence|now left|now right].
Qed.

Lemma records_empty fs : records fs [] -> fs = [].
Proof.
  remember [] as b eqn:E. intros H. destruct H as [|t p k b fs r Hk]; [reflexivity|].
  pose proof (varint_bytes_nonempty _ _ (proj2 (proj2 Hk))). destruct k; [cbn in *; lia|discriminate].
Qed.
Lemma merge_fields_iff sch f : NoDup (map fst sch) -> forall vs b vs', length sch = length vs -> byte_list b -> (length b <= f)%nat ->
  (merge_fields f sch vs b = Some vs' <->
   exists fs, records fs b /\ all_steps fs sch vs vs' /\ Forall (fun g => In (fst g) (map fst sch) \/ (nesting (snd g) <= 100)%nat) fs).
Proof.
  intros Hd. induction f as [|f IH]; intros vs b vs' Hl Hb Hf.
  - destruct b; [|cbn in Hf; lia]. cbn [merge_fields]. split.
    + intros [= <-]. exists []. repeat split; try constructor. now apply all_steps_none.
    + intros (fs & Hr & Hs & _). apply records_empty in Hr as ->. f_equal. now apply (all_steps_none sch).
  - destruct b as [|y b].
    { cbn [merge_fields]. split.
      + intros [= <-]. exists []. repeat split; try constructor. now apply all_steps_none.
      + intros (fs & Hr & Hs & _). apply records_empty in Hr as ->. f_equal. now apply (all_steps_none sch). }
    remember (y :: b) as c eqn:Ec. assert (Hc : c <> []) by (subst; discriminate). clear Ec y b.
    replace (merge_fields (S f) sch vs c) with
      (match decode_key c with
       | Some (tag, wt, r) => match merge_field sch vs tag wt r with Some (vs', r') => merge_fields f sch vs' r' | None => None end
       | None => None end) by (destruct c; [congruence|reflexivity]). split.
    + destruct (decode_key c) as [[[t w] r]|] eqn:E; [|discriminate]. apply decode_key_iff in E as (k & -> & Hk & Hw); [|exact Hb].
      apply byte_app in Hb as [_ Hb]. destruct (merge_field sch vs t w r) as [[vs1 r']|] eqn:E; [|discriminate].
      apply merge_field_iff in E as (p & x & -> & Hp & <- & Hs & Hn); auto. apply byte_app in Hb as [_ Hb].
      pose proof (varint_bytes_nonempty _ _ (proj2 (proj2 Hk))). rewrite !app_length in Hf. intros Hm.
      apply IH in Hm as (fs & Hr & Hs' & Hns); [|eapply all_steps_length; eauto|exact Hb|lia].
      exists ((t, p) :: fs). split; [now constructor|]. split; [|now constructor]. apply all_steps_cons; [exact Hl|eauto].
    + intros (fs & Hr & Hs & Hns). destruct Hr as [|t p k x fs r Hk Hp Hr]; [congruence|].
      assert (Hw : wire_type p <= 5) by (destruct p; cbn; lia).
      replace (decode_key (k ++ x ++ r)) with (Some (t, wire_type p, x ++ r)) by (symmetry; apply decode_key_iff; [exact Hb|eauto]).
      apply byte_app in Hb as [_ Hb]. apply all_steps_cons in Hs as (vs1 & Hs1 & Hs); [|exact Hl]. inversion Hns as [|? ? Hn Hns']; subst. cbn [fst snd] in Hn.
      replace (merge_field sch vs t (wire_type p) (x ++ r)) with (Some (vs1, r)) by (symmetry; apply merge_field_iff; eauto 8).
      pose proof (varint_bytes_nonempty _ _ (proj2 (proj2 Hk))). rewrite !app_length in Hf. apply byte_app in Hb as [_ Hb].
      apply IH; [eapply all_steps_length; eauto|exact Hb|lia|]. eauto.
Qed.

(** ** Values *)

Lemma last_cons {A} (x : A) l d : last (x :: l) d = last l x.
Proof.
  revert x d. induction l as [|y l IH]; intros x d; [reflexivity|]. change (last (y :: l) d = last (y :: l) x). now rewrite !IH.
Qed.
Lemma steps_string ps : forall s v, steps (FString s) ps v <->
  exists ss, Forall2 (fun p s => Forall (fun c => scalar c = true) s /\ p = PBytes (utf8_encode s)) ps ss /\ v = FString (last ss s).
Proof.
  induction ps as [|p ps IH]; intros s v; split.
  - intros H. inversion H; subst. exists []. split; constructor.
  - intros (ss & H & ->). inversion H; subst. constructor.
  - intros H. inversion H as [|? ? v1 ? ? H1 H2]; subst. cbn [step] in H1. destruct H1 as (s' & Hs & Hp & ->). apply IH in H2 as (ss & HF & ->). exists (s' :: ss).
    split; [constructor; auto|]. now rewrite last_cons.
  - intros (ss & H & ->). inversion H as [|? s' ? ss' [Hs Hp] HF]; subst. rewrite last_cons. econstructor; [cbn [step]; eauto|]. apply IH. eauto.
Qed.
Lemma steps_int ps : forall z v, steps (FInt64 z) ps v <->
  exists zs, Forall2 (fun p z => exists n, p = PVarint n /\ signed 64 n z) ps zs /\ v = FInt64 (last zs z).
Proof.
  induction ps as [|p ps IH]; intros s v; split.
  - intros H. inversion H; subst. exists []. split; constructor.
  - intros (ss & H & ->). inversion H; subst. constructor.
  - intros H. inversion H as [|? ? v1 ? ? H1 H2]; subst. cbn [step] in H1. destruct H1 as (n & s' & Hp & Hs & ->). apply IH in H2 as (ss & HF & ->). exists (s' :: ss).
    split; [constructor; eauto|]. now rewrite last_cons.
  - intros (ss & H & ->). inversion H as [|? s' ? ss' (n & Hp & Hs) HF]; subst. rewrite last_cons. econstructor; [cbn [step]; eauto|]. apply IH. eauto.
Qed.
Lemma steps_bool ps : forall b v, steps (FBool b) ps v <->
  exists bs, Forall2 (fun p (b : bool) => exists n, p = PVarint n /\ (b = true <-> n <> 0)) ps bs /\ v = FBool (last bs b).
Proof.
  induction ps as [|p ps IH]; intros s v; split.
  - intros H. inversion H; subst. exists []. split; constructor.
  - intros (ss & H & ->). inversion H; subst. constructor.
  - intros H. inversion H as [|? ? v1 ? ? H1 H2]; subst. cbn [step] in H1. destruct H1 as (n & s' & Hp & Hs & ->). apply IH in H2 as (ss & HF & ->). exists (s' :: ss).
    split; [constructor; eauto|]. now rewrite last_cons.
  - intros (ss & H & ->). inversion H as [|? s' ? ss' (n & Hp & Hs) HF]; subst. rewrite last_cons. econstructor; [cbn [step]; exists n, s'; auto|]. apply IH. eauto.
Qed.
Lemma steps_enums ps : forall l v, steps (FEnums l) ps v <-> exists ls, Forall2 enum_record ps ls /\ v = FEnums (l ++ concat ls).
Proof.
  induction ps as [|p ps IH]; intros l v; split.
  - intros H. inversion H; subst. exists []. cbn [concat]. rewrite app_nil_r. split; constructor.
  - intros (ss & H & ->). inversion H; subst. cbn [concat]. rewrite app_nil_r. constructor.
  - intros H. inversion H as [|? ? v1 ? ? H1 H2]; subst. cbn [step] in H1. destruct H1 as (l' & Hs & ->). apply IH in H2 as (ls & HF & ->). exists (l' :: ls).
    split; [constructor; auto|]. cbn [concat]. now rewrite app_assoc.
  - intros (ss & H & ->). inversion H as [|? l' ? ls' Hs HF]; subst. cbn [concat]. rewrite app_assoc. econstructor; [cbn [step]; eauto|]. apply IH. eauto.
Qed.
Lemma steps_value k ps v : steps (default_of k) ps v <-> field_value k ps v.
Proof. destruct k; cbn [default_of field_value]; [apply steps_string|apply steps_int|apply steps_bool|apply steps_enums]. Qed.

Theorem decode_iff sch b vs : NoDup (map fst sch) -> byte_list b -> (decode_message sch b = Some vs <-> message sch b vs).
Proof.
  intros Hd Hb. unfold decode_message, message. rewrite merge_fields_iff; [|exact Hd|now rewrite map_length|exact Hb|lia].
  assert (G : forall fs vs, all_steps fs sch (map (fun p => default_of (snd p)) sch) vs <->
    Forall2 (fun f v => field_value (snd f) (with_tag (fst f) fs) v) sch vs).
  { clear. intros fs. induction sch as [|[t k] sch IH]; intros vs; cbn [map snd].
    - split; intros H; inversion H; constructor.
    - split; intros H; inversion H as [|]; subst; constructor; try (now apply IH); now apply steps_value. }
  split; intros (fs & H1 & H2 & H3); exists fs; (split; [exact H1|split; [now apply G|exact H3]]).
Qed.

(** ** A byte string has one reading as records *)

Lemma base128_prefix v n : base128 v n -> forall v' n' r r', base128 v' n' -> v ++ r = v' ++ r' -> v' = v /\ n' = n /\ r' = r.
Proof.
  induction 1 as [x Hx|x v n Hx Hv IH]; intros v' n' r r' [y Hy|y w m Hy Hw] E; cbn [app] in E; injection E as E1 E2.
  - subst. auto.
  - lia.
  - lia.
  - assert (y = x) by lia. subst y. destruct (IH _ _ _ _ Hw E2) as (-> & -> & ->). auto.
Qed.
Lemma varint_prefix v n v' n' r r' : varint_bytes v n -> varint_bytes v' n' -> v ++ r = v' ++ r' -> v' = v /\ n' = n /\ r' = r.
Proof. intros [H _] [H' _]. now apply base128_prefix. Qed.
Lemma key_prefix k t w k' t' w' r r' : w <= 5 -> w' <= 5 -> key_bytes k t w -> key_bytes k' t' w' -> k ++ r = k' ++ r' ->
  k' = k /\ t' = t /\ w' = w /\ r' = r.
Proof.
  intros Hw Hw' (_ & _ & H) (_ & _ & H') E. destruct (varint_prefix _ _ _ _ _ _ H H' E) as (-> & En & ->).
  destruct (key_parts t w Hw) as [E1 E2], (key_parts t' w' Hw') as [E3 E4]. rewrite En in *. repeat split; congruence.
Qed.
Lemma app_prefix {A} (a b r r' : list A) : length a = length b -> a ++ r = b ++ r' -> b = a /\ r' = r.
Proof.
  revert b. induction a as [|x a IH]; intros [|y b] Hl E; try discriminate; [auto|]. injection E as -> E. injection Hl as Hl.
  destruct (IH _ Hl E) as [-> ->]. auto.
Qed.
(** What may follow the records of a message or a group. *)
Definition stops (z : list N) : Prop := z = [] \/ exists t k r, key_bytes k t 4 /\ z = k ++ r.
Lemma wire_le5 p : wire_type p <= 5.
Proof. destruct p; cbn; lia. Qed.
Lemma stops_key k t p r : key_bytes k t (wire_type p) -> stops (k ++ r) -> False.
Proof.
  intros Hk [E|(t' & k' & r' & Hk' & E)].
  - pose proof (varint_bytes_nonempty _ _ (proj2 (proj2 Hk))). apply app_eq_nil in E as [-> _]. cbn in *. lia.
  - destruct (key_prefix k t (wire_type p) k' t' 4 _ _ (wire_le5 p) ltac:(lia) Hk Hk' E) as (_ & _ & Ew & _). destruct p; discriminate.
Qed.
Lemma wire_prefix :
  (forall t p x, payload_bytes t p x -> forall p' x' r r', payload_bytes t p' x' -> wire_type p' = wire_type p -> x ++ r = x' ++ r' -> p' = p /\ x' = x /\ r' = r) /\
  (forall fs x, records fs x -> forall fs' x' r r', records fs' x' -> stops r -> stops r' -> x ++ r = x' ++ r' -> fs' = fs /\ x' = x /\ r' = r).
Proof.
  apply wire_min.
  - intros t n b Hv p' x' r r' H Hw E. inversion H; subst; try discriminate. destruct (varint_prefix _ _ _ _ _ _ Hv H0 E) as (-> & -> & ->). auto.
  - intros t b Hl p' x' r r' H Hw E. inversion H; subst; try discriminate. destruct (app_prefix b x' r r') as [-> ->]; auto. congruence.
  - intros t v b Hv p' x' r r' H Hw E. inversion H as [| |? v' b' Hv'| |]; subst; try discriminate. rewrite <- !app_assoc in E.
    destruct (varint_prefix _ _ _ _ _ _ Hv Hv' E) as (-> & En & E'). destruct (app_prefix b b' r r') as [-> ->]; auto. lia.
  - intros t fs b k _ IH Hk p' x' r r' H Hw E. inversion H as [| | |? fs' b' k' Hr' Hk'|]; subst; try discriminate. rewrite <- !app_assoc in E.
    destruct (IH fs' b' (k ++ r) (k' ++ r') Hr') as (-> & -> & E'); auto; try (right; eauto 6).
    symmetry in E'. destruct (key_prefix k t 4 k' t 4 _ _ ltac:(lia) ltac:(lia) Hk Hk' E') as (-> & _ & _ & ->). auto.
  - intros t b Hl p' x' r r' H Hw E. inversion H; subst; try discriminate. destruct (app_prefix b x' r r') as [-> ->]; auto. congruence.
  - intros fs' x' r r' H Hs Hs' E. inversion H as [|t p k b fs y Hk Hp Hr]; subst; [auto|]. exfalso. cbn [app] in E.
    rewrite <- app_assoc in E. subst r. eauto using stops_key.
  - intros t p k b fs y Hk _ IHp _ IHr fs' x' r r' H Hs Hs' E. inversion H as [|t' p' k' b' fs2 y' Hk' Hp' Hr']; subst.
    + exfalso. cbn [app] in E. rewrite <- app_assoc in E. subst r'. eauto using stops_key.
    + rewrite <- !app_assoc in E. destruct (key_prefix _ _ _ _ _ _ _ _ (wire_le5 p) (wire_le5 p') Hk Hk' E) as (-> & -> & Ew & E2).
      symmetry in E2. destruct (IHp _ _ _ _ Hp' Ew E2) as (-> & -> & E3). symmetry in E3.
      destruct (IHr _ _ _ _ Hr' Hs Hs' E3) as (-> & -> & ->). auto.
Qed.
Lemma records_unique fs fs' b : records fs b -> records fs' b -> fs' = fs.
Proof. intros H H'. apply (proj2 wire_prefix _ _ H fs' b [] []); auto; now left. Qed.
