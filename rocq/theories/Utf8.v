(** UTF-8, as Rust's [String] and [str::from_utf8] have it. *)
From Coq Require Import List NArith Bool Lia.
Import ListNotations.
Local Open Scope N_scope.

(** A [char]: a Unicode scalar value. *)
Definition scalar (c : N) : bool := (c <? 55296) || ((57343 <? c) && (c <? 1114112)).

Definition utf8_char (c : N) : list N :=
  if c <? 128 then [c]
  else if c <? 2048 then [192 + c / 64; 128 + c mod 64]
  else if c <? 65536 then [224 + c / 4096; 128 + c / 64 mod 64; 128 + c mod 64]
  else [240 + c / 262144; 128 + c / 4096 mod 64; 128 + c / 64 mod 64; 128 + c mod 64].
(** The bytes of a [String]. *)
Definition utf8_encode (s : list N) : list N := concat (map utf8_char s).

(** A continuation byte. *)
Definition is_cont (b : N) : bool := (128 <=? b) && (b <? 192).

(** [str::from_utf8]: no overlong forms, no surrogates, nothing above U+10FFFF. *)
Fixpoint utf8_decode (b : list N) : option (list N) :=
  match b with
  | [] => Some []
  | b0 :: r =>
      if b0 <? 128 then option_map (cons b0) (utf8_decode r)
      else match r with
           | [] => None
           | b1 :: r1 =>
               if negb (is_cont b1) then None
               else if (192 <=? b0) && (b0 <? 224) then
                 let c := (b0 - 192) * 64 + (b1 - 128) in
                 if 128 <=? c then option_map (cons c) (utf8_decode r1) else None
               else match r1 with
                    | [] => None
                    | b2 :: r2 =>
                        if negb (is_cont b2) then None
                        else if (224 <=? b0) && (b0 <? 240) then
                          let c := ((b0 - 224) * 64 + (b1 - 128)) * 64 + (b2 - 128) in
                          if (2048 <=? c) && scalar c then option_map (cons c) (utf8_decode r2) else None
                        else match r2 with
                             | [] => None
                             | b3 :: r3 =>
                                 if negb (is_cont b3) then None
                                 else if (240 <=? b0) && (b0 <? 248) then
                                   let c := (((b0 - 240) * 64 + (b1 - 128)) * 64 + (b2 - 128)) * 64 + (b3 - 128) in
                                   if (65536 <=? c) && scalar c then option_map (cons c) (utf8_decode r3) else None
                                 else None
                             end
                    end
           end
  end.

(** ** Facts *)

Ltac nbool := repeat match goal with
  | H : (_ && _)%bool = true |- _ => apply andb_true_iff in H as [? ?]
  | H : (_ || _)%bool = false |- _ => apply orb_false_iff in H as [? ?]
  | H : negb _ = false |- _ => apply negb_false_iff in H
  | H : (_ <? _) = true |- _ => apply N.ltb_lt in H
  | H : (_ <? _) = false |- _ => apply N.ltb_ge in H
  | H : (_ <=? _) = true |- _ => apply N.leb_le in H
  | H : (_ <=? _) = false |- _ => apply N.leb_gt in H
  end.

Lemma mod64 x : 0 <= x mod 64 < 64.
Proof. split; [apply N.le_0_l|]. apply N.mod_lt. discriminate. Qed.
Lemma cont_mod x : is_cont (128 + x mod 64) = true.
Proof.
  unfold is_cont. pose proof (mod64 x). apply andb_true_iff. rewrite N.leb_le, N.ltb_lt. lia.
Qed.
Lemma split64 c : c = 64 * (c / 64) + c mod 64.
Proof. apply N.div_mod. lia. Qed.

Lemma decode_char c r : scalar c = true -> utf8_decode (utf8_char c ++ r) = option_map (cons c) (utf8_decode r).
Proof.
  intros Hs. unfold utf8_char. pose proof (split64 c) as E1. pose proof (split64 (c / 64)) as E2. pose proof (split64 (c / 64 / 64)) as E3.
  rewrite !N.div_div in * by lia. change (64 * 64) with 4096 in *. change (4096 * 64) with 262144 in *.
  pose proof (mod64 c). pose proof (mod64 (c / 64)). pose proof (mod64 (c / 4096)).
  pose proof (N.le_0_l (c / 64)). pose proof (N.le_0_l (c / 4096)). pose proof (N.le_0_l (c / 262144)).
  assert (Hc : c < 1114112). { unfold scalar in Hs. apply orb_true_iff in Hs as [Hs|Hs]; nbool; lia. }
  destruct (c <? 128) eqn:C1; [cbn [app utf8_decode]; now rewrite C1|].
  destruct (c <? 2048) eqn:C2; [|destruct (c <? 65536) eqn:C3]; cbn [app utf8_decode]; nbool.
  - replace (192 + c / 64 <? 128) with false by (symmetry; apply N.ltb_ge; lia). rewrite cont_mod. cbn [negb].
    replace ((192 <=? 192 + c / 64) && (192 + c / 64 <? 224)) with true
      by (symmetry; apply andb_true_iff; rewrite N.leb_le, N.ltb_lt; lia).
    replace ((192 + c / 64 - 192) * 64 + (128 + c mod 64 - 128)) with c by lia.
    replace (128 <=? c) with true by (symmetry; apply N.leb_le; lia). reflexivity.
  - replace (224 + c / 4096 <? 128) with false by (symmetry; apply N.ltb_ge; lia). rewrite !cont_mod. cbn [negb].
    replace ((192 <=? 224 + c / 4096) && (224 + c / 4096 <? 224)) with false
      by (symmetry; apply andb_false_iff; right; apply N.ltb_ge; lia).
    replace ((224 <=? 224 + c / 4096) && (224 + c / 4096 <? 240)) with true
      by (symmetry; apply andb_true_iff; rewrite N.leb_le, N.ltb_lt; lia).
    replace (((224 + c / 4096 - 224) * 64 + (128 + c / 64 mod 64 - 128)) * 64 + (128 + c mod 64 - 128)) with c by lia.
    rewrite Hs. replace (2048 <=? c) with true by (symmetry; apply N.leb_le; lia). reflexivity.
  - replace (240 + c / 262144 <? 128) with false by (symmetry; apply N.ltb_ge; lia). rewrite !cont_mod. cbn [negb].
    replace ((192 <=? 240 + c / 262144) && (240 + c / 262144 <? 224)) with false
      by (symmetry; apply andb_false_iff; right; apply N.ltb_ge; lia).
    replace ((224 <=? 240 + c / 262144) && (240 + c / 262144 <? 240)) with false
      by (symmetry; apply andb_false_iff; right; apply N.ltb_ge; lia).
    replace ((240 <=? 240 + c / 262144) && (240 + c / 262144 <? 248)) with true
      by (symmetry; apply andb_true_iff; rewrite N.leb_le, N.ltb_lt; lia).
    replace ((((240 + c / 262144 - 240) * 64 + (128 + c / 4096 mod 64 - 128)) * 64 + (128 + c / 64 mod 64 - 128)) * 64 + (128 + c mod 64 - 128)) with c by lia.
    rewrite Hs. replace (65536 <=? c) with true by (symmetry; apply N.leb_le; lia). reflexivity.
Qed.

(** What is encoded is decoded again. *)
Theorem utf8_decode_encode s : Forall (fun c => scalar c = true) s -> utf8_decode (utf8_encode s) = Some s.
Proof.
  induction 1 as [|c s Hc _ IH]; [reflexivity|]. unfold utf8_encode in *. cbn [map concat]. now rewrite decode_char, IH.
Qed.

Lemma digit64 a x : x < 64 -> (a * 64 + x) / 64 = a /\ (a * 64 + x) mod 64 = x.
Proof.
  intros H. split.
  - rewrite N.add_comm, N.div_add by lia. rewrite N.div_small by lia. lia.
  - rewrite N.add_comm, N.mod_add by lia. now apply N.mod_small.
Qed.

(** Bytes that can be decoded are the encoding of what they are decoded to. *)
Theorem utf8_encode_decode : forall b s, utf8_decode b = Some s ->
  utf8_encode s = b /\ Forall (fun c => scalar c = true) s.
Proof.
  intros b. remember (length b) as n eqn:En. assert (Hn : (length b <= n)%nat) by lia. clear En. revert b Hn.
  induction n as [|n IH]; intros b Hn s H.
  - destruct b; [|cbn in Hn; lia]. injection H as <-. split; [reflexivity|constructor].
  - destruct b as [|b0 r]; [injection H as <-; split; [reflexivity|constructor]|]. cbn [utf8_decode] in H. cbn [length] in Hn.
    assert (G : forall c r', (length r' <= n)%nat -> scalar c = true -> utf8_char c ++ r' = b0 :: r ->
      option_map (cons c) (utf8_decode r') = Some s -> utf8_encode s = b0 :: r /\ Forall (fun c => scalar c = true) s).
    { intros c r' Hl Hc E Hd. destruct (utf8_decode r') as [t|] eqn:Et; [|discriminate]. injection Hd as <-.
      destruct (IH r' Hl t Et) as [A B]. split; [|now constructor]. unfold utf8_encode in *. cbn [map concat]. now rewrite A. }
    destruct (b0 <? 128) eqn:C0.
    { apply (G b0 r); auto; [lia| |].
      - unfold scalar. nbool. apply orb_true_iff. left. apply N.ltb_lt. lia.
      - unfold utf8_char. now rewrite C0. }
    destruct r as [|b1 r1]; [discriminate|]. destruct (is_cont b1) eqn:K1; [|discriminate]. cbn [negb length] in *.
    assert (D1 : b1 - 128 < 64 /\ 128 + (b1 - 128) = b1) by (unfold is_cont in K1; nbool; lia). destruct D1 as [D1 D1'].
    destruct ((192 <=? b0) && (b0 <? 224)) eqn:C1.
    { destruct (128 <=? _) eqn:C2 in H; [|discriminate]. nbool. destruct (digit64 (b0 - 192) (b1 - 128) D1) as [Q1 Q2].
      apply (G ((b0 - 192) * 64 + (b1 - 128)) r1); auto; [lia| |].
      - unfold scalar. apply orb_true_iff. left. apply N.ltb_lt. lia.
      - unfold utf8_char. replace (_ <? 128) with false by (symmetry; apply N.ltb_ge; lia).
        replace (_ <? 2048) with true by (symmetry; apply N.ltb_lt; lia). rewrite Q1, Q2, D1'. cbn [app]. repeat f_equal. lia. }
    destruct r1 as [|b2 r2]; [discriminate|]. destruct (is_cont b2) eqn:K2; [|discriminate]. cbn [negb length] in *.
    assert (D2 : b2 - 128 < 64 /\ 128 + (b2 - 128) = b2) by (unfold is_cont in K2; nbool; lia). destruct D2 as [D2 D2'].
    destruct ((224 <=? b0) && (b0 <? 240)) eqn:C2.
    { destruct ((2048 <=? _) && _) eqn:C3 in H; [|discriminate]. apply andb_true_iff in C3 as [C3 Hs]. nbool.
      destruct (digit64 (b0 - 224) (b1 - 128) D1) as [Q1 Q2]. set (x := (b0 - 224) * 64 + (b1 - 128)) in *.
      destruct (digit64 x (b2 - 128) D2) as [Q3 Q4].
      apply (G (x * 64 + (b2 - 128)) r2); auto; [lia|].
      unfold utf8_char. replace (_ <? 128) with false by (symmetry; apply N.ltb_ge; lia).
      replace (_ <? 2048) with false by (symmetry; apply N.ltb_ge; lia). replace (_ <? 65536) with true by (symmetry; apply N.ltb_lt; lia).
      change 4096 with (64 * 64). rewrite <- N.div_div, Q3, Q4, Q1, Q2, D1', D2' by lia. cbn [app]. repeat f_equal. lia. }
    destruct r2 as [|b3 r3]; [discriminate|]. destruct (is_cont b3) eqn:K3; [|discriminate]. cbn [negb length] in *.
    assert (D3 : b3 - 128 < 64 /\ 128 + (b3 - 128) = b3) by (unfold is_cont in K3; nbool; lia). destruct D3 as [D3 D3'].
    destruct ((240 <=? b0) && (b0 <? 248)) eqn:C3; [|discriminate].
    destruct ((65536 <=? _) && _) eqn:C4 in H; [|discriminate]. apply andb_true_iff in C4 as [C4 Hs]. nbool.
    destruct (digit64 (b0 - 240) (b1 - 128) D1) as [Q1 Q2]. set (x := (b0 - 240) * 64 + (b1 - 128)) in *.
    destruct (digit64 x (b2 - 128) D2) as [Q3 Q4]. set (y := x * 64 + (b2 - 128)) in *.
    destruct (digit64 y (b3 - 128) D3) as [Q5 Q6].
    apply (G (y * 64 + (b3 - 128)) r3); auto; [lia|].
    unfold utf8_char. replace (_ <? 128) with false by (symmetry; apply N.ltb_ge; lia).
    replace (_ <? 2048) with false by (symmetry; apply N.ltb_ge; lia). replace (_ <? 65536) with false by (symmetry; apply N.ltb_ge; lia).
    change 262144 with (64 * (64 * 64)). change 4096 with (64 * 64). rewrite <- !N.div_div, Q5, Q6, Q3, Q4, Q1, Q2, D1', D2', D3' by lia. cbn [app]. repeat f_equal. lia.
Qed.

Lemma utf8_ascii s : Forall (fun c => c < 128) s -> utf8_encode s = s.
Proof.
  induction 1 as [|c s Hc _ IH]; [reflexivity|]. unfold utf8_encode in *. cbn [map concat]. rewrite IH. unfold utf8_char.
  apply N.ltb_lt in Hc. now rewrite Hc.
Qed.
Lemma utf8_bytes s : Forall (fun c => scalar c = true) s -> Forall (fun b => b < 256) (utf8_encode s).
Proof.
  induction 1 as [|c s Hc _ IH]; [constructor|]. unfold utf8_encode in *. cbn [map concat]. apply Forall_app. split; [|exact IH].
  assert (c < 1114112). { unfold scalar in Hc. apply orb_true_iff in Hc as [Hc|Hc]; nbool; lia. }
  pose proof (mod64 c). pose proof (mod64 (c / 64)). pose proof (mod64 (c / 4096)).
  pose proof (N.le_0_l (c / 64)). pose proof (N.le_0_l (c / 4096)). pose proof (N.le_0_l (c / 262144)).
  unfold utf8_char. destruct (c <? 128) eqn:C1; [|destruct (c <? 2048) eqn:C2; [|destruct (c <? 65536) eqn:C3]]; nbool; repeat constructor; try lia.
  - assert (c / 64 < 32) by (apply N.div_lt_upper_bound; lia). lia.
  - assert (c / 4096 < 16) by (apply N.div_lt_upper_bound; lia). lia.
  - assert (c / 262144 < 8) by (apply N.div_lt_upper_bound; lia). lia.
Qed.
