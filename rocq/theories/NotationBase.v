(** Numbers, strings, names and references are written as SpecNotation.v says. *)
From Coq Require Import String List NArith ZArith Bool Lia.
From Verif Require Import Base BaseFacts Peg Names SimpleExt SimpleExtFacts Out Anchors Types Calendar CalendarFacts SpecLiterals
  Literals Exprs SpecMeaning MeaningFacts SpecOptions SpecNotation.
Import ListNotations.
Local Open Scope string_scope.
Local Open Scope list_scope.
Local Open Scope nat_scope.

(** ** Outputs *)

(** The output [o] is the text [s], and nothing is reported. *)
Definition clean (o : out) (s : list N) : Prop := o_errs o = [] /\ o_panics o = [] /\ o_text o = s.
Lemma clean_txt x s : clean (txt x) s <-> s = x.
Proof. unfold clean. cbn. intuition. Qed.
Lemma clean_nil s : clean onil s <-> s = [].
Proof. unfold clean. cbn. intuition. Qed.
Lemma clean_app a b s : clean (a +++ b) s <-> exists x y, clean a x /\ clean b y /\ s = x ++ y.
Proof.
  unfold clean. cbn. split.
  - intros (H1 & H2 & <-). apply app_eq_nil in H1 as [], H2 as []. exists (o_text a), (o_text b). intuition.
  - intros (x & y & (H1 & H2 & <-) & (H3 & H4 & <-) & ->). rewrite H1, H2, H3, H4. auto.
Qed.
Lemma clean_fail e s : clean (ofail e) s <-> False.
Proof. unfold clean. cbn. intuition discriminate. Qed.
Lemma clean_push e s : clean (opush e) s <-> False.
Proof. unfold clean. cbn. intuition discriminate. Qed.
Lemma clean_panic p s : clean (opanic p) s <-> False.
Proof. unfold clean. cbn. intuition discriminate. Qed.
Lemma clean_before x o s : clean (txt x +++ o) s <-> exists y, clean o y /\ s = x ++ y.
Proof.
  rewrite clean_app. split; [intros (a & b & H & H' & ->); apply clean_txt in H as ->; eauto|].
  intros (y & H & ->). exists x, y. rewrite clean_txt. auto.
Qed.
Lemma clean_after x o s : clean (o +++ txt x) s <-> exists y, clean o y /\ s = y ++ x.
Proof.
  rewrite clean_app. split; [intros (a & b & H & H' & ->); apply clean_txt in H' as ->; eauto|].
  intros (y & H & ->). exists y, x. rewrite clean_txt. auto.
Qed.
Lemma clean_sep sep l s : clean (osep sep l) s <-> exists ss, Forall2 clean l ss /\ s = join sep ss.
Proof.
  revert s. induction l as [|o l IH]; intros s.
  - cbn [osep]. rewrite clean_nil. split; [intros ->; exists []; auto|]. intros (ss & H & ->). now inversion H.
  - destruct l as [|o' l].
    + cbn [osep]. split; [intros H; exists [s]; auto|]. intros (ss & H & ->). inversion H as [|? x ? ss' Hx H']; subst. inversion H'; subst. exact Hx.
    + change (osep sep (o :: o' :: l)) with (o +++ txt sep +++ osep sep (o' :: l)). rewrite clean_app. setoid_rewrite clean_before. setoid_rewrite IH.
      split.
      * intros (x & y & Hx & (z & (ss & Hs & ->) & ->) & ->). exists (x :: ss). split; [auto|]. destruct ss; [inversion Hs|reflexivity].
      * intros (ss & H & ->). inversion H as [|? x ? ss' Hx H']; subst. exists x, (sep ++ join sep ss'). split; [exact Hx|].
        split; [eauto|]. destruct ss'; [inversion H'|reflexivity].
Qed.
Lemma clean_map {A} (f : A -> out) (P : A -> list N -> Prop) l ss : Forall (fun a => forall s, clean (f a) s <-> P a s) l ->
  Forall2 clean (map f l) ss <-> Forall2 P l ss.
Proof.
  intros H. revert ss. induction H as [|a l Ha Hl IH]; intros ss; cbn [map].
  - split; intros K; inversion K; constructor.
  - split; intros K; inversion K; subst; constructor; try apply IH; try apply Ha; auto.
Qed.

(** ** Numbers *)

Lemma decimal_cons c s : decimal (c :: s) = ((Z.of_N c - 48) * 10 ^ Z.of_nat (length s) + decimal s)%Z.
Proof.
  assert (G : forall l a, fold_left (fun a c => 10 * a + (Z.of_N c - 48))%Z l a = (a * 10 ^ Z.of_nat (length l) + decimal l)%Z).
  { induction l as [|x l IH]; intros a; cbn [fold_left length]; [unfold decimal; cbn; lia|].
    rewrite IH. unfold decimal. cbn [fold_left]. rewrite (IH (10 * 0 + (Z.of_N x - 48))%Z).
    rewrite Nat2Z.inj_succ, Z.pow_succ_r by lia. unfold decimal. lia. }
  unfold decimal at 1. cbn [fold_left]. rewrite G. lia.
Qed.
Lemma decimal_bound s : Forall digit s -> (0 <= decimal s < 10 ^ Z.of_nat (length s))%Z.
Proof.
  induction 1 as [|c s Hc Hs IH]; [unfold decimal; cbn; lia|].
  rewrite decimal_cons. unfold digit in Hc. cbn [length]. rewrite Nat2Z.inj_succ, Z.pow_succ_r by lia. nia.
Qed.
Lemma decimal_inj s t : Forall digit s -> Forall digit t -> length s = length t -> decimal s = decimal t -> s = t.
Proof.
  intros Hs. revert t. induction Hs as [|c s Hc Hs IH]; intros t Ht E D; destruct Ht as [|c' t Hc' Ht]; try discriminate; auto.
  injection E as E. rewrite !decimal_cons, E in D. pose proof (decimal_bound s Hs) as B. pose proof (decimal_bound t Ht) as B'. rewrite E in B.
  unfold digit in *. assert (Z.of_N c = Z.of_N c') by nia. f_equal; [lia|]. apply IH; auto. nia.
Qed.
Lemma decimal_head s : digits s -> hd 0%N s <> 48%N -> (10 ^ (Z.of_nat (length s) - 1) <= decimal s)%Z.
Proof.
  intros [H1 H2] H. destruct H2 as [|c s Hc Hs]; [congruence|]. cbn [hd] in H. rewrite decimal_cons. pose proof (decimal_bound s Hs). unfold digit in Hc.
  cbn [length]. rewrite Nat2Z.inj_succ. replace (Z.succ (Z.of_nat (length s)) - 1)%Z with (Z.of_nat (length s)) by lia.
  assert (0 < 10 ^ Z.of_nat (length s))%Z by (apply Z.pow_pos_nonneg; lia). nia.
Qed.
(** Digits without zeros in front are determined by their value. *)
Lemma decimal_canonical s t : digits s -> digits t -> hd 0%N s <> 48%N -> hd 0%N t <> 48%N -> decimal s = decimal t -> s = t.
Proof.
  intros Hs Ht Hs' Ht' E. pose proof (decimal_head s Hs Hs') as B1. pose proof (decimal_head t Ht Ht') as B2.
  destruct Hs as [Ns Hs], Ht as [Nt Ht]. pose proof (decimal_bound s Hs) as B3. pose proof (decimal_bound t Ht) as B4.
  apply decimal_inj; auto.
  assert (K : forall a b, 0 < a -> (10 ^ (Z.of_nat a - 1) < 10 ^ Z.of_nat b)%Z -> a <= b).
  { intros a b Ha Hb. destruct (Nat.le_gt_cases a b) as [G|G]; [lia|]. exfalso.
    assert (10 ^ Z.of_nat b <= 10 ^ (Z.of_nat a - 1))%Z by (apply Z.pow_le_mono_r; lia). lia. }
  assert (0 < length s) by (destruct s; [congruence|cbn; lia]). assert (0 < length t) by (destruct t; [congruence|cbn; lia]).
  pose proof (K (length s) (length t)). pose proof (K (length t) (length s)). lia.
Qed.
Lemma digs_head f : forall n acc, (0 < n)%N -> (n < 10 ^ N.of_nat f)%N -> hd 0%N (digs f n acc) <> 48%N.
Proof.
  induction f as [|f IH]; intros n acc Hn Hf; [cbn in Hf; lia|]. cbn [digs]. destruct (N.ltb_spec n 10).
  - cbn [hd]. rewrite N.mod_small by lia. lia.
  - apply IH; [apply N.div_str_pos; lia|]. apply N.div_lt_upper_bound; [lia|]. rewrite Nat2N.inj_succ, N.pow_succ_r' in Hf. lia.
Qed.
Lemma show_N_canonical n : (0 < n)%N -> digits (show_N n) /\ decimal (show_N n) = Z.of_N n /\ hd 0%N (show_N n) <> 48%N.
Proof.
  intros H. destruct (show_N_spec n) as (H1 & H2 & H3). split; [now apply digits_iff|]. split; [rewrite decimal_digits by auto; now rewrite H3|].
  apply digs_head; auto. apply size_bound.
Qed.
Lemma decimal_pos s : digits s -> hd 0%N s <> 48%N -> (0 < decimal s)%Z.
Proof.
  intros H1 H2. pose proof (decimal_head s H1 H2). destruct s as [|c s]; [destruct H1; congruence|].
  assert (0 < 10 ^ (Z.of_nat (length (c :: s)) - 1))%Z by (apply Z.pow_pos_nonneg; cbn [length]; lia). lia.
Qed.
Lemma numeral_iff z s : numeral z s <-> s = show_Z z.
Proof.
  unfold show_Z. split.
  - intros [|t H1 H2|t H1 H2]; [reflexivity| |]; pose proof (decimal_pos t H1 H2) as P.
    + destruct (Z.ltb_spec (decimal t) 0); [lia|]. destruct (show_N_canonical (Z.abs_N (decimal t)) ltac:(lia)) as (K1 & K2 & K3).
      apply decimal_canonical; auto. lia.
    + destruct (Z.ltb_spec (- decimal t) 0); [|lia]. f_equal. destruct (show_N_canonical (Z.abs_N (- decimal t)) ltac:(lia)) as (K1 & K2 & K3).
      apply decimal_canonical; auto. lia.
  - intros ->. destruct (Z.ltb_spec z 0).
    + destruct (show_N_canonical (Z.abs_N z) ltac:(lia)) as (K1 & K2 & K3). replace z with (- decimal (show_N (Z.abs_N z)))%Z at 1 by lia. now constructor.
    + destruct (Z.eq_dec z 0) as [->|N]; [constructor|].
      destruct (show_N_canonical (Z.abs_N z) ltac:(lia)) as (K1 & K2 & K3). replace z with (decimal (show_N (Z.abs_N z)))%Z at 1 by lia. now constructor.
Qed.
Lemma numeral_N n s : numeral (Z.of_N n) s <-> s = show_N n.
Proof. rewrite numeral_iff. unfold show_Z. destruct (Z.ltb_spec (Z.of_N n) 0); [lia|]. now rewrite Zabs2N.id. Qed.

Lemma show_N_zero : show_N 0 = L "0". Proof. reflexivity. Qed.
Lemma padded_iff w z s : (0 < w) -> padded w z s <-> (0 <= z)%Z /\ s = show_pad w z.
Proof.
  intros Hw. split.
  - intros (Hd & <- & Hl & Hh). destruct Hd as [Hn Hd]. pose proof (decimal_bound s Hd) as B. split; [lia|].
    destruct (show_pad_spec w (decimal s) ltac:(lia)) as (P1 & P2 & P3 & P4).
    destruct (Nat.eq_dec w (length s)) as [E|E].
    + apply decimal_inj; auto.
      * now apply digits_iff.
      * rewrite P4; auto. rewrite E. lia.
      * rewrite (decimal_digits (show_pad _ _)) by auto. lia.
    + assert (Hh' := Hh ltac:(lia)). assert (Ds : digits s) by (split; auto).
      pose proof (decimal_pos s Ds Hh') as Hp.
      destruct (show_N_canonical (Z.to_N (decimal s)) ltac:(lia)) as (K1 & K2 & K3).
      assert (Es : s = show_N (Z.to_N (decimal s))) by (apply decimal_canonical; auto; lia).
      unfold show_pad, pad0. rewrite <- Es. replace (w - length s) with 0 by lia. reflexivity.
  - intros [Hz ->]. destruct (show_pad_spec w z Hz) as (P1 & P2 & P3 & P4).
    split; [now apply digits_iff|]. split; [rewrite decimal_digits by auto; exact P2|].
    unfold show_pad, pad0 in *. rewrite app_length, repeat_length in *. split; [lia|]. intros H.
    replace (w - length (show_N (Z.to_N z))) with 0 in * by lia. cbn [repeat app] in *.
    destruct (Z.eq_dec z 0) as [->|N]; [cbn in H; lia|]. apply (show_N_canonical (Z.to_N z)). lia.
Qed.

Lemma hex_iff x c : hex x c <-> (x < 16)%N /\ c = hex_digit x.
Proof.
  unfold hex. split.
  - intros H. assert (B : (x < 16)%N). { assert (K : nth_error hex_digits (N.to_nat x) <> None) by congruence. apply nth_error_Some in K. cbn in K. lia. }
    split; [exact B|]. assert (C : In x (map N.of_nat (seq 0 16))). { apply in_map_iff. exists (N.to_nat x). split; [lia|]. apply in_seq. lia. }
    cbn in C. repeat destruct C as [<-|C]; try contradiction; vm_compute in H; injection H as <-; reflexivity.
  - intros [B ->]. assert (C : In x (map N.of_nat (seq 0 16))). { apply in_map_iff. exists (N.to_nat x). split; [lia|]. apply in_seq. lia. }
    cbn in C. repeat destruct C as [<-|C]; try contradiction; reflexivity.
Qed.
Lemma hexs_acc f : forall n acc, hexs f n acc = hexs f n [] ++ acc.
Proof.
  induction f as [|f IH]; intros n acc; [reflexivity|]. cbn [hexs]. destruct (N.ltb_spec n 16); [reflexivity|].
  rewrite IH. rewrite (IH _ [_]). now rewrite <- app_assoc.
Qed.
Lemma hexs_fuel f : forall f' n, (n < 16 ^ N.of_nat f)%N -> (n < 16 ^ N.of_nat f')%N -> 0 < f -> 0 < f' -> hexs f n [] = hexs f' n [].
Proof.
  induction f as [|f IH]; intros [|f'] n Hf Hf' P P'; try lia. cbn [hexs]. destruct (N.ltb_spec n 16); [reflexivity|].
  assert (D : forall k, (n < 16 ^ N.of_nat (S k))%N -> (n / 16 < 16 ^ N.of_nat k)%N).
  { intros k Hk. apply N.div_lt_upper_bound; [lia|]. now rewrite Nat2N.inj_succ, N.pow_succ_r' in Hk. }
  assert (Q : forall k, (n < 16 ^ N.of_nat (S k))%N -> 0 < k).
  { intros [|k] Hk; [cbn in Hk; lia|lia]. }
  rewrite (hexs_acc f), (hexs_acc f'). f_equal. apply IH; auto.
Qed.
Lemma hex_size n : (n < 16 ^ N.of_nat (S (N.size_nat n)))%N.
Proof. eapply N.lt_le_trans; [apply size_bound|]. apply N.pow_le_mono_l. lia. Qed.
Lemma show_hex_small n : (n < 16)%N -> show_hex n = [hex_digit n].
Proof. intros H. unfold show_hex. cbn [hexs]. destruct (N.ltb_spec n 16); [|lia]. now rewrite N.mod_small. Qed.
Lemma show_hex_large n x : n <> 0%N -> (x < 16)%N -> show_hex (16 * n + x) = show_hex n ++ [hex_digit x].
Proof.
  intros Hn Hx. unfold show_hex at 1. cbn [hexs]. destruct (N.ltb_spec (16 * n + x) 16); [lia|].
  assert (E1 : ((16 * n + x) mod 16 = x)%N). { rewrite N.add_comm, N.mul_comm, N.mod_add by lia. now apply N.mod_small. }
  assert (E2 : ((16 * n + x) / 16 = n)%N). { rewrite N.add_comm, N.mul_comm, N.div_add by lia. rewrite N.div_small; lia. }
  rewrite E1, E2, hexs_acc. f_equal. apply hexs_fuel; [|apply hex_size| |lia].
  - pose proof (hex_size (16 * n + x)) as H1. rewrite Nat2N.inj_succ, N.pow_succ_r' in H1. lia.
  - destruct (16 * n + x)%N as [|p] eqn:E; [lia|]. cbn. destruct p; cbn; lia.
Qed.
Lemma hexadecimal_iff n s : hexadecimal n s <-> s = show_hex n.
Proof.
  split.
  - induction 1 as [x c H|n s x c Hn H IH Hx].
    + apply hex_iff in H as [H ->]. now rewrite show_hex_small.
    + apply hex_iff in Hx as [Hx ->]. subst s. now rewrite show_hex_large.
  - intros ->. induction n as [n IH] using (well_founded_induction N.lt_wf_0). destruct (N.lt_ge_cases n 16) as [H|H].
    + rewrite show_hex_small by auto. constructor. apply hex_iff. auto.
    + pose proof (N.div_mod n 16 ltac:(lia)) as E. pose proof (N.mod_lt n 16 ltac:(lia)) as B.
      assert (P : (n / 16 <> 0)%N) by (intros E0; rewrite E0 in E; lia).
      rewrite E. rewrite show_hex_large by auto. constructor; auto.
      * apply IH. apply N.div_lt; lia.
      * apply hex_iff. auto.
Qed.

(** ** Names and strings *)

Lemma letter_iff c : is_alpha c = true <-> letter c.
Proof. unfold is_alpha, is_upper, is_lower, letter. rewrite orb_true_iff, !andb_true_iff, !N.leb_le. tauto. Qed.
Lemma identifier_iff s : is_identifier s = true <-> identifier s.
Proof.
  unfold is_identifier, identifier. destruct s as [|c r].
  - split; [discriminate|]. intros (c & r & H & _). discriminate.
  - rewrite andb_true_iff, letter_iff, forallb_forall. split.
    + intros [H1 H2]. exists c, r. split; auto. split; auto. apply Forall_forall. intros x Hx. specialize (H2 x Hx).
      unfold is_idchar, is_alnum in H2. rewrite !orb_true_iff, letter_iff, digit_iff, N.eqb_eq in H2. unfold c_under in H2. tauto.
    + intros (c' & r' & [= <- <-] & H1 & H2). split; auto. rewrite Forall_forall in H2. intros x Hx. specialize (H2 x Hx).
      unfold is_idchar, is_alnum. rewrite !orb_true_iff, letter_iff, digit_iff, N.eqb_eq. unfold c_under. tauto.
Qed.
Section Strings.
  Context `{U : Unicode}.
  Lemma escaped_iff first c s : escaped first c s <-> s = escape_char first c.
  Proof.
    unfold escape_char. split.
    - intros [d x H|d H|d H K|d x H K X].
      + cbn in H. repeat destruct H as [[= <- <-]|H]; try contradiction; reflexivity.
      + cbn in H. repeat destruct H as [<-|H]; try contradiction; reflexivity.
      + cbn in H. unfold c_tab, c_cr, c_nl, c_dq, c_sq, c_bs. repeat match goal with |- context [(d =? ?k)%N] => destruct (N.eqb_spec d k) as [E|?]; [exfalso; apply H; rewrite E; tauto|] end.
        destruct K as [K1 K2]. rewrite K1. destruct first; cbn [andb]; auto. now rewrite K2.
      + cbn in H. unfold c_tab, c_cr, c_nl, c_dq, c_sq, c_bs. repeat match goal with |- context [(d =? ?k)%N] => destruct (N.eqb_spec d k) as [E|?]; [exfalso; apply H; rewrite E; tauto|] end.
        apply hexadecimal_iff in X as ->. unfold plain in K. fold (escape_unicode d). destruct (printable d) eqn:P.
        * destruct first; cbn [andb]; [|exfalso; apply K; split; auto; discriminate]. destruct (grapheme_extend d) eqn:G; [reflexivity|]. exfalso. auto.
        * now destruct (first && grapheme_extend d).
    - intros ->. unfold c_tab, c_cr, c_nl, c_dq, c_sq, c_bs.
      destruct (N.eqb_spec c 0) as [->|?]; [apply (ec_control first 0 "0"); cbn; auto|].
      destruct (N.eqb_spec c 9) as [->|?]; [apply (ec_control first 9 "t"); cbn; auto|].
      destruct (N.eqb_spec c 13) as [->|?]; [apply (ec_control first 13 "r"); cbn; auto|].
      destruct (N.eqb_spec c 10) as [->|?]; [apply (ec_control first 10 "n"); cbn; auto|].
      destruct (N.eqb_spec c 34) as [->|?]; [apply ec_marked; cbn; auto|].
      destruct (N.eqb_spec c 39) as [->|?]; [apply ec_marked; cbn; auto|].
      destruct (N.eqb_spec c 92) as [->|?]; [apply ec_marked; cbn; auto|].
      assert (H : ~ In c (map fst control ++ marked)) by (cbn; intuition).
      destruct (first && grapheme_extend c) eqn:G.
      + apply andb_true_iff in G as [-> G]. apply ec_number; [auto| |now apply hexadecimal_iff]. intros [_ K]. specialize (K eq_refl). congruence.
      + destruct (printable c) eqn:P.
        * apply ec_plain; auto. split; auto. intros ->. exact G.
        * apply ec_number; [auto| |now apply hexadecimal_iff]. intros [K _]. congruence.
  Qed.
  Lemma quoted_iff q x s : quoted q x s <-> s = [q] ++ escape_debug x ++ [q].
  Proof.
    assert (G : forall r ys, Forall2 (escaped false) r ys <-> ys = map (escape_char false) r).
    { induction r as [|c r IH]; intros ys; cbn [map]; [split; [intros H; now inversion H|intros ->; constructor]|].
      split; [intros H; inversion H; subst; f_equal; [now apply escaped_iff|now apply IH]|].
      intros ->. constructor; [now apply escaped_iff|now apply IH]. }
    split.
    - intros [|c r y ys H1 H2]; [reflexivity|]. apply escaped_iff in H1 as ->. apply G in H2 as ->. cbn [escape_debug app]. now rewrite <- app_assoc.
    - intros ->. destruct x as [|c r]; [constructor|]. cbn [escape_debug app]. rewrite <- app_assoc. constructor; [now apply escaped_iff|now apply G].
  Qed.
  Lemma string_text_iff x s : quoted 39 x s <-> s = show_string x.
  Proof. apply quoted_iff. Qed.
  Lemma name_text_iff n s : name_text n s <-> s = show_name n.
  Proof.
    unfold show_name. destruct (is_identifier n) eqn:E.
    - apply identifier_iff in E. split; [intros [|]; auto; contradiction|]. intros ->. now constructor.
    - assert (E' : ~ identifier n) by (rewrite <- identifier_iff; congruence). split; [intros [|t H1 H2]; [contradiction|now apply quoted_iff]|].
      intros ->. constructor 2; auto. now apply quoted_iff.
  Qed.
End Strings.

(** ** References *)

Lemma another_iff e k a (P : list N -> Prop) f : wf_exts e -> (forall n, f n = true <-> P n) ->
  existsb (is_other k a f) (e_decls e) = true <-> another e k a P.
Proof.
  intros W H. rewrite other_existsb by auto. unfold other_with, another.
  split; intros (a' & u & n & H1 & H2 & H3); exists a', u, n; rewrite H in *; auto.
Qed.
Lemma uniq_iff e k a n : wf_exts e -> uniq e k a n = false <-> another e k a (eq n).
Proof.
  intros W. unfold uniq. rewrite negb_false_iff. apply another_iff; auto. intros m. rewrite streqb_eq. split; auto.
Qed.
Lemma base_uniq_iff e k a n b : wf_exts e -> base_name n b -> base_uniq e k a n = false <-> another e k a (fun m => base_name m b).
Proof.
  intros W Hb. unfold base_uniq. rewrite negb_false_iff. apply another_iff; auto. intros m. rewrite streqb_eq.
  apply base_iff in Hb. rewrite Hb. apply base_iff.
Qed.
Lemma base_whole n b : base_name n b -> (contains_char c_colon n = false <-> n = b).
Proof.
  intros H. rewrite contains_not. change c_colon with 58%N. split.
  - intros K. destruct H as [[H _]|(sg & -> & _)]; auto. exfalso. apply K, in_or_app. right. now left.
  - intros <-. destruct H as [[_ H]|(sg & H & K)]; auto.
Qed.
Lemma reference_iff op e k a s : wf_exts e -> clean (ref_out op e k a) s <-> reference_text op e k a s.
Proof.
  intros W. destruct (decl_get e k a) as [[u n]|] eqn:D.
  - rewrite (ref_out_spec _ _ _ _ _ _ W D), clean_txt. unfold shown_name, shown_anchor, anchor_text.
    assert (B : base_name n (cn_base n)) by now apply base_iff.
    assert (BU : forall b, base_name n b -> b = cn_base n) by (intros b Hb; apply base_iff in Hb; auto).
    split.
    + intros ->. destruct (op_anchors op) eqn:O.
      * rewrite app_nil_r. eapply rt_never; eauto.
      * destruct k.
        -- destruct (base_uniq e KFunction a n) eqn:E.
           ++ rewrite (base_uniq_uniq _ _ _ _ E), andb_false_r. cbn [negb orb]. rewrite app_nil_r. eapply rt_base; eauto.
              rewrite <- (base_uniq_iff e KFunction a n) by auto. congruence.
           ++ apply (base_uniq_iff e KFunction a n _ W B) in E. rewrite andb_true_r. destruct (uniq e KFunction a n) eqn:E1; cbn [negb orb].
              ** destruct (contains_char c_colon n) eqn:E2; cbn [negb].
                 --- rewrite app_nil_r. eapply rt_name; eauto; [intros K; apply (base_whole n _ B) in K; congruence|]. rewrite <- uniq_iff by auto. congruence.
                 --- eapply rt_anchor; eauto; [left; now apply (base_whole n _ B)|now apply numeral_N].
              ** eapply rt_anchor; eauto; [right; now apply uniq_iff|now apply numeral_N].
        -- rewrite orb_false_r. destruct (uniq e KType a n) eqn:E; cbn [negb].
           ++ rewrite app_nil_r. eapply rt_type; eauto; [discriminate|]. rewrite <- uniq_iff by auto. congruence.
           ++ eapply rt_type_anchor; eauto; [discriminate|now apply uniq_iff|now apply numeral_N].
        -- rewrite orb_false_r. destruct (uniq e KTypeVariation a n) eqn:E; cbn [negb].
           ++ rewrite app_nil_r. eapply rt_type; eauto; [discriminate|]. rewrite <- uniq_iff by auto. congruence.
           ++ eapply rt_type_anchor; eauto; [discriminate|now apply uniq_iff|now apply numeral_N].
      * eapply rt_always; eauto. now apply numeral_N.
    + intros H. destruct H as [k a u' n' x O D' X|k a u' n' b O D' B'|a u' n' b O D' B' A|a u' n' b O D' B' A N' A'|a u' n' b x O D' B' A A' X|k a u' n' b K O D' B' A|k a u' n' b x K O D' B' A X];
        rewrite D' in D; injection D as -> ->; rewrite O; try apply numeral_N in X; subst; try (apply BU in B' as Eb; subst b).
      * reflexivity.
      * now rewrite app_nil_r.
      * rewrite <- (base_uniq_iff e KFunction a n) in A by auto. destruct (base_uniq e KFunction a n) eqn:E; [|congruence].
        rewrite (base_uniq_uniq _ _ _ _ E), andb_false_r. cbn [negb orb]. now rewrite app_nil_r.
      * apply (base_uniq_iff e KFunction a n _ W B) in A. rewrite <- uniq_iff in A' by auto. rewrite A. destruct (uniq e KFunction a n); [|congruence].
        cbn [negb orb]. destruct (contains_char c_colon n) eqn:E2; [cbn; now rewrite app_nil_r|]. apply (base_whole n _ B) in E2. congruence.
      * apply (base_uniq_iff e KFunction a n _ W B) in A. rewrite A. cbn [negb]. rewrite andb_true_r. destruct A' as [A'|A'].
        -- apply (base_whole n _ B) in A'. rewrite A'. cbn [negb]. now rewrite orb_true_r.
        -- apply uniq_iff in A'; auto. rewrite A'. reflexivity.
      * rewrite <- uniq_iff in A by auto. destruct (uniq e k a n); [|congruence]. destruct k; [congruence| |]; cbn; now rewrite app_nil_r.
      * apply uniq_iff in A; auto. rewrite A. destruct k; [congruence| |]; reflexivity.
  - split; [intros (H & _); now rewrite ref_out_missing in H|].
    intros H. destruct H; congruence.
Qed.
