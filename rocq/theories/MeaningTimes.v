(** Reading agrees with meaning: dates, times and durations. *)
From Coq Require Import String List NArith ZArith Bool Lia.
From Verif Require Import Base BaseFacts Peg PegFacts Lines Names NamesFacts SimpleExt Out Anchors Types
  Calendar CalendarFacts Literals SpecLiterals LiteralsFacts Props_Literals ExtReadFacts PegYields SpecRels SpecMeaning MeaningFacts.
Import ListNotations.
Local Open Scope string_scope.
Local Open Scope list_scope.
Local Open Scope nat_scope.

Lemma pbind_iff {A B} (p : peg A) (f : A -> peg B) s x :
  pbind p f s = Some x <-> exists a r, p s = Some (a, r) /\ f a r = Some x.
Proof. split; [apply pbind_inv|]. intros (a & r & H1 & H2). eapply pbind_some; eauto. Qed.
Lemma pthen_iff {A B} (p : peg A) (q : peg B) s x :
  pthen p q s = Some x <-> exists a r, p s = Some (a, r) /\ q r = Some x.
Proof. apply pbind_iff. Qed.

Lemma pret_eq {A} (a b : A) s r : pret a s = Some (b, r) -> a = b /\ s = r.
Proof. unfold pret. intros H. split; congruence. Qed.

(** ** Days *)

Lemma month_length_nth y m : (1 <= m <= 12)%Z -> nth (Z.to_nat (m - 1)) (month_lengths y) 0%Z = month_length y m.
Proof.
  intros H. assert (C : (m = 1 \/ m = 2 \/ m = 3 \/ m = 4 \/ m = 5 \/ m = 6 \/ m = 7 \/ m = 8 \/ m = 9 \/ m = 10 \/ m = 11 \/ m = 12)%Z) by lia.
  repeat (destruct C as [->|C]); try reflexivity; [|subst; reflexivity].
  cbn. unfold is_leap, month_length. cbn [Z.eqb Pos.eqb].
  rewrite orb_comm. destruct (y mod 4 =? 0)%Z eqn:E4, (y mod 100 =? 0)%Z eqn:E1, (y mod 400 =? 0)%Z eqn:E; cbn; try reflexivity.
  - exfalso. pose proof (Z.div_mod y 400 ltac:(lia)). pose proof (Z.div_mod y 4 ltac:(lia)). lia.
  - exfalso. pose proof (Z.div_mod y 400 ltac:(lia)). pose proof (Z.div_mod y 4 ltac:(lia)). lia.
Qed.
Lemma calendar_iff d : date_real d <-> on_calendar d.
Proof.
  unfold date_real, on_calendar. split; intros [H1 H2]; split; auto; rewrite ?month_length_nth in * by lia; lia.
Qed.
Lemma date_valid_calendar d : date_valid d = true <-> on_calendar d /\ (-262143 <= d_year d <= 262142)%Z.
Proof.
  unfold date_valid, on_calendar. rewrite !andb_true_iff, !in_range_iff. unfold min_year, max_year. split.
  - intros ((H1 & H2) & H3). rewrite month_length_nth in H3 by lia. auto.
  - intros ((H1 & H2) & H3). rewrite month_length_nth by lia. auto.
Qed.
Lemma day_number_iff d n : day_number d n <-> on_calendar d /\ days_of_date d = n.
Proof.
  split.
  - induction 1 as [|d n _ [R E]|d n R _ [_ E]].
    + split; [|reflexivity]. unfold on_calendar. cbn. lia.
    + apply calendar_iff in R. destruct (next_date_real _ R) as [R' E']. rewrite <- calendar_iff. split; auto. lia.
    + split; auto. apply calendar_iff in R. destruct (next_date_real _ R) as [R' E']. lia.
  - intros [R <-]. apply calendar_iff in R.
    assert (U : forall a, date_real a -> forall b, date_real b -> days_of_date b = (days_of_date a + 1)%Z -> next_date a = b).
    { intros a Ra b Rb H. destruct (next_date_real _ Ra) as [R' E']. apply days_of_date_inj; auto. lia. }
    assert (P : forall k : nat, day_number (date_of_days (Z.of_nat k)) (Z.of_nat k)).
    { induction k as [|k IH]; [exact dn_epoch|]. rewrite Nat2Z.inj_succ. unfold Z.succ.
      destruct (date_of_days_spec (Z.of_nat k)) as [R1 E1]. destruct (date_of_days_spec (Z.of_nat k + 1)) as [R2 E2].
      rewrite <- (U _ R1 _ R2) by lia. now constructor. }
    assert (M : forall k : nat, day_number (date_of_days (- Z.of_nat k)) (- Z.of_nat k)).
    { induction k as [|k IH]; [exact dn_epoch|].
      destruct (date_of_days_spec (- Z.of_nat k)) as [R1 E1]. destruct (date_of_days_spec (- Z.of_nat (S k))) as [R2 E2].
      rewrite <- (U _ R2 _ R1) in IH by lia. replace (- Z.of_nat (S k))%Z with (- Z.of_nat k - 1)%Z in * by lia.
      constructor; [now apply calendar_iff|exact IH]. }
    rewrite <- (date_of_days_of d R) at 1. destruct (Z.le_ge_cases 0 (days_of_date d)) as [G|G].
    + rewrite <- (Z2Nat.id (days_of_date d)) by lia. apply P.
    + replace (days_of_date d) with (- Z.of_nat (Z.to_nat (- days_of_date d)))%Z by lia. apply M.
Qed.

(** ** Scanning *)

Definition stops (f : N -> bool) (r : list N) : Prop := match r with c :: _ => f c = false | [] => True end.
Lemma span_upto_iff n f s a b :
  span_upto n f s = (a, b) <-> s = a ++ b /\ forallb f a = true /\ length a <= n /\ (length a = n \/ stops f b).
Proof.
  revert s a b. induction n as [|n IH]; intros s a b; cbn [span_upto].
  - split; [intros [= <- <-]; cbn; auto|]. intros (-> & _ & H & _). destruct a; [reflexivity|cbn in H; lia].
  - destruct s as [|c s].
    + split; [intros [= <- <-]; cbn; repeat split; auto; lia|]. intros (H & _). destruct a, b; try discriminate. reflexivity.
    + destruct (f c) eqn:E.
      * destruct (span_upto n f s) as [a' b'] eqn:S. apply IH in S as (-> & S2 & S3 & S4). split.
        -- intros [= <- <-]. cbn. rewrite E, S2. repeat split; auto; [lia|]. destruct S4; auto.
        -- intros (H1 & H2 & H3 & H4). destruct a as [|x a].
           ++ cbn in H1. subst b. cbn in H4. destruct H4; [discriminate|congruence].
           ++ cbn in H1. injection H1 as <- H1. cbn in H2. rewrite E in H2. cbn in H2. cbn in H3, H4.
              assert (G : span_upto n f (a' ++ b') = (a, b)).
              { apply IH. repeat split; auto; [lia|]. destruct H4; auto. }
              assert (G' : span_upto n f (a' ++ b') = (a', b')) by (apply IH; repeat split; auto). congruence.
      * split; [intros [= <- <-]; cbn; repeat split; auto; lia|].
        intros (H1 & H2 & _). destruct a as [|x a]; [cbn in H1; congruence|]. cbn in H1. injection H1 as <- _. cbn in H2.
        rewrite E in H2. discriminate.
Qed.
Lemma trim_start_iff s t : trim_start s = t <-> exists w, s = w ++ t /\ white w /\ stops is_ws t.
Proof.
  unfold trim_start. revert t. induction s as [|c s IH]; intros t.
  - cbn. split; [intros <-; exists []; repeat split; constructor|]. intros (w & H & _). now destruct w, t.
  - cbn [span]. destruct (is_ws c) eqn:E.
    + destruct (span is_ws s) as [a b] eqn:S. cbn [snd] in *. rewrite IH. split.
      * intros (w & -> & H & H'). exists (c :: w). repeat split; auto. constructor; auto. now apply white_space_iff.
      * intros (w & H1 & H2 & H3). destruct w as [|x w].
        -- cbn in H1. subst t. cbn in H3. congruence.
        -- cbn in H1. injection H1 as <- ->. inversion H2; subst. eauto.
    + cbn [snd]. split.
      * intros <-. exists []. repeat split; auto. constructor.
      * intros (w & H1 & H2 & H3). destruct w as [|x w]; [now cbn in H1|]. cbn in H1. injection H1 as <- ->. inversion H2 as [|? ? H4 ?]; subst.
        apply white_space_iff in H4. congruence.
Qed.
Lemma digit_stops_ws c r : digit c -> stops is_ws (c :: r).
Proof. intros H. cbn. apply digit_not_ws. now apply digit_iff. Qed.

Lemma decimal_nonneg s : digits s -> (0 <= decimal s)%Z.
Proof. intros H. rewrite decimal_digits by (now apply digits_iff). lia. Qed.
Lemma decimal_short s : digits s -> length s <= 4 -> (decimal s <= 9999)%Z.
Proof.
  intros [_ H] HL. unfold decimal. destruct s as [|c1 [|c2 [|c3 [|c4 [|c5 s]]]]]; cbn in HL; try lia; cbn [fold_left];
    repeat match goal with H : Forall _ (_ :: _) |- _ => inversion_clear H end; unfold digit in *; lia.
Qed.
Lemma scan_number_iff w s z r : scan_number w s = Some (z, r) <->
  exists d, s = d ++ r /\ digits d /\ length d <= w /\ z = decimal d /\ (decimal d <= i64_max)%Z /\ (length d = w \/ stops is_digit r).
Proof.
  unfold scan_number. destruct (span_upto w is_digit s) as [a b] eqn:S. apply span_upto_iff in S as (-> & S2 & S3 & S4).
  assert (U : forall d, d ++ r = a ++ b -> digits d -> length d <= w -> length d = w \/ stops is_digit r -> d = a /\ r = b).
  { intros d H D1 D2 D3. assert (G : span_upto w is_digit (a ++ b) = (d, r)).
    { apply span_upto_iff. repeat split; auto. now apply digits_iff. }
    assert (G' : span_upto w is_digit (a ++ b) = (a, b)) by (apply span_upto_iff; repeat split; auto). split; congruence. }
  destruct a as [|c a].
  - split; [discriminate|]. intros (d & H1 & H2 & H3 & _ & _ & H4). destruct (U d (eq_sym H1) H2 H3 H4) as [-> _]. destruct H2. congruence.
  - destruct (Z.leb_spec (Z.of_N (read_digits (c :: a))) i64_max) as [B|B]; split.
    + intros [= <- <-]. exists (c :: a). rewrite decimal_digits by auto. repeat split; auto.
      * discriminate.
      * now apply (digits_iff (c :: a)).
    + intros (d & H1 & H2 & H3 & -> & _ & H4). destruct (U d (eq_sym H1) H2 H3 H4) as [-> ->]. now rewrite decimal_digits.
    + discriminate.
    + intros (d & H1 & H2 & H3 & -> & H5 & H4). destruct (U d (eq_sym H1) H2 H3 H4) as [-> ->]. rewrite decimal_digits in H5 by auto. lia.
Qed.
Lemma scan_2_iff lo hi s z r : scan_2 lo hi s = Some (z, r) <->
  exists w d, s = w ++ d ++ r /\ white w /\ short d z /\ (lo <= z <= hi)%Z /\ (length d = 2 \/ stops is_digit r).
Proof.
  unfold scan_2. rewrite pthen_iff. unfold scan_skip. split.
  - intros (u & t & [= _ <-] & H). apply pbind_iff in H as (x & t' & H1 & H2).
    destruct (in_range lo hi x) eqn:E; [|discriminate]. injection H2 as <- <-. apply in_range_iff in E.
    apply scan_number_iff in H1 as (d & H1 & H3 & H4 & H5 & _ & H6).
    pose proof (proj1 (trim_start_iff s _) eq_refl) as (w & -> & W & _). rewrite H1. exists w, d. unfold short. auto 10.
  - intros (w & d & -> & W & (D1 & D2 & ->) & B & H). exists tt, (d ++ r). split.
    + do 2 f_equal. apply trim_start_iff. exists w. repeat split; auto. destruct (digits_head d D1) as (c & d' & -> & D). cbn. now apply digit_stops_ws.
    + apply pbind_iff. exists (decimal d), r. split.
      * apply scan_number_iff. exists d. pose proof (decimal_short d D1 ltac:(lia)). unfold i64_max. repeat split; auto; try lia; now apply D1.
      * apply in_range_iff in B. now rewrite B.
Qed.
Lemma scan_any_iff s z r : scan_number_any s = Some (z, r) <->
  exists d, s = d ++ r /\ digits d /\ z = decimal d /\ (decimal d <= i64_max)%Z /\ stops is_digit r.
Proof.
  unfold scan_number_any. rewrite scan_number_iff. split; intros (d & -> & D & H).
  - destruct H as (_ & -> & B & [H|H]); exists d; repeat split; auto; try apply D.
    rewrite app_length in H. destruct r; [exact I|cbn in H; lia].
  - destruct H as (-> & B & H). exists d. rewrite app_length. repeat split; auto; try apply D. lia.
Qed.
Lemma pnot_inv {A} (p : peg A) s u r : pnot p s = Some (u, r) -> p s = None /\ r = s.
Proof. unfold pnot. destruct (p s) as [[a r']|]; [discriminate|]. intros [= <-]. auto. Qed.
Lemma scan_year_sound s y r : scan_year s = Some (y, r) -> exists w ys, s = w ++ ys ++ r /\ white w /\ year_text ys y.
Proof.
  unfold scan_year. rewrite pthen_iff. unfold scan_skip. intros (u & t & Ht & H). injection Ht as _ Ht.
  apply trim_start_iff in Ht as (w & -> & W & _).
  apply pbind_iff in H as (z & t' & H & H'). destruct (in_range i32_min i32_max z); [|discriminate]. injection H' as -> ->.
  exists w. apply palt_inv in H as [H|[_ H]]; [|apply palt_inv in H as [H|[_ H]]].
  - apply pthen_iff in H as ([] & t1 & H1 & H). apply ptok_spec in H1. apply pmap_inv in H as (z & H & ->).
    apply scan_any_iff in H as (d & -> & D & -> & _). exists (45%N :: d). rewrite H1. repeat split; auto; now constructor.
  - apply pthen_iff in H as ([] & t1 & H1 & H). apply ptok_spec in H1.
    apply scan_any_iff in H as (d & -> & D & -> & _). exists (43%N :: d). rewrite H1. repeat split; auto; now constructor.
  - apply pthen_iff in H as ([] & t1 & H1 & H). apply pnot_inv in H1 as [_ ->]. apply pthen_iff in H as ([] & t2 & H1 & H). apply pnot_inv in H1 as [_ ->].
    apply scan_number_iff in H as (d & H & D & L4 & -> & _). exists d. rewrite H. repeat split; auto. now constructor.
Qed.
Lemma not_at c x s : c <> x -> ptok [c] (x :: s) = None.
Proof. intros H. apply ptok_none_hd. cbn. apply negb_true_iff. now apply N.eqb_neq. Qed.
Lemma scan_year_complete w ys y r : white w -> year_text ys y -> (-262143 <= y <= 262142)%Z -> stops is_digit r ->
  scan_year (w ++ ys ++ r) = Some (y, r).
Proof.
  intros W Y B S. unfold scan_year. apply pthen_iff. exists tt, (ys ++ r). split.
  { unfold scan_skip. do 2 f_equal. apply trim_start_iff. exists w. repeat split; auto. inversion Y; subst; try (cbn; reflexivity).
    destruct (digits_head ys ltac:(assumption)) as (c & d' & -> & D). cbn. now apply digit_stops_ws. }
  apply pbind_iff. exists y, r. split.
  2:{ assert (E : in_range i32_min i32_max y = true) by (apply in_range_iff; unfold i32_min, i32_max; lia). now rewrite E. }
  change (L "-") with [45%N]. change (L "+") with [43%N]. inversion Y; subst.
  - destruct (digits_head ys ltac:(assumption)) as (c & d' & -> & D). unfold digit in D.
    apply palt_r; [apply pthen_none; apply not_at; lia|]. apply palt_r; [apply pthen_none; apply not_at; lia|].
    apply pthen_iff. exists tt, ((c :: d') ++ r). split; [unfold pnot; cbn [app]; now rewrite not_at by lia|].
    apply pthen_iff. exists tt, ((c :: d') ++ r). split; [unfold pnot; cbn [app]; now rewrite not_at by lia|].
    apply scan_number_iff. exists (c :: d'). repeat split; auto; try now apply H. unfold i64_max. lia.
  - apply palt_r; [apply pthen_none; apply not_at; lia|]. apply palt_l. apply pthen_iff. exists tt, (s ++ r). split; [reflexivity|].
    apply scan_any_iff. exists s. repeat split; auto; try now apply H. unfold i64_max. lia.
  - apply palt_l. apply pthen_iff. exists tt, (s ++ r). split; [reflexivity|]. apply pmap_some.
    apply scan_any_iff. exists s. repeat split; auto; try now apply H. unfold i64_max. lia.
Qed.

(** ** Dates *)

Definition date_parts (sep : N) (u ds : list N) (d : date) : Prop := exists w ys w' ms w'',
  u = w ++ ys ++ sep :: w' ++ ms ++ sep :: w'' ++ ds /\ white w /\ year_text ys (d_year d) /\ white w' /\ short ms (d_month d) /\
  white w'' /\ short ds (d_day d) /\ on_calendar d /\ (-262143 <= d_year d <= 262142)%Z.
Lemma date_parts_text sep u d : date_text sep u d <-> exists ds, date_parts sep u ds d.
Proof.
  split.
  - inversion 1; subst. exists ds, w, ys, w', ms, w''. auto 10.
  - intros (ds & w & ys & w' & ms & w'' & -> & H). destruct d as [y m d]. cbn [d_year d_month d_day] in *. constructor; tauto.
Qed.
Lemma separator_not_digit sep : In sep separators -> is_digit sep = false.
Proof. intros [<-|[<-|[]]]; reflexivity. Qed.
Lemma month_length_le y m : (month_length y m <= 31)%Z.
Proof. unfold month_length. repeat destruct (_ =? _)%Z; cbn; lia. Qed.
Lemma scan_date_iff sep s d r : In sep separators ->
  scan_date sep s = Some (d, r) <-> exists u ds, s = u ++ r /\ date_parts sep u ds d /\ (length ds = 2 \/ stops is_digit r).
Proof.
  intros Hs. apply separator_not_digit in Hs. unfold scan_date. split.
  - intros H. apply pbind_iff in H as (y & r1 & H1 & H). apply scan_year_sound in H1 as (w & ys & -> & W & Y).
    apply pthen_iff in H as ([] & r2 & H2 & H). apply ptok_spec in H2 as ->.
    apply pbind_iff in H as (m & r3 & H3 & H). apply scan_2_iff in H3 as (w' & ms & -> & W' & M & Bm & _).
    apply pthen_iff in H as ([] & r4 & H4 & H). apply ptok_spec in H4 as ->.
    apply pbind_iff in H as (x & r5 & H5 & H). apply scan_2_iff in H5 as (w'' & ds & -> & W'' & D & Bd & S).
    destruct (date_valid (mk_date y m x)) eqn:V; [|discriminate]. injection H as <- <-. apply date_valid_calendar in V as [V1 V2].
    exists (w ++ ys ++ sep :: w' ++ ms ++ sep :: w'' ++ ds), ds. split; [|split; auto].
    + cbn [app]. repeat (rewrite <- app_assoc; cbn [app]). reflexivity.
    + exists w, ys, w', ms, w''. auto 10.
  - intros (u & ds & -> & (w & ys & w' & ms & w'' & -> & W & Y & W' & M & W'' & D & C & B) & S).
    repeat (rewrite <- app_assoc; cbn [app]).
    apply pbind_iff. eexists _, _. split; [apply scan_year_complete; eauto; cbn; auto|].
    apply pthen_iff. eexists tt, _. split; [apply ptok_spec; cbn [app]; reflexivity|].
    pose proof C as [C1 C2]. pose proof (month_length_le (d_year d) (d_month d)).
    apply pbind_iff. eexists _, _. split; [apply scan_2_iff; exists w', ms; split; [reflexivity|]; split; [exact W'|]; split; [exact M|]; split; [lia|right; cbn; auto]|].
    apply pthen_iff. eexists tt, _. split; [apply ptok_spec; cbn [app]; reflexivity|].
    apply pbind_iff. eexists _, _. split; [apply scan_2_iff; exists w'', ds; split; [reflexivity|]; split; [exact W''|]; split; [exact D|]; split; [lia|exact S]|].
    destruct d as [y m d]. cbn [d_year d_month d_day] in *.
    assert (V : date_valid (mk_date y m d) = true) by (apply date_valid_calendar; auto). now rewrite V.
Qed.
Lemma first_match_some {A} (ps : list (peg A)) s a : first_match ps s = Some a -> exists p, In p ps /\ p s = Some (a, []).
Proof.
  induction ps as [|p ps IH]; [discriminate|]. cbn [first_match]. unfold scan_all. destruct (p s) as [[x [|c r]]|] eqn:E.
  - intros [= <-]. exists p. cbn. auto.
  - intros H. apply IH in H as (q & H1 & H2). exists q. cbn. auto.
  - intros H. apply IH in H as (q & H1 & H2). exists q. cbn. auto.
Qed.
Lemma first_match_iff {A} (ps : list (peg A)) s a :
  (forall p q x y, In p ps -> In q ps -> p s = Some (x, []) -> q s = Some (y, []) -> x = y) ->
  first_match ps s = Some a <-> exists p, In p ps /\ p s = Some (a, []).
Proof.
  intros U. split; [apply first_match_some|]. intros (p & Hp & E). assert (G : exists b, first_match ps s = Some b).
  { clear U. induction ps as [|q ps IH]; [destruct Hp|]. cbn [first_match]. unfold scan_all. destruct Hp as [->|Hp].
    - rewrite E. eauto.
    - destruct (q s) as [[x [|c r]]|]; eauto. }
  destruct G as (b & G). rewrite G. apply first_match_some in G as (q & Hq & Eq). f_equal. eauto.
Qed.
Lemma scan_date_one s d r d' r' : scan_date 45 s = Some (d, r) -> scan_date 47 s = Some (d', r') -> False.
Proof.
  unfold scan_date. intros H H'. apply pbind_iff in H as (y & r1 & H1 & H). apply pbind_iff in H' as (y' & r1' & H1' & H').
  assert (E : r1 = r1') by congruence. subst r1'.
  apply pthen_iff in H as ([] & r2 & H2 & _). apply pthen_iff in H' as ([] & r2' & H2' & _). apply ptok_spec in H2, H2'. subst. discriminate.
Qed.
Lemma days_fit d : on_calendar d -> (-262143 <= d_year d <= 262142)%Z -> (-96465292 <= days_of_date d <= 95026236)%Z.
Proof.
  intros C B. assert (V : date_valid d = true) by (apply date_valid_calendar; auto). apply date_valid_iff in V as [_ V].
  rewrite min_days_first, max_days_last in V. apply in_range_iff in V. exact V.
Qed.
Lemma date_iff s z : parse_date_to_days s = Ok z <-> exists sep d, In sep separators /\ date_text sep s d /\ day_number d z.
Proof.
  unfold parse_date_to_days.
  assert (F : forall d, first_match [scan_date 45; scan_date 47] s = Some d <-> exists sep, In sep separators /\ date_text sep s d).
  { intros d. rewrite first_match_iff.
    - split.
      + intros (p & Hp & E). assert (exists sep, In sep separators /\ p = scan_date sep) as (sep & Hs & ->).
        { destruct Hp as [<-|[<-|[]]]; eexists; (split; [|reflexivity]); cbn; auto. }
        apply scan_date_iff in E as (u & ds & -> & E & _); auto. exists sep. rewrite app_nil_r. split; auto. apply date_parts_text. eauto.
      + intros (sep & Hs & E). exists (scan_date sep). split; [destruct Hs as [<-|[<-|[]]]; cbn; auto|].
        apply scan_date_iff; auto. apply date_parts_text in E as (ds & E). exists s, ds. rewrite app_nil_r. cbn. auto.
    - intros p q x y [<-|[<-|[]]] [<-|[<-|[]]] E1 E2; try congruence; exfalso; eapply scan_date_one; eauto. }
  assert (R : forall sep d, date_text sep s d -> on_calendar d /\ (-96465292 <= days_of_date d <= 95026236)%Z).
  { intros sep d H. apply date_parts_text in H as (ds & w & ys & w' & ms & w'' & _ & _ & _ & _ & _ & _ & _ & C & B). split; auto. now apply days_fit. }
  destruct (first_match [scan_date 45; scan_date 47] s) as [d|].
  - destruct (proj1 (F d) eq_refl) as (sep & Hs & E). destruct (R _ _ E) as [C B].
    assert (G : wrap_i32 (days_of_date d) = days_of_date d) by (apply wrap_i32_id, in_range_iff; unfold i32_min, i32_max; lia). rewrite G. split.
    + intros [= <-]. exists sep, d. rewrite day_number_iff. auto.
    + intros (sep' & d' & Hs' & E' & N). assert (G' : Some d = Some d') by (apply F; eauto). injection G' as <-. apply day_number_iff in N as [_ <-]. reflexivity.
  - split; [discriminate|]. intros (sep & d & Hs & E & _). assert (G : None = Some d) by (apply F; eauto). discriminate.
Qed.

(** ** Times of day *)

Lemma decimal_from_pad s k : forall a, (fold_left (fun a c => 10 * a + (Z.of_N c - 48)) (s ++ repeat 48%N k) a
  = fold_left (fun a c => 10 * a + (Z.of_N c - 48)) s a * 10 ^ Z.of_nat k)%Z.
Proof.
  intros a. rewrite fold_left_app. generalize (fold_left (fun a c => 10 * a + (Z.of_N c - 48))%Z s a). clear.
  induction k as [|k IH]; intros z; cbn [repeat fold_left]; [cbn; lia|]. rewrite IH. rewrite Nat2Z.inj_succ, Z.pow_succ_r by lia. lia.
Qed.
Lemma scan_frac_iff s n : scan_frac s = Some (n, []) <-> fraction s n.
Proof.
  unfold scan_frac. destruct s as [|c r].
  - split; [intros [= <-]; constructor|]. inversion 1. reflexivity.
  - destruct (N.eqb_spec c 46) as [->|Hc].
    + destruct (span_upto 9 is_digit r) as [d r'] eqn:S. apply span_upto_iff in S as (-> & S2 & S3 & S4).
      assert (E : forall t, forallb is_digit (d ++ t) = true -> length d = 9 \/ t = [] -> d <> [] ->
        decimal (firstn 9 ((d ++ t) ++ repeat 48%N 9)) = (Z.of_N (read_digits d) * 10 ^ (9 - Z.of_nat (length d)))%Z).
      { intros t Ht [H9|H0] Hd.
        - rewrite <- app_assoc. replace 9 with (length d + 0) at 1 by lia. rewrite firstn_app_2. cbn [firstn].
          rewrite app_nil_r, decimal_digits by auto. rewrite H9. cbn. lia.
        - subst t. rewrite app_nil_r, firstn_app, (firstn_all2 d) by lia.
          rewrite <- decimal_digits by auto. unfold decimal.
          assert (G : firstn (9 - length d) (repeat 48%N 9) = repeat 48%N (9 - length d)).
          { generalize (9 - length d), (Nat.le_sub_l 9 (length d)). clear. intros n H.
            do 10 (destruct n as [|n]; [reflexivity|]). lia. }
          rewrite G, decimal_from_pad. f_equal. f_equal. lia. }
      destruct d as [|x d].
      * split; [discriminate|]. inversion 1; subst. exfalso. destruct (digits_head _ ltac:(eassumption)) as (y & t & -> & D).
        cbn in S4. destruct S4 as [S4|S4]; [lia|]. apply digit_iff in D. congruence.
      * assert (N0 : x :: d <> []) by discriminate. split.
        -- intros [= <- H]. assert (G : forallb is_digit r' = true).
           { destruct (span is_digit r') as [u v] eqn:Sp. cbn in H. subst v. clear - Sp. revert u Sp. induction r' as [|y r' IH]; intros u; cbn; auto.
             destruct (is_digit y); [|discriminate]. destruct (span is_digit r') as [u' v']. intros [= <- ->]. eauto. }
           assert (A : forallb is_digit ((x :: d) ++ r') = true) by now rewrite forallb_app, S2, G.
           change (fraction (46%N :: (x :: d) ++ r') (Z.of_N (read_digits (x :: d)) * 10 ^ (9 - Z.of_nat (length (x :: d))))%Z).
           rewrite <- (E r'); auto.
           ++ constructor. apply digits_iff. split; auto. discriminate.
           ++ destruct S4 as [S4|S4]; auto. right. destruct r' as [|y r']; auto. cbn in S4, G. rewrite S4 in G. discriminate.
        -- inversion 1 as [|s D]; subst. apply digits_iff in D as [_ D]. change (x :: d ++ r') with ((x :: d) ++ r') in *. pose proof D as D'. rewrite forallb_app in D'. apply andb_true_iff in D' as [_ G].
           assert (Sp : span is_digit r' = (r', [])).
           { clear - G. induction r' as [|y r' IH]; cbn; auto. cbn in G. apply andb_true_iff in G as [-> G]. now rewrite IH. }
           rewrite Sp. cbn [snd]. do 2 f_equal. symmetry. apply E; auto.
           destruct S4 as [S4|S4]; auto. right. destruct r' as [|y r']; auto. cbn in S4, G. rewrite S4 in G. discriminate.
    + split; [discriminate|]. inversion 1; subst. congruence.
Qed.
Lemma fraction_stops s n : fraction s n -> stops is_digit s.
Proof. inversion 1; cbn; auto. Qed.
Lemma fraction_nonneg s n : fraction s n -> (0 <= n < 1000000000)%Z.
Proof.
  inversion 1 as [|t D]; subst; [lia|]. unfold decimal.
  assert (G : forall l, Forall digit l -> forall a, (0 <= a)%Z ->
    (0 <= fold_left (fun a c => 10 * a + (Z.of_N c - 48)) l a < (a + 1) * 10 ^ Z.of_nat (length l))%Z).
  { induction 1 as [|c l Hc _ IH]; intros a Ha; cbn [fold_left length]; [cbn; lia|].
    unfold digit in Hc. specialize (IH (10 * a + (Z.of_N c - 48))%Z ltac:(lia)). rewrite Nat2Z.inj_succ, Z.pow_succ_r by lia.
    pose proof (Z.pow_pos_nonneg 10 (Z.of_nat (length l)) ltac:(lia) ltac:(lia)). nia. }
  assert (F : Forall digit (firstn 9 (t ++ repeat 48%N 9))).
  { apply Forall_forall. intros c Hc. assert (I : In c (t ++ repeat 48%N 9)).
    { rewrite <- (firstn_skipn 9 (t ++ repeat 48%N 9)). apply in_or_app. now left. }
    apply in_app_or in I as [I|I]; [|apply repeat_spec in I as ->; unfold digit; lia]. destruct D as [_ D]. rewrite Forall_forall in D. auto. }
  specialize (G _ F 0%Z ltac:(lia)). assert (L9 : length (firstn 9 (t ++ repeat 48%N 9)) = 9) by (rewrite firstn_length, app_length, repeat_length; lia).
  rewrite L9 in G. change (10 ^ Z.of_nat 9)%Z with 1000000000%Z in G. lia.
Qed.
Lemma short_nonneg s z : short s z -> (0 <= z)%Z.
Proof. intros (D & _ & ->). now apply decimal_nonneg. Qed.
Lemma scan_time_iff s n : (exists t, scan_time true s = Some (t, []) /\ time_nanos t = n) <-> time_text s n.
Proof.
  unfold scan_time. split.
  - intros (t & H & <-). apply pbind_iff in H as (h & r1 & H1 & H). apply scan_2_iff in H1 as (w & hs & -> & W & Hh & Bh & _).
    apply pthen_iff in H as ([] & r2 & H2 & H). apply ptok_spec in H2 as ->.
    apply pbind_iff in H as (m & r3 & H3 & H). apply scan_2_iff in H3 as (w' & ms & -> & W' & M & Bm & _).
    apply pthen_iff in H as ([] & r4 & H4 & H). apply ptok_spec in H4 as ->.
    apply pbind_iff in H as (c & r5 & H5 & H). apply scan_2_iff in H5 as (w'' & ss & -> & W'' & S & Bs & _).
    apply pbind_iff in H as (f & r6 & H6 & H). cbv zeta in H. apply pret_eq in H as [<- ->]. apply scan_frac_iff in H6.
    assert (G : time_nanos (if (c =? 60)%Z then mk_time (h * 3600 + m * 60 + 59) (nano_per_sec + f) else mk_time (h * 3600 + m * 60 + c) f)
      = (((h * 60 + m) * 60 + c) * 1000000000 + f)%Z).
    { unfold time_nanos, nano_per_sec. destruct (Z.eqb_spec c 60) as [->|]; cbn [t_secs t_nano]; lia. }
    rewrite G. apply (ct_clock w hs w' ms w'' ss r5); auto; lia.
  - inversion_clear 1 as [w hs w' ms w'' ss fs h m c f W Hh W' M W'' S Hf Bh Bm Bs].
    pose proof (fraction_stops _ _ Hf). pose proof (short_nonneg _ _ Hh). pose proof (short_nonneg _ _ M). pose proof (short_nonneg _ _ S).
    eexists. split.
    + apply pbind_iff. eexists _, _. split; [apply scan_2_iff; exists w, hs; split; [reflexivity|]; split; [exact W|]; split; [exact Hh|]; split; [lia|right; reflexivity]|].
      apply pthen_iff. eexists tt, _. split; [apply ptok_spec; reflexivity|].
      apply pbind_iff. eexists _, _. split; [apply scan_2_iff; exists w', ms; split; [reflexivity|]; split; [exact W'|]; split; [exact M|]; split; [lia|right; reflexivity]|].
      apply pthen_iff. eexists tt, _. split; [apply ptok_spec; reflexivity|].
      apply pbind_iff. eexists _, _. split; [apply scan_2_iff; exists w'', ss; split; [reflexivity|]; split; [exact W''|]; split; [exact S|]; split; [lia|auto]|].
      apply pbind_iff. eexists _, _. split; [apply scan_frac_iff; eassumption|]. reflexivity.
    + unfold time_nanos, nano_per_sec. destruct (Z.eqb_spec c 60) as [->|]; cbn [t_secs t_nano]; lia.
Qed.
Lemma scan_time_plain s t : scan_time false s = Some (t, []) -> scan_time true s = Some (t, []).
Proof.
  unfold scan_time. intros H. apply pbind_iff in H as (h & r1 & H1 & H). apply pthen_iff in H as ([] & r2 & H2 & H).
  apply pbind_iff in H as (m & r3 & H3 & H). apply pthen_iff in H as ([] & r4 & H4 & H). apply pbind_iff in H as (c & r5 & H5 & H).
  apply pbind_iff in H as (f & r6 & H6 & H). apply pret_eq in H6 as [<- <-]. cbv zeta in H. apply pret_eq in H as [<- ->].
  apply pbind_iff. exists h, r1. split; auto. apply pthen_iff. exists tt, r2. split; auto. apply pbind_iff. exists m, r3. split; auto.
  apply pthen_iff. exists tt, r4. split; auto. apply pbind_iff. exists c, []. split; auto.
Qed.
Lemma time_match s n : (exists t, first_match [scan_time true; scan_time false] s = Some t /\ time_nanos t = n) <-> time_text s n.
Proof.
  rewrite <- scan_time_iff. split; intros (t & H & E); exists t; split; auto.
  - apply first_match_some in H as (p & [<-|[<-|[]]] & H); auto. now apply scan_time_plain.
  - now apply first_match_hd.
Qed.
Lemma time_bounds s n : time_text s n -> (0 <= n < 86401000000000)%Z.
Proof.
  inversion_clear 1 as [w hs w' ms w'' ss fs h m c f W Hh W' M W'' S Hf Bh Bm Bs].
  pose proof (short_nonneg _ _ Hh). pose proof (short_nonneg _ _ M). pose proof (short_nonneg _ _ S). pose proof (fraction_nonneg _ _ Hf). lia.
Qed.

(** ** Points in time *)

Lemma trim_twice s : trim_start (trim_start s) = trim_start s.
Proof.
  pose proof (proj1 (trim_start_iff s _) eq_refl) as (w & _ & _ & S). apply trim_start_iff. exists []. repeat split; auto. constructor.
Qed.
Lemma scan_time_trim f s : scan_time f (trim_start s) = scan_time f s.
Proof.
  unfold scan_time. unfold pbind at 1 6. unfold scan_2 at 1 4. unfold pthen at 1. unfold pbind at 1. unfold scan_skip at 1. rewrite trim_twice.
  unfold pthen at 4. unfold pbind at 6. unfold scan_skip at 1. reflexivity.
Qed.
Lemma date_two sep a x y d : In sep separators -> digit x -> digit y -> date_text sep (a ++ [x; y]) d ->
  exists ds, date_parts sep (a ++ [x; y]) ds d /\ length ds = 2.
Proof.
  intros Hs Hx Hy H. apply date_parts_text in H as (ds & H). exists ds. split; auto.
  destruct H as (w & ys & w' & ms & w'' & E & _ & _ & _ & _ & W & (D1 & D2 & _) & _).
  destruct ds as [|z [|z' [|z'' ds]]]; cbn in D2; try lia; [destruct D1; congruence| |reflexivity]. exfalso.
  assert (T : exists pre, w ++ ys ++ sep :: w' ++ ms ++ sep :: w'' ++ [z] = (pre ++ sep :: w'') ++ [z]).
  { exists (w ++ ys ++ sep :: w' ++ ms). repeat (rewrite <- app_assoc; cbn [app]). reflexivity. }
  destruct T as (pre & T). rewrite T in E. change [x; y] with ([x] ++ [y]) in E. rewrite app_assoc in E. apply app_inj_tail in E as [E _].
  assert (G : In sep separators -> last (pre ++ sep :: w'') 0%N = x -> False).
  { intros _ G. destruct (exists_last (l := sep :: w'') ltac:(discriminate)) as (l & c & El). rewrite El, app_assoc, last_last in G. subst c.
    destruct l as [|c' l]; cbn in El; injection El as -> ->.
    - apply separator_not_digit in Hs. apply digit_iff in Hx. congruence.
    - unfold white in W. rewrite Forall_forall in W. assert (I : In x (l ++ [x])) by (apply in_or_app; right; now left). apply W in I.
      apply white_space_iff in I. apply digit_iff in Hx. apply digit_not_ws in Hx. congruence. }
  apply G; auto. rewrite <- E. apply last_last.
Qed.
Lemma datetime_sound sep t f s d x : In sep separators -> scan_datetime sep t f s = Some ((d, x), []) ->
  moment_text sep s (datetime_nanos (d, x)).
Proof.
  intros Hs H. unfold scan_datetime in H. apply pbind_iff in H as (d0 & r1 & H1 & H). apply scan_date_iff in H1 as (u & ds & -> & P & S); auto.
  assert (D : date_text sep u d0) by (apply date_parts_text; eauto).
  assert (Dn : day_number d0 (days_of_date d0)).
  { apply day_number_iff. split; auto. destruct P as (? & ? & ? & ? & ? & P). tauto. }
  apply pthen_iff in H as (q & r2 & H2 & H). apply pbind_iff in H as (x0 & r3 & H3 & H). apply pret_eq in H as [H ->]. injection H as -> ->.
  assert (T : time_text r2 (time_nanos x)).
  { apply scan_time_iff. exists x. split; auto. destruct f; auto. now apply scan_time_plain. }
  unfold datetime_nanos. cbn [fst snd]. change nanos_per_day with 86400000000000%Z. destruct t.
  - destruct q. apply ptok_spec in H2 as ->. now constructor 1 with (d := d).
  - unfold scan_skip in H2. injection H2 as _ H2. assert (T' : time_text r1 (time_nanos x)).
    { apply scan_time_iff in T as (t' & T & <-). apply scan_time_iff. exists t'. split; auto. rewrite <- H2, scan_time_trim in T. exact T. }
    apply trim_start_iff in H2 as (w & -> & W & Sw). destruct w as [|c w].
    + cbn [app] in *. destruct S as [S|S].
      * destruct ds as [|a [|b [|]]]; try discriminate.
        destruct P as (w1 & ys & w2 & ms & w3 & -> & P). destruct P as (_ & _ & _ & _ & _ & ((_ & Dd) & _) & _).
        inversion Dd as [|? ? Da Dd']; subst. inversion Dd'; subst.
        assert (E : forall z, w1 ++ ys ++ sep :: w2 ++ ms ++ sep :: w3 ++ z = (w1 ++ ys ++ sep :: w2 ++ ms ++ sep :: w3) ++ z).
        { intros z. repeat (rewrite <- app_assoc; cbn [app]). reflexivity. }
        rewrite E in D. rewrite (E [a; b]), <- app_assoc. now constructor 3 with (d := d).
      * exfalso. inversion T as [w' hs ? ? ? ? ? ? ? ? ? W' (Hh & _) ]; subst. destruct w' as [|c w'].
        -- destruct (digits_head hs Hh) as (c & hs' & -> & Dc). cbn in S. apply digit_iff in Dc. congruence.
        -- cbn in Sw. inversion W' as [|? ? Wc]; subst. apply white_space_iff in Wc. congruence.
    + cbn [app] in *. inversion W; subst. now constructor 2 with (d := d).
Qed.
Lemma datetime_complete sep s n : In sep separators -> moment_text sep s n ->
  exists t d x, scan_datetime sep t true s = Some ((d, x), []) /\ datetime_nanos (d, x) = n.
Proof.
  intros Hs H. unfold datetime_nanos. cbn [fst snd]. change nanos_per_day with 86400000000000%Z.
  destruct H as [a d k b t D K T|a d k c b t D K W T|a x y d k b t D Hx Hy K T]; apply day_number_iff in K as [_ <-].
  - apply scan_time_iff in T as (z & T & <-). apply date_parts_text in D as (ds & D). exists true, d, z. split; auto.
    unfold scan_datetime. apply pbind_iff. exists d, (84%N :: b). split; [apply scan_date_iff; auto; exists a, ds; split; [reflexivity|split; [exact D|right; reflexivity]]|].
    apply pthen_iff. exists tt, b. split; [now apply ptok_spec|]. apply pbind_iff. exists z, []. auto.
  - apply scan_time_iff in T as (z & T & <-). apply date_parts_text in D as (ds & D). exists false, d, z. split; auto.
    unfold scan_datetime. apply pbind_iff. exists d, (c :: b). split.
    { apply scan_date_iff; auto. exists a, ds. split; [reflexivity|]. split; [exact D|]. right. cbn. apply white_space_iff in W.
      destruct (is_digit c) eqn:E; auto. apply digit_not_ws in E. congruence. }
    apply pthen_iff. exists tt, (trim_start (c :: b)). split; [reflexivity|]. apply pbind_iff. exists z, []. rewrite scan_time_trim. auto.
  - apply scan_time_iff in T as (z & T & <-). apply date_two in D as (ds & D & D2); auto. exists false, d, z. split; auto.
    unfold scan_datetime. apply pbind_iff. exists d, b. split; [apply scan_date_iff; auto; exists (a ++ [x; y]), ds; rewrite <- app_assoc; auto|].
    apply pthen_iff. exists tt, (trim_start b). split; [reflexivity|]. apply pbind_iff. exists z, []. rewrite scan_time_trim. auto.
Qed.
Lemma time_head s n : time_text s n -> exists c r, s = c :: r /\ (digit c \/ In c white_space).
Proof.
  inversion_clear 1 as [w hs w' ms w'' ss fs h m c f W (Hh & _) W' M W'' S Hf Bh Bm Bs]. destruct w as [|x w].
  - destruct (digits_head hs Hh) as (c0 & hs' & -> & Dc). cbn. eauto.
  - inversion W; subst. cbn. eauto.
Qed.
Lemma scan_time_T f b t : scan_time f (84%N :: b) = Some (t, []) -> False.
Proof. discriminate. Qed.
Lemma datetime_agree sep t f sep' t' f' s x y : In sep separators -> In sep' separators ->
  scan_datetime sep t f s = Some (x, []) -> scan_datetime sep' t' f' s = Some (y, []) -> sep = sep' /\ x = y.
Proof.
  intros Hs Hs' H H'. unfold scan_datetime in *.
  apply pbind_iff in H as (d & r1 & H1 & H). apply pbind_iff in H' as (d' & r1' & H1' & H').
  assert (E : sep = sep').
  { destruct Hs as [<-|[<-|[]]], Hs' as [<-|[<-|[]]]; auto; exfalso; eapply scan_date_one; eauto. }
  subst sep'. split; auto. rewrite H1 in H1'. injection H1' as <- <-.
  apply pthen_iff in H as (u & r2 & H2 & H). apply pthen_iff in H' as (u' & r2' & H2' & H').
  apply pbind_iff in H as (z & r3 & H3 & H). apply pbind_iff in H' as (z' & r3' & H3' & H').
  apply pret_eq in H as [<- ->]. apply pret_eq in H' as [<- ->]. f_equal.
  assert (G : forall g r v, scan_time g r = Some (v, []) -> scan_time true r = Some (v, [])) by (intros [|]; auto; apply scan_time_plain).
  assert (N : forall r, trim_start (84%N :: r) = 84%N :: r) by reflexivity.
  destruct t, t'.
  - assert (r2 = r2') by congruence. subst r2'. apply G in H3, H3'. congruence.
  - exfalso. destruct u. apply ptok_spec in H2. cbn in H2. subst r1. unfold scan_skip in H2'. rewrite N in H2'. injection H2' as _ <-.
    eapply scan_time_T; eauto.
  - exfalso. destruct u'. apply ptok_spec in H2'. cbn in H2'. subst r1. unfold scan_skip in H2. rewrite N in H2. injection H2 as _ <-.
    eapply scan_time_T; eauto.
  - assert (r2 = r2') by congruence. subst r2'. apply G in H3, H3'. congruence.
Qed.
Lemma format_of p : In p timestamp_formats -> exists sep t f, In sep separators /\ p = scan_datetime sep t f.
Proof.
  unfold timestamp_formats. intros H. repeat (destruct H as [<-|H]; [eexists _, _, _; split; [|reflexivity]; cbn; auto|]). destruct H.
Qed.
Lemma moment_match s n : (exists x, first_match timestamp_formats s = Some x /\ datetime_nanos x = n) <->
  exists sep, In sep separators /\ moment_text sep s n.
Proof.
  assert (U : forall p q x y, In p timestamp_formats -> In q timestamp_formats -> p s = Some (x, []) -> q s = Some (y, []) -> x = y).
  { intros p q x y Hp Hq E E'. apply format_of in Hp as (sep & t & f & Hs & ->). apply format_of in Hq as (sep' & t' & f' & Hs' & ->).
    exact (proj2 (datetime_agree _ _ _ _ _ _ _ _ _ Hs Hs' E E')). }
  split.
  - intros (x & H & <-). apply first_match_some in H as (p & Hp & E). apply format_of in Hp as (sep & t & f & Hs & ->).
    exists sep. split; auto. destruct x as [d x]. eapply datetime_sound; eauto.
  - intros (sep & Hs & H). apply datetime_complete in H as (t & d & x & E & <-); auto. exists (d, x). split; auto.
    apply first_match_iff; auto. exists (scan_datetime sep t true). split; auto.
    unfold timestamp_formats. destruct Hs as [<-|[<-|[]]], t; cbn; auto 10.
Qed.
Lemma moment_bounds sep s n : moment_text sep s n -> (Z.abs n < 10 ^ 22)%Z.
Proof.
  assert (G : forall a d k t b, date_text sep a d -> day_number d k -> time_text b t -> (Z.abs (k * 86400000000000 + t) < 10 ^ 22)%Z).
  { intros a d k t b D K T. apply time_bounds in T. apply day_number_iff in K as [_ <-].
    apply date_parts_text in D as (ds & w & ys & w' & ms & w'' & _ & _ & _ & _ & _ & _ & _ & C & B). pose proof (days_fit d C B). lia. }
  destruct 1; eauto.
Qed.

(** ** Units *)

Lemma units_iff n p v : p <> PPico -> (Z.abs n < 10 ^ 22)%Z -> duration_to_units n p = Ok v <-> in_units (prec_units p) n v.
Proof.
  intros Hp B. unfold in_units, i64.
  assert (X : forall u, (0 < u)%Z -> (if (Z.quot n u * u =? n)%Z then Ok (Z.quot n u) else Err (PInvalid "precision_literal_fractional_truncated")) = Ok v
    <-> (n = v * u)%Z).
  { intros u Hu. destruct (Z.eqb_spec (Z.quot n u * u) n) as [E|E].
    - split; [intros [= <-]; lia|]. intros ->. now rewrite quot_exact.
    - split; [discriminate|]. intros ->. rewrite quot_exact in E by auto. lia. }
  destruct p; cbn [duration_to_units prec_units]; try congruence.
  - rewrite X by lia. change (10 ^ (9 - 0))%Z with 1000000000%Z. cbn [In]. split; [|tauto]. intros ->. repeat split; auto; lia.
  - rewrite X by lia. change (10 ^ (9 - 3))%Z with 1000000%Z. cbn [In]. split; [|tauto]. intros ->. repeat split; auto; lia.
  - change (10 ^ (9 - 6))%Z with 1000%Z. destruct (in_range i64_min i64_max (Z.quot n 1000)) eqn:E.
    + apply in_range_iff in E. unfold i64_min, i64_max in E. rewrite X by lia. cbn [In]. split; [|tauto]. intros ->.
      rewrite quot_exact in E by lia. repeat split; auto; lia.
    + split; [discriminate|]. intros (_ & -> & R). rewrite quot_exact in E by lia. assert (G : in_range i64_min i64_max v = true).
      { apply in_range_iff. unfold i64_min, i64_max. lia. } congruence.
  - change (10 ^ (9 - 9))%Z with 1%Z. destruct (in_range i64_min i64_max n) eqn:E.
    + apply in_range_iff in E. unfold i64_min, i64_max in E. cbn [In]. split; [intros [= <-]; repeat split; auto; lia|]. intros (_ & -> & _). f_equal. lia.
    + split; [discriminate|]. intros (_ & -> & R). assert (G : in_range i64_min i64_max (v * 1) = true).
      { apply in_range_iff. unfold i64_min, i64_max. lia. } congruence.
Qed.
Lemma supported_iff z p : check_supported_precision z = Ok p <-> p <> PPico /\ z = prec_units p.
Proof.
  unfold check_supported_precision, prec_of_units. split.
  - repeat (match goal with |- context [(?a =? ?b)%Z] => destruct (Z.eqb_spec a b) as [->|] end; cbn iota).
    all: try (intros [= <-]; split; [discriminate|reflexivity]); discriminate.
  - intros [Hp ->]. destruct p; try reflexivity. congruence.
Qed.
Lemma supported_units z n v : in_units z n v -> exists p, p <> PPico /\ z = prec_units p.
Proof.
  intros [H _]. cbn in H. destruct H as [<-|[<-|[<-|[<-|[]]]]]; [exists PSec|exists PMilli|exists PMicro|exists PNano]; split; (discriminate || reflexivity).
Qed.
Lemma units_all z n v : (Z.abs n < 10 ^ 22)%Z ->
  (exists p, check_supported_precision z = Ok p /\ duration_to_units n p = Ok v) <-> in_units z n v.
Proof.
  intros B. split.
  - intros (p & H & E). apply supported_iff in H as [H ->]. now apply units_iff.
  - intros H. destruct (supported_units _ _ _ H) as (p & Hp & ->). exists p. rewrite supported_iff, units_iff; auto.
Qed.
Lemma time_iff s z v : parse_time s z = Ok v <-> exists n, time_text s n /\ in_units z n v.
Proof.
  unfold parse_time. rewrite rbind_iff. split.
  - intros (p & H & E). destruct (first_match [scan_time true; scan_time false] s) as [t|] eqn:M; [|discriminate].
    exists (time_nanos t). assert (T : time_text s (time_nanos t)) by (apply time_match; eauto). split; auto.
    apply units_all; [apply time_bounds in T; lia|eauto].
  - intros (n & T & U). pose proof (time_bounds _ _ T) as B. apply time_match in T as (t & -> & <-). now apply units_all; [lia|].
Qed.
Lemma moment_iff s z v : parse_timestamp s z = Ok v <-> exists sep n, In sep separators /\ moment_text sep s n /\ in_units z n v.
Proof.
  unfold parse_timestamp. rewrite rbind_iff. split.
  - intros (p & H & E). destruct (first_match timestamp_formats s) as [x|] eqn:M; [|discriminate].
    assert (exists sep, In sep separators /\ moment_text sep s (datetime_nanos x)) as (sep & Hs & T) by (apply moment_match; eauto).
    exists sep, (datetime_nanos x). split; auto. split; auto. apply units_all; [eapply moment_bounds; eauto|eauto].
  - intros (sep & n & Hs & T & U). pose proof (moment_bounds _ _ _ T) as B.
    assert (exists x, first_match timestamp_formats s = Some x /\ datetime_nanos x = n) as (x & -> & <-) by (apply moment_match; eauto).
    now apply units_all.
Qed.

(** ** Durations *)

Lemma pwhile1_iff f s a r : pwhile1 f s = Some (a, r) <-> s = a ++ r /\ a <> [] /\ forallb f a = true /\ stops f r.
Proof.
  split.
  - unfold pwhile1. intros H. destruct s as [|c s]; [discriminate|]. cbn [span] in H. destruct (f c) eqn:E; [|discriminate].
    destruct (span f s) as [u v] eqn:S. injection H as <- <-.
    assert (G : forall s u v, span f s = (u, v) -> s = u ++ v /\ forallb f u = true /\ stops f v).
    { clear. induction s as [|x s IH]; intros u v; cbn [span]; [intros [= <- <-]; cbn; auto|]. destruct (f x) eqn:E.
      - destruct (span f s) as [a b]. intros [= <- <-]. destruct (IH _ _ eq_refl) as (-> & H1 & H2). cbn. rewrite E. auto.
      - intros [= <- <-]. cbn. auto. }
    apply G in S as (-> & S1 & S2). cbn. rewrite E. repeat split; auto. discriminate.
  - intros (-> & N & F & S). apply pwhile1_app; auto. destruct r; cbn in *; auto. now rewrite S.
Qed.
Lemma integer_iff s i r : g_integer s = Some (i, r) <-> s = i ++ r /\ integer_text i /\ stops is_digit r.
Proof.
  unfold g_integer, integer_text. split.
  - intros H. apply pbind_iff in H as (m & r1 & H1 & H). apply pbind_iff in H as (d & r2 & H2 & H). apply pret_eq in H as [<- ->].
    apply pwhile1_iff in H2 as (-> & N & F & S). assert (D : digits d) by (apply digits_iff; auto). apply popt_inv in H1. destruct m as [[]|].
    + apply ptok_spec in H1 as ->. repeat split; eauto.
    + destruct H1 as [_ <-]. repeat split; auto.
  - intros (-> & I & S). apply pbind_iff. destruct I as [D|(d & -> & D)].
    + exists None, (i ++ r). split.
      * apply popt_none. destruct (digits_head i D) as (c & t & -> & Dc). cbn [app]. apply (not_at 45). unfold digit in Dc. lia.
      * apply pbind_iff. exists i, r. split; [|reflexivity]. apply digits_iff in D. apply pwhile1_iff. tauto.
    + exists (Some tt), (d ++ r). split; [apply popt_some; now apply ptok_spec|].
      apply pbind_iff. exists d, r. split; [|reflexivity]. apply digits_iff in D. apply pwhile1_iff. tauto.
Qed.
Definition unit_words : list (list N) := [L "ms"; L "us"; L "ns"; L "ps"].
Lemma term_iff t s i r : stops is_digit (t ++ r) -> (i0 <- g_integer ;; ptok t ;;; pret i0)%peg s = Some (i, r) <-> s = i ++ t ++ r /\ integer_text i.
Proof.
  intros S. split.
  - intros H. apply pbind_iff in H as (x & r1 & H1 & H). apply pthen_iff in H as ([] & r2 & H2 & H). apply pret_eq in H as [-> ->].
    apply ptok_spec in H2 as ->. apply integer_iff in H1. tauto.
  - intros (-> & I). apply pbind_iff. exists i, (t ++ r). split; [now apply integer_iff|]. apply pthen_iff. exists tt, r. split; [|reflexivity].
    now apply ptok_spec.
Qed.
Lemma days_term s i r : g_duration_days s = Some (i, r) <-> s = i ++ L "d" ++ r /\ integer_text i.
Proof. apply term_iff. reflexivity. Qed.
Lemma seconds_term s i r : g_duration_seconds s = Some (i, r) <-> s = i ++ L "s" ++ r /\ integer_text i.
Proof. apply term_iff. reflexivity. Qed.
Lemma unit_stops un r : In un unit_words -> stops is_digit (un ++ r).
Proof. intros [<-|[<-|[<-|[<-|[]]]]]; reflexivity. Qed.
Lemma unit_iff s un r : ptoks unit_words s = Some (un, r) <-> In un unit_words /\ s = un ++ r.
Proof.
  split.
  - unfold unit_words. cbn [ptoks]. intros H.
    repeat (apply palt_inv in H as [H|[_ H]]; [apply pmap_inv in H as ([] & H & ->); apply ptok_spec in H as ->; split; [cbn; tauto|reflexivity]|]).
    discriminate.
  - intros [[<-|[<-|[<-|[<-|[]]]]] ->]; destruct r; reflexivity.
Qed.
Lemma sub_term s i un r : g_duration_subseconds s = Some ((i, un), r) <-> s = i ++ un ++ r /\ integer_text i /\ In un unit_words.
Proof.
  unfold g_duration_subseconds. fold unit_words. split.
  - intros H. apply pbind_iff in H as (x & r1 & H1 & H). apply pbind_iff in H as (y & r2 & H2 & H). apply pret_eq in H as [[= -> ->] ->].
    apply unit_iff in H2 as [U ->]. apply integer_iff in H1. tauto.
  - intros (-> & I & U). apply pbind_iff. exists i, (un ++ r). split; [apply integer_iff; auto using unit_stops|].
    apply pbind_iff. exists un, r. split; [|reflexivity]. now apply unit_iff.
Qed.
Lemma integer_split i r i' r' : integer_text i -> integer_text i' -> stops is_digit r -> stops is_digit r' -> i ++ r = i' ++ r' -> i = i' /\ r = r'.
Proof.
  intros I I' S S' E. assert (G : g_integer (i ++ r) = Some (i, r)) by now apply integer_iff.
  assert (G' : g_integer (i ++ r) = Some (i', r')) by now apply integer_iff. split; congruence.
Qed.
Lemma days_not i x r : integer_text i -> stops is_digit (x :: r) -> x <> 100%N -> g_duration_days (i ++ x :: r) = None.
Proof.
  intros I S N. destruct (g_duration_days (i ++ x :: r)) as [[i' r']|] eqn:E; auto. apply days_term in E as [E I'].
  apply integer_split in E as [_ E]; auto; [|reflexivity]. injection E as -> _. congruence.
Qed.
Lemma seconds_not i x r : integer_text i -> stops is_digit (x :: r) -> x <> 115%N -> g_duration_seconds (i ++ x :: r) = None.
Proof.
  intros I S N. destruct (g_duration_seconds (i ++ x :: r)) as [[i' r']|] eqn:E; auto. apply seconds_term in E as [E I'].
  apply integer_split in E as [_ E]; auto; [|reflexivity]. injection E as -> _. congruence.
Qed.
Lemma unit_head2 un : In un unit_words -> exists x r, un = x :: r /\ is_digit x = false /\ x <> 100%N /\ x <> 115%N /\ x <> 32%N.
Proof. intros [<-|[<-|[<-|[<-|[]]]]]; eexists _, _; (split; [reflexivity|]); repeat split; discriminate. Qed.
Definition dur_terms (x : durc) : list (list N) :=
  let '(d, c, u) := x in
  terms [option_map (fun i => i ++ L "d") d; option_map (fun i => i ++ L "s") c; option_map (fun p => fst p ++ snd p) u].
Definition all_of {A} (P : A -> Prop) (o : option A) : Prop := match o with Some a => P a | None => True end.
Definition dur_ok (x : durc) : Prop :=
  let '(d, c, u) := x in all_of integer_text d /\ all_of integer_text c /\ all_of (fun p => integer_text (fst p) /\ In (snd p) unit_words) u.
Lemma duration_grammar s x r : g_interval_duration s = Some (x, r) <-> r = [] /\ s = join [32%N] (dur_terms x) /\ dur_terms x <> [] /\ dur_ok x.
Proof.
  assert (SEC : forall s o r, popt (ptok (L " ") ;;; g_duration_seconds)%peg s = Some (o, r) ->
    s = match o with Some i => 32%N :: i ++ L "s" ++ r | None => r end /\ all_of integer_text o).
  { intros t o q H. apply popt_inv in H. destruct o as [i|]; [|split; [now destruct H|exact I]].
    apply pthen_iff in H as ([] & r1 & H1 & H). apply ptok_spec in H1 as ->. apply seconds_term in H as [-> H]. split; auto. }
  assert (SUB : forall s o r, popt (ptok (L " ") ;;; g_duration_subseconds)%peg s = Some (o, r) ->
    s = match o with Some p => 32%N :: fst p ++ snd p ++ r | None => r end /\ all_of (fun p => integer_text (fst p) /\ In (snd p) unit_words) o).
  { intros t o q H. apply popt_inv in H. destruct o as [[i un]|]; [|split; [now destruct H|exact I]].
    apply pthen_iff in H as ([] & r1 & H1 & H). apply ptok_spec in H1 as ->. apply sub_term in H as (-> & H). split; auto. }
  unfold g_interval_duration. split.
  - intros H. apply pbind_iff in H as (y & r1 & H1 & H). apply pthen_iff in H as ([] & r2 & H2 & H). apply pret_eq in H as [-> ->].
    assert (E : r1 = [] /\ r = []) by (unfold peoi in H2; destruct r1; [|discriminate]; injection H2 as <-; auto). destruct E as [-> ->]. clear H2.
    split; auto. apply palt_inv in H1 as [H|[_ H]]; [|apply palt_inv in H as [H|[_ H]]].
    + apply pbind_iff in H as (d & r1 & H1 & H). apply days_term in H1 as [-> I].
      apply pbind_iff in H as (c & r2 & H2 & H). apply SEC in H2 as [-> C].
      apply pbind_iff in H as (u & r3 & H3 & H). apply SUB in H3 as [-> U]. apply pret_eq in H as [<- ->].
      cbn [dur_terms dur_ok all_of]. destruct c as [c|], u as [[i un]|]; cbn [option_map terms map SpecRels.opt_list concat app join fst snd]; repeat split; auto;
        repeat (rewrite <- app_assoc; cbn [app]); rewrite ?app_nil_r; try reflexivity; try discriminate; try apply U.
    + apply pbind_iff in H as (c & r2 & H2 & H). apply seconds_term in H2 as [-> C].
      apply pbind_iff in H as (u & r3 & H3 & H). apply SUB in H3 as [-> U]. apply pret_eq in H as [<- ->].
      cbn [dur_terms dur_ok all_of]. destruct u as [[i un]|]; cbn [option_map terms map SpecRels.opt_list concat app join fst snd]; repeat split; auto;
        repeat (rewrite <- app_assoc; cbn [app]); rewrite ?app_nil_r; try reflexivity; try discriminate; try apply U.
    + apply pbind_iff in H as ([i un] & r3 & H3 & H). apply sub_term in H3 as (-> & U). apply pret_eq in H as [<- ->].
      cbn [dur_terms dur_ok all_of option_map terms map SpecRels.opt_list concat app join fst snd]. rewrite app_nil_r. repeat split; try apply U. discriminate.
  - intros (-> & -> & N & O). destruct x as [[d c] u]. apply pbind_iff. exists (d, c, u), []. split; [|reflexivity].
    assert (SUB' : all_of (fun p => integer_text (fst p) /\ In (snd p) unit_words) u ->
      popt (ptok (L " ") ;;; g_duration_subseconds)%peg (match u with Some p => 32%N :: fst p ++ snd p | None => [] end) = Some (u, [])).
    { intros U. destruct u as [[i un]|]; [|reflexivity]. apply popt_some. apply pthen_iff. exists tt, (i ++ un). split; [reflexivity|].
      apply sub_term. rewrite app_nil_r. auto. }
    destruct O as (D & C & U). specialize (SUB' U). destruct d as [d|].
    + apply palt_l. cbn [all_of] in D.
      replace (join [32%N] (dur_terms (Some d, c, u))) with
        (d ++ L "d" ++ match c with Some i => 32%N :: i ++ L "s" | None => [] end ++ match u with Some p => 32%N :: fst p ++ snd p | None => [] end).
      2:{ destruct c as [c|], u as [[i un]|]; cbn [dur_terms option_map terms map SpecRels.opt_list concat app join fst snd];
          repeat (rewrite <- app_assoc; cbn [app]); rewrite ?app_nil_r; reflexivity. }
      apply pbind_iff. eexists d, _. split; [apply days_term; split; [reflexivity|exact D]|].
      apply pbind_iff. exists c, (match u with Some p => 32%N :: fst p ++ snd p | None => [] end). split.
      * destruct c as [c|].
        -- apply popt_some. apply pthen_iff.
           exists tt, (c ++ L "s" ++ match u with Some p => 32%N :: fst p ++ snd p | None => [] end). split.
           ++ apply ptok_spec. cbn [app]. rewrite <- app_assoc. reflexivity.
           ++ apply seconds_term. split; [reflexivity|exact C].
        -- apply popt_none. destruct u as [[i un]|]; [|reflexivity]. cbn [app fst snd all_of] in *. destruct U as [Ui Uu].
           unfold pthen, pbind. change (ptok (L " ") (32%N :: i ++ un)) with (Some (tt, i ++ un)).
           apply unit_head2 in Uu as (x & t & -> & Hx & _ & Hs & _). rewrite seconds_not; auto.
      * apply pbind_iff. exists u, []. split; auto.
    + apply palt_r.
      { unfold pbind at 1. destruct c as [c|].
        - destruct u as [[i un]|]; cbn [dur_terms option_map terms map SpecRels.opt_list concat app join fst snd]; repeat (rewrite <- app_assoc; cbn [app]);
            change (L "s") with [115%N]; cbn [app]; (rewrite days_not; [reflexivity|exact C|reflexivity|discriminate]).
        - destruct u as [[i un]|]; [|exfalso; apply N; reflexivity]. cbn [dur_terms option_map terms map SpecRels.opt_list concat app join fst snd].
          destruct U as [Ui Uu]. cbn [fst snd] in *. apply unit_head2 in Uu as (x & t & -> & Hx & Hd & _). rewrite days_not; auto. }
      destruct c as [c|].
      * apply palt_l.
        replace (join [32%N] (dur_terms (None, Some c, u))) with (c ++ L "s" ++ match u with Some p => 32%N :: fst p ++ snd p | None => [] end).
        2:{ destruct u as [[i un]|]; cbn [dur_terms option_map terms map SpecRels.opt_list concat app join fst snd];
          repeat (rewrite <- app_assoc; cbn [app]); rewrite ?app_nil_r; reflexivity. }
        apply pbind_iff. eexists c, _. split; [apply seconds_term; split; [reflexivity|exact C]|].
        apply pbind_iff. exists u, []. split; auto.
      * destruct u as [[i un]|]; [|exfalso; apply N; reflexivity]. destruct U as [Ui Uu]. cbn [fst snd] in *.
        cbn [dur_terms option_map terms map SpecRels.opt_list concat app join fst snd]. apply palt_r.
        { unfold pbind at 1. destruct (unit_head2 un Uu) as (x & t & -> & Hx & _ & Hs & _). rewrite seconds_not; auto. }
        apply pbind_iff. exists (i, un), []. split; [|reflexivity]. apply sub_term. rewrite app_nil_r. auto.
Qed.
Lemma duration_number_iff o z : duration_number o = Ok z <-> o = Some z.
Proof. destruct o; cbn; split; congruence. Qed.
Lemma unit_prec un : In un unit_words -> exists q, prec_of_unit un = Some q.
Proof. intros [<-|[<-|[<-|[<-|[]]]]]; eexists; reflexivity. Qed.
Lemma unit_text_iff p un q : prec_of_unit un = Some q -> prec_units q = prec_units p -> exists u, un = L u /\ In (prec_units p, u) unit_text.
Proof.
  unfold prec_of_unit. intros H E.
  assert (G : (un = L "ms" /\ q = PMilli) \/ (un = L "us" /\ q = PMicro) \/ (un = L "ns" /\ q = PNano) \/ (un = L "ps" /\ q = PPico)).
  { destruct (streqb un (L "ms")) eqn:E1; [apply streqb_eq in E1; injection H; auto|].
    destruct (streqb un (L "us")) eqn:E2; [apply streqb_eq in E2; injection H; auto|].
    destruct (streqb un (L "ns")) eqn:E3; [apply streqb_eq in E3; injection H; auto|].
    destruct (streqb un (L "ps")) eqn:E4; [apply streqb_eq in E4; injection H; auto|discriminate]. }
  destruct G as [[-> ->]|[[-> ->]|[[-> ->]|[-> ->]]]]; rewrite <- E; eexists; (split; [reflexivity|]); cbn; auto.
Qed.
Lemma duration_iff s p i : parse_interval s p = Ok i <-> duration_text (prec_units p) s i.
Proof.
  assert (P : In (prec_units p) [0; 3; 6; 9; 12]%Z) by (destruct p; cbn; auto 10).
  assert (T : forall w o z, all_of integer_text o -> match o with Some t => duration_number (parse_i32 t) | None => Ok 0%Z end = Ok z ->
    term i32 w (option_map (fun i => i ++ w) o) z).
  { intros w [t|] z I H; cbn [option_map] in *.
    - apply duration_number_iff, parse_i32_iff in H as [H1 H2]. now constructor.
    - injection H as <-. constructor. }
  assert (T' : forall w o z, term i32 w o z -> exists o', o = option_map (fun i => i ++ w) o' /\ all_of integer_text o' /\
    match o' with Some t => duration_number (parse_i32 t) | None => Ok 0%Z end = Ok z).
  { intros w o z H. destruct H as [|t z I H R].
    - exists None. cbn. auto.
    - exists (Some t). rewrite duration_number_iff, parse_i32_iff. cbn. auto. }
  unfold parse_interval. split.
  - destruct (g_interval_duration s) as [[[[d c] u] r]|] eqn:G; [|discriminate]. apply duration_grammar in G as (-> & -> & N & D & C & U).
    intros H. apply rbind_ok in H as (x & Hx & H). apply rbind_ok in H as (y & Hy & H). apply rbind_ok in H as (z & Hz & [= <-]).
    apply (T (L "d")) in Hx; auto. apply (T (L "s")) in Hy; auto. destruct u as [[t un]|].
    + apply rbind_ok in Hz as (q & Hq & Hz). apply unwrap_iff in Hq. destruct (Z.eqb_spec (prec_units q) (prec_units p)) as [E|]; [|discriminate].
      apply duration_number_iff, parse_i64_iff in Hz as [Hz1 Hz2]. destruct U as [Ut Uu]. cbn [fst snd] in *.
      destruct (unit_text_iff _ _ _ Hq E) as (w & -> & Hw).
      apply (du_units (prec_units p) w _ _ (t ++ L w)); auto. now constructor.
    + injection Hz as <-. revert N. unfold dur_terms. cbn [option_map].
      replace (terms [option_map (fun i => i ++ L "d") d; option_map (fun i => i ++ L "s") c; None])
        with (terms [option_map (fun i => i ++ L "d") d; option_map (fun i => i ++ L "s") c]) by (unfold terms; cbn [map SpecRels.opt_list concat]; now rewrite ?app_nil_r).
      intros N. constructor; auto.
  - intros H. destruct H as [d c x y _ Hx Hy N|w d c t x y z W Hx Hy Hz].
    + apply T' in Hx as (d' & -> & D & Hx). apply T' in Hy as (c' & -> & C & Hy).
      assert (G : g_interval_duration (join [32%N] (terms [option_map (fun i => i ++ L "d") d'; option_map (fun i => i ++ L "s") c'])) = Some ((d', c', None), [])).
      { apply duration_grammar. unfold dur_terms, dur_ok. cbn [option_map all_of].
        replace (terms [option_map (fun i => i ++ L "d") d'; option_map (fun i => i ++ L "s") c'; None])
          with (terms [option_map (fun i => i ++ L "d") d'; option_map (fun i => i ++ L "s") c']) by (unfold terms; cbn [map SpecRels.opt_list concat]; now rewrite ?app_nil_r).
        auto 10. }
      rewrite G, Hx, Hy. reflexivity.
    + apply T' in Hx as (d' & -> & D & Hx). apply T' in Hy as (c' & -> & C & Hy). inversion Hz as [|t' z' I Hn R]; subst.
      assert (Q : exists q, prec_of_unit (L w) = Some q /\ (prec_units q =? prec_units p)%Z = true /\ In (L w) unit_words).
      { cbn [In unit_text] in W. destruct W as [W|[W|[W|[W|[]]]]]; injection W as <- <-; eexists; (split; [reflexivity|]); split; try reflexivity; cbn; auto. }
      destruct Q as (q & Q1 & Q2 & Q3).
      assert (G : g_interval_duration (join [32%N] (terms [option_map (fun i => i ++ L "d") d'; option_map (fun i => i ++ L "s") c'; Some (t' ++ L w)]))
        = Some ((d', c', Some (t', L w)), [])).
      { apply duration_grammar. unfold dur_terms, dur_ok. cbn [option_map all_of fst snd]. repeat split; auto.
        unfold terms. cbn [map SpecRels.opt_list concat]. intros E. apply app_eq_nil in E as [_ E]. apply app_eq_nil in E as [_ E]. discriminate. }
      rewrite G, Hx, Hy. cbn [rbind]. rewrite Q1. cbn [unwrap rbind]. rewrite Q2.
      assert (Z' : duration_number (parse_i64 t') = Ok z) by (now apply duration_number_iff, parse_i64_iff). now rewrite Z'.
Qed.
