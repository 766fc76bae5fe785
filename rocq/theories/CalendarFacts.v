(** Proofs about calendar dates. *)
From Coq Require Import String List NArith ZArith Bool Lia ZifyN ZifyNat ZifyBool.
From Verif Require Import Base BaseFacts Peg PegFacts Names NamesFacts SimpleExt Out Anchors AnchorsFacts Lines LinesFacts Calendar.
Import ListNotations.
Open Scope Z_scope.

(** ** The year of a day *)

Definition year_days (y : Z) : Z := if is_leap y then 366 else 365.

Lemma leap_spec y : is_leap y = true <-> y mod 4 = 0 /\ (y mod 100 <> 0 \/ y mod 400 = 0).
Proof. unfold is_leap. lia. Qed.

Lemma before_next y : days_before_year (y + 1) = days_before_year y + year_days y.
Proof.
  unfold days_before_year, year_days. replace (y + 1 - 1) with y by lia.
  assert (H4 : y / 4 = (y - 1) / 4 + (if y mod 4 =? 0 then 1 else 0)).
  { destruct (Z.eqb_spec (y mod 4) 0); Z.to_euclidean_division_equations; lia. }
  assert (H100 : y / 100 = (y - 1) / 100 + (if y mod 100 =? 0 then 1 else 0)).
  { destruct (Z.eqb_spec (y mod 100) 0); Z.to_euclidean_division_equations; lia. }
  assert (H400 : y / 400 = (y - 1) / 400 + (if y mod 400 =? 0 then 1 else 0)).
  { destruct (Z.eqb_spec (y mod 400) 0); Z.to_euclidean_division_equations; lia. }
  rewrite H4, H100, H400. unfold is_leap.
  assert (A1 : y mod 100 = 0 -> y mod 4 = 0) by (Z.to_euclidean_division_equations; lia).
  assert (A2 : y mod 400 = 0 -> y mod 100 = 0) by (Z.to_euclidean_division_equations; lia).
  destruct (Z.eqb_spec (y mod 4) 0), (Z.eqb_spec (y mod 100) 0), (Z.eqb_spec (y mod 400) 0);
    cbn [andb negb orb]; lia.
Qed.

Lemma before_mono_nat y (k : nat) : days_before_year y + 365 * Z.of_nat k <= days_before_year (y + Z.of_nat k).
Proof.
  induction k as [|k IH]; [replace (y + Z.of_nat 0) with y by lia; lia|].
  replace (y + Z.of_nat (S k)) with (y + Z.of_nat k + 1) by lia. rewrite before_next.
  unfold year_days. destruct (is_leap _); lia.
Qed.
Lemma before_mono y z : y <= z -> days_before_year y + 365 * (z - y) <= days_before_year z.
Proof.
  intros H. pose proof (before_mono_nat y (Z.to_nat (z - y))) as B.
  rewrite Z2Nat.id in B by lia. replace (y + (z - y)) with z in B by lia. auto.
Qed.

(** The year and day found are those of the day number. *)
Lemma year_of_spec n y d : year_of n = (y, d) ->
  n = days_before_year y + d /\ 0 <= d < year_days y.
Proof.
  unfold year_of. 
  set (c400 := n / 146097). set (r400 := n mod 146097).
  assert (E0 : n = 146097 * c400 + r400 /\ 0 <= r400 < 146097).
  { unfold c400, r400. Z.to_euclidean_division_equations; lia. }
  clearbody c400 r400.
  set (c100 := Z.min 3 (r400 / 36524)).
  assert (E1 : 0 <= c100 <= 3 /\ 36524 * c100 <= r400 /\ (c100 < 3 -> r400 < 36524 * c100 + 36524)).
  { unfold c100. Z.to_euclidean_division_equations; lia. }
  clearbody c100. set (r100 := r400 - 36524 * c100).
  assert (E2 : 0 <= r100 /\ (c100 < 3 -> r100 < 36524) /\ r100 < 36525) by (unfold r100; lia).
  assert (E2' : r400 = 36524 * c100 + r100) by (unfold r100; lia).
  clearbody r100.
  set (c4 := r100 / 1461). set (r4 := r100 mod 1461).
  assert (E3 : r100 = 1461 * c4 + r4 /\ 0 <= r4 < 1461).
  { unfold c4, r4. Z.to_euclidean_division_equations; lia. }
  clearbody c4 r4.
  set (c1 := Z.min 3 (r4 / 365)).
  assert (E4 : 0 <= c1 <= 3 /\ 365 * c1 <= r4 /\ (c1 < 3 -> r4 < 365 * c1 + 365)).
  { unfold c1. Z.to_euclidean_division_equations; lia. }
  clearbody c1. intros Ey. apply pair_equal_spec in Ey as [<- <-].
  assert (E5 : 0 <= c4 <= 24) by lia.
  set (q := 4 * c4 + c1). assert (Hq : 0 <= q <= 99) by (unfold q; lia).
  set (y := 400 * c400 + 100 * c100 + 4 * c4 + c1 + 1).
  assert (B : days_before_year y = 365 * (y - 1) + (100 * c400 + 25 * c100 + c4) - (4 * c400 + c100) + c400).
  { assert (A1 : (y - 1) / 4 = 100 * c400 + 25 * c100 + c4).
    { symmetry. apply (Z.div_unique _ _ _ c1); unfold y; lia. }
    assert (A2 : (y - 1) / 100 = 4 * c400 + c100).
    { symmetry. apply (Z.div_unique _ _ _ q); unfold y, q; lia. }
    assert (A3 : (y - 1) / 400 = c400).
    { symmetry. apply (Z.div_unique _ _ _ (100 * c100 + q)); unfold y, q; lia. }
    unfold days_before_year. rewrite A1, A2, A3. lia. }
  assert (L1 : r4 - 365 * c1 = 365 -> is_leap y = true).
  { intros H. apply leap_spec. assert (c1 = 3) by lia. subst c1.
    unfold y. split; [Z.to_euclidean_division_equations; lia|].
    destruct (Z.eq_dec c4 24) as [->|]; [right|left].
    2: { rewrite <- (Z.mod_unique _ 100 (4 * c400 + c100) (4 * c4 + 4)); lia. }
    assert (c100 = 3) by lia. subst. Z.to_euclidean_division_equations; lia. }
  fold y. split; [rewrite B; unfold y; lia|].
  unfold year_days. destruct (is_leap y); [lia|].
  destruct (Z.eq_dec (r4 - 365 * c1) 365); [|lia]. apply L1 in e. congruence.
Qed.

Lemma year_unique y d y' d' :
  days_before_year y + d = days_before_year y' + d' -> 0 <= d < year_days y -> 0 <= d' < year_days y' ->
  y = y' /\ d = d'.
Proof.
  intros E H H'. destruct (Z.lt_trichotomy y y') as [L|[->|L]]; [| lia |].
  - pose proof (before_next y). pose proof (before_mono (y + 1) y' ltac:(lia)). lia.
  - pose proof (before_next y'). pose proof (before_mono (y' + 1) y ltac:(lia)). lia.
Qed.

(** ** The month of a day *)

Lemma month_of_spec l m d m' d' : Forall (fun x => 0 <= x) l -> 0 <= d < fold_right Z.add 0 l ->
  month_of m l d = (m', d') ->
  exists i, (i < length l)%nat /\ m' = m + Z.of_nat i /\ d = sum_first i l + d' /\ 0 <= d' < nth i l 0.
Proof.
  revert m d; induction l as [|x l IH]; intros m d Hl; cbn [fold_right month_of]; [lia|].
  inversion_clear Hl. intros Hd. destruct (Z.ltb_spec d x).
  - intros [= <- <-]. exists 0%nat. cbn. lia.
  - intros E. apply IH in E as (i & Hi & -> & Ed & Hn); auto; [|lia].
    exists (S i). cbn [length sum_first nth]. lia.
Qed.

Lemma month_of_sum l m i d : Forall (fun x => 0 <= x) l -> (i < length l)%nat -> 0 <= d < nth i l 0 ->
  month_of m l (sum_first i l + d) = (m + Z.of_nat i, d).
Proof.
  revert m i; induction l as [|x l IH]; intros m i Hl Hi Hd; cbn in Hi; [lia|].
  inversion_clear Hl as [|? ? Hx Hr]. destruct i as [|i]; cbn [sum_first nth month_of] in *.
  - destruct (Z.ltb_spec (0 + d) x); [f_equal; lia|lia].
  - assert (0 <= sum_first i l).
    { clear -Hr. revert i; induction Hr as [|? ? ? ? IHr]; intros [|i]; cbn [sum_first]; [lia..|].
      specialize (IHr i). lia. }
    destruct (Z.ltb_spec (x + sum_first i l + d) x); [lia|].
    replace (x + sum_first i l + d - x) with (sum_first i l + d) by lia.
    rewrite IH by (auto; lia). f_equal. lia.
Qed.

Lemma months_nonneg y : Forall (fun x => 0 <= x) (month_lengths y).
Proof. unfold month_lengths. destruct (is_leap y); repeat constructor; lia. Qed.
Lemma months_sum y : fold_right Z.add 0 (month_lengths y) = year_days y.
Proof. unfold month_lengths, year_days. destruct (is_leap y); reflexivity. Qed.
Lemma months_len y : length (month_lengths y) = 12%nat.
Proof. reflexivity. Qed.

Lemma month_nth_le y i : nth i (month_lengths y) 0 <= 31.
Proof.
  unfold month_lengths. do 12 (destruct i as [|i]; [cbn; destruct (is_leap y); lia|]). destruct i; cbn; lia.
Qed.

(** A date of the calendar, whatever its year. *)
Definition date_real (d : date) : Prop :=
  1 <= d_month d <= 12 /\ 1 <= d_day d <= nth (Z.to_nat (d_month d - 1)) (month_lengths (d_year d)) 0.

Lemma date_of_days_spec n : date_real (date_of_days n) /\ days_of_date (date_of_days n) = n.
Proof.
  unfold date_of_days. destruct (year_of (n + epoch_days)) as [y d] eqn:Ey.
  apply year_of_spec in Ey as [En Hd]. rewrite <- months_sum in Hd.
  destruct (month_of 1 (month_lengths y) d) as [m d'] eqn:Em.
  apply month_of_spec in Em as (i & Hi & -> & -> & Hd'); auto using months_nonneg.
  rewrite months_len in Hi. unfold date_real, days_of_date. cbn [d_year d_month d_day].
  replace (Z.to_nat (1 + Z.of_nat i - 1)) with i by lia. unfold epoch_days in *. lia.
Qed.

Lemma sum_first_lt l i d : Forall (fun x => 0 <= x) l -> (i < length l)%nat -> 0 <= d < nth i l 0 ->
  0 <= sum_first i l + d < fold_right Z.add 0 l.
Proof.
  revert i; induction l as [|x l IH]; intros i Hl Hi Hd; cbn in Hi; [lia|].
  inversion_clear Hl as [|? ? Hx Hr]. destruct i as [|i]; cbn [sum_first nth fold_right] in *.
  - assert (0 <= fold_right Z.add 0 l) by (clear -Hr; induction Hr; cbn; lia). lia.
  - specialize (IH i Hr ltac:(lia) Hd). lia.
Qed.

Lemma date_of_days_of d : date_real d -> date_of_days (days_of_date d) = d.
Proof.
  destruct d as [y m d]. unfold date_real. cbn [d_year d_month d_day]. intros [Hm Hd].
  pose proof (date_of_days_spec (days_of_date (mk_date y m d))) as [R E].
  set (i := Z.to_nat (m - 1)) in *.
  assert (Hi : (i < length (month_lengths y))%nat) by (rewrite months_len; unfold i; lia).
  unfold date_of_days. destruct (year_of (days_of_date (mk_date y m d) + epoch_days)) as [y' d'] eqn:Ey.
  apply year_of_spec in Ey as [En Hd']. unfold days_of_date in En. cbn [d_year d_month d_day] in En.
  fold i in En.
  pose proof (sum_first_lt (month_lengths y) i (d - 1) (months_nonneg y) Hi ltac:(lia)) as Hs.
  rewrite months_sum in Hs.
  destruct (year_unique y (sum_first i (month_lengths y) + (d - 1)) y' d') as [<- <-]; try lia.
  rewrite (month_of_sum _ 1 i (d - 1)) by (auto using months_nonneg; lia).
  f_equal; unfold i; lia.
Qed.

Lemma days_of_date_inj d d' : date_real d -> date_real d' -> days_of_date d = days_of_date d' -> d = d'.
Proof. intros H H' E. rewrite <- (date_of_days_of d), <- (date_of_days_of d'), E; auto. Qed.

(** Day numbers of the supported range are those of valid dates. *)
Lemma days_year_bounds d : date_real d ->
  days_before_year (d_year d) <= days_of_date d + epoch_days < days_before_year (d_year d + 1).
Proof.
  intros [Hm Hd]. unfold days_of_date. rewrite before_next, <- months_sum.
  pose proof (sum_first_lt (month_lengths (d_year d)) (Z.to_nat (d_month d - 1)) (d_day d - 1)
                (months_nonneg _) ltac:(rewrite months_len; lia) ltac:(lia)). lia.
Qed.

Lemma min_days_eq : min_days = days_before_year min_year - epoch_days.
Proof. vm_compute. reflexivity. Qed.
Lemma max_days_eq : max_days = days_before_year (max_year + 1) - epoch_days - 1.
Proof. vm_compute. reflexivity. Qed.

Lemma days_in_range d : date_real d ->
  (in_range min_days max_days (days_of_date d) = true <-> in_range min_year max_year (d_year d) = true).
Proof.
  intros Hr. pose proof (days_year_bounds d Hr) as B. rewrite min_days_eq, max_days_eq. unfold in_range.
  rewrite !andb_true_iff, !Z.leb_le.
  split; intros [H1 H2]; split.
  - destruct (Z_le_gt_dec min_year (d_year d)); auto. exfalso.
    pose proof (before_mono (d_year d + 1) min_year ltac:(lia)). lia.
  - destruct (Z_le_gt_dec (d_year d) max_year); auto. exfalso.
    pose proof (before_mono (max_year + 1) (d_year d) ltac:(lia)). lia.
  - pose proof (before_mono min_year (d_year d) ltac:(lia)). lia.
  - pose proof (before_mono (d_year d + 1) (max_year + 1) ltac:(lia)). lia.
Qed.

Lemma date_valid_iff d : date_valid d = true <-> date_real d /\ in_range min_days max_days (days_of_date d) = true.
Proof.
  unfold date_valid. rewrite !andb_true_iff. split.
  - intros [[Hy Hm] Hd]. assert (R : date_real d).
    { unfold date_real. unfold in_range in Hm, Hd. lia. }
    split; auto. now apply days_in_range.
  - intros [R H]. apply days_in_range in H; auto. destruct R. unfold in_range in *. split; [split|]; auto; lia.
Qed.

Lemma date_of_days_valid n : in_range min_days max_days n = true -> date_valid (date_of_days n) = true.
Proof.
  intros H. apply date_valid_iff. destruct (date_of_days_spec n) as [R E]. now rewrite E.
Qed.

(** ** Padded numbers *)

Lemma digs_len f n acc w : (n < 10 ^ N.of_nat w)%N -> (0 < w)%nat -> (length (digs f n acc) <= w + length acc)%nat.
Proof.
  revert n acc w; induction f as [|f IH]; intros n acc w Hn Hw; cbn [digs]; [lia|].
  destruct (N.ltb_spec n 10); [cbn [length]; lia|].
  destruct w as [|w]; [lia|]. destruct w as [|w]; [cbn in Hn; lia|].
  etransitivity; [apply (IH _ _ (S w)); [|lia]|cbn [length]; lia].
  apply N.div_lt_upper_bound; [lia|]. rewrite Nat2N.inj_succ, N.pow_succ_r' in Hn. lia.
Qed.

Lemma show_N_len n w : (n < 10 ^ N.of_nat w)%N -> (0 < w)%nat -> (length (show_N n) <= w)%nat.
Proof. intros H Hw. pose proof (digs_len (S (N.size_nat n)) n [] w H Hw) as B. cbn [length] in B. unfold show_N. lia. Qed.

Lemma read_zeros k a s : fold_left read_step (repeat 48%N k ++ s) a =
  fold_left read_step s (a * 10 ^ N.of_nat k)%N.
Proof.
  revert a; induction k as [|k IH]; intros a; cbn [repeat app fold_left].
  - now rewrite N.mul_1_r.
  - rewrite IH. f_equal. unfold read_step. rewrite Nat2N.inj_succ, N.pow_succ_r'. lia.
Qed.

Lemma show_pad_spec w z : 0 <= z ->
  forallb is_digit (show_pad w z) = true /\ Z.of_N (read_digits (show_pad w z)) = z /\
  show_pad w z <> [] /\
  ((0 < w)%nat -> z < 10 ^ Z.of_nat w -> length (show_pad w z) = w).
Proof.
  intros Hz. unfold show_pad, pad0. destruct (show_N_spec (Z.to_N z)) as (H1 & H2 & H3).
  repeat split.
  - rewrite forallb_app, H1, andb_true_r. induction (w - length _)%nat; auto.
  - unfold read_digits in *. rewrite read_zeros, N.mul_0_l. rewrite H3. lia.
  - intros E. apply app_eq_nil in E. tauto.
  - intros Hw Hlt. rewrite app_length, repeat_length.
    pose proof (show_N_len (Z.to_N z) w) as B. specialize (B ltac:(rewrite <- nat_N_Z in Hlt;
      change 10 with (Z.of_N 10) in Hlt; rewrite <- N2Z.inj_pow in Hlt; lia) Hw). lia.
Qed.

Lemma show_pad_head w z : 0 <= z -> exists c r, show_pad w z = c :: r /\ is_digit c = true.
Proof.
  intros Hz. destruct (show_pad_spec w z Hz) as (H1 & _ & H3 & _).
  destruct (show_pad w z) as [|c r]; [congruence|]. cbn in H1; bool_hyps; eauto.
Qed.

Lemma span_upto_app n f a r : forallb f a = true -> length a = n -> span_upto n f (a ++ r) = (a, r).
Proof.
  revert n; induction a as [|c a IH]; intros n Ha Hn; cbn in Ha, Hn; subst n; [destruct r; auto|].
  bool_hyps. cbn [app span_upto]. rewrite H, IH by auto. reflexivity.
Qed.
Lemma span_upto_stop n f a r : forallb f a = true -> (length a <= n)%nat -> hd_not f r = true ->
  span_upto n f (a ++ r) = (a, r).
Proof.
  revert n; induction a as [|c a IH]; intros n Ha Hn Hr; cbn in Ha, Hn.
  - destruct n, r as [|x r]; cbn in *; auto. bool_hyps. now rewrite Hr.
  - bool_hyps. destruct n; [lia|]. cbn [app span_upto]. rewrite H, IH by (auto; lia). reflexivity.
Qed.

Lemma trim_start_digit s c r : s = c :: r -> is_ws c = false -> trim_start s = s.
Proof. intros -> H. unfold trim_start. cbn [span]. now rewrite H. Qed.

Lemma digit_not_ws c : is_digit c = true -> is_ws c = false.
Proof. unfold is_ws. intros H. chars. Qed.

Lemma scan_number_pad w z rest : (0 < w <= 18)%nat -> 0 <= z < 10 ^ Z.of_nat w ->
  scan_number w (show_pad w z ++ rest) = Some (z, rest).
Proof.
  intros Hw Hz. destruct (show_pad_spec w z ltac:(lia)) as (H1 & H2 & H3 & H4).
  unfold scan_number. rewrite span_upto_app by (auto; apply H4; lia).
  destruct (show_pad w z) eqn:E; [congruence|]. rewrite <- E in *. cbv zeta. rewrite H2.
  destruct (Z.leb_spec z i64_max); auto. exfalso.
  assert (10 ^ Z.of_nat w <= 10 ^ 18) by (apply Z.pow_le_mono_r; lia). unfold i64_max in *. lia.
Qed.

Lemma scan_2_pad lo hi z rest : in_range lo hi z = true -> 0 <= z < 100 ->
  scan_2 lo hi (show_pad 2 z ++ rest) = Some (z, rest).
Proof.
  intros Hr Hz. unfold scan_2. eapply pthen_some with (a := tt) (r := show_pad 2 z ++ rest).
  { unfold scan_skip. f_equal. f_equal. destruct (show_pad_head 2 z ltac:(lia)) as (c & r & E & Hc).
    rewrite E. eapply trim_start_digit; [reflexivity|]. now apply digit_not_ws. }
  eapply pbind_some; [apply scan_number_pad; [lia|cbn; lia]|]. now rewrite Hr.
Qed.

Lemma scan_number_any_pad z rest : 0 <= z <= i64_max -> hd_not is_digit rest = true ->
  scan_number_any (show_pad 4 z ++ rest) = Some (z, rest).
Proof.
  intros Hz Hr. destruct (show_pad_spec 4 z ltac:(lia)) as (H1 & H2 & H3 & _).
  unfold scan_number_any, scan_number. rewrite span_upto_stop; auto.
  - destruct (show_pad 4 z) eqn:E; [congruence|]. rewrite <- E in *. cbv zeta. rewrite H2.
    destruct (Z.leb_spec z i64_max); [reflexivity|lia].
  - rewrite app_length. lia.
Qed.

Lemma ptok_digit t c s x r : s = x :: r -> is_digit x = true -> is_digit c = false ->
  ptok (c :: t) s = None.
Proof.
  intros -> Hx Hc. apply ptok_none_hd. cbn. destruct (N.eqb_spec c x); [congruence|reflexivity].
Qed.

Lemma scan_year_show y rest : in_range i32_min i32_max y = true -> hd_not is_digit rest = true ->
  scan_year (show_year y ++ rest) = Some (y, rest).
Proof.
  intros Hy Hr. assert (B : i32_min <= y <= i32_max) by (unfold in_range in Hy; lia).
  unfold i32_min, i32_max in B. unfold scan_year, show_year.
  destruct (in_range 0 9999 y) eqn:E; unfold in_range in E.
  - destruct (show_pad_head 4 y ltac:(lia)) as (c & r & Ec & Hc).
    assert (Es : show_pad 4 y ++ rest = c :: (r ++ rest)) by now rewrite Ec.
    eapply pthen_some with (a := tt) (r := show_pad 4 y ++ rest).
    { unfold scan_skip. f_equal. f_equal. eapply trim_start_digit; [exact Es|]. now apply digit_not_ws. }
    assert (T1 : ptok (L "-") (show_pad 4 y ++ rest) = None) by (eapply ptok_digit; eauto).
    assert (T2 : ptok (L "+") (show_pad 4 y ++ rest) = None) by (eapply ptok_digit; eauto).
    eapply pbind_some.
    { eapply palt_r; [now apply pthen_none|]. eapply palt_r; [now apply pthen_none|].
      eapply pthen_some; [unfold pnot; now rewrite T1|].
      eapply pthen_some; [unfold pnot; now rewrite T2|]. apply scan_number_pad; [lia|cbn; lia]. }
    now rewrite Hy.
  - destruct (Z.ltb_spec y 0); cbn [app].
    + eapply pthen_some with (a := tt) (r := 45%N :: show_pad 4 (Z.abs y) ++ rest).
      { unfold scan_skip. f_equal. }
      eapply pbind_some.
      { apply palt_l. eapply pthen_some; [apply (ptok_app [45%N])|].
        apply pmap_some. apply scan_number_any_pad; auto. unfold i64_max. lia. }
      replace (- Z.abs y) with y by lia. now rewrite Hy.
    + eapply pthen_some with (a := tt) (r := 43%N :: show_pad 4 (Z.abs y) ++ rest).
      { unfold scan_skip. f_equal. }
      eapply pbind_some.
      { eapply palt_r; [apply pthen_none; apply ptok_none_hd; reflexivity|]. apply palt_l.
        eapply pthen_some; [apply (ptok_app [43%N])|].
        apply scan_number_any_pad; auto. unfold i64_max. lia. }
      replace (Z.abs y) with y by lia. now rewrite Hy.
Qed.

Lemma show_pad_head_not w z (f : N -> bool) rest : 0 <= z -> (forall c, is_digit c = true -> f c = false) ->
  hd_not f (show_pad w z ++ rest) = true.
Proof. intros Hz Hf. destruct (show_pad_head w z Hz) as (c & r & -> & Hc). cbn. now rewrite Hf. Qed.

Lemma show_date_head_digit d rest : hd_not is_digit (L "-" ++ show_pad 2 (d_month d) ++ L "-" ++ rest) = true.
Proof. reflexivity. Qed.

Lemma scan_date_show d rest : date_valid d = true ->
  scan_date 45 (show_date d ++ rest) = Some (d, rest).
Proof.
  intros Hv. pose proof (proj1 (date_valid_iff d) Hv) as [[Hm Hd] _].
  pose proof (month_nth_le (d_year d) (Z.to_nat (d_month d - 1))) as Hle.
  assert (Hy : in_range i32_min i32_max (d_year d) = true).
  { unfold date_valid in Hv. bool_hyps. unfold in_range, min_year, max_year, i32_min, i32_max in *. lia. }
  unfold scan_date, show_date. rewrite <- !app_assoc.
  eapply pbind_some; [apply scan_year_show; auto; reflexivity|].
  eapply pthen_some; [apply (ptok_app [45%N])|].
  eapply pbind_some; [apply scan_2_pad; unfold in_range; lia|].
  eapply pthen_some; [apply (ptok_app [45%N])|].
  eapply pbind_some; [apply scan_2_pad; unfold in_range; lia|].
  destruct d as [y m d]; cbn [d_year d_month d_day] in *. now rewrite Hv.
Qed.

(** ** Times of day *)

Lemma secs_split s : 0 <= s < 86400 ->
  0 <= s / 3600 <= 23 /\ 0 <= s / 60 mod 60 <= 59 /\ 0 <= s mod 60 <= 59 /\
  s / 3600 * 3600 + s / 60 mod 60 * 60 + s mod 60 = s.
Proof.
  intros H. assert (E : s / 3600 = s / 60 / 60) by now rewrite Z.div_div.
  rewrite E. set (m := s / 60) in *. assert (s = 60 * m + s mod 60) by (apply Z.div_mod; lia).
  pose proof (Z.mod_pos_bound s 60 ltac:(lia)). assert (m = 60 * (m / 60) + m mod 60) by (apply Z.div_mod; lia).
  pose proof (Z.mod_pos_bound m 60 ltac:(lia)). lia.
Qed.

Lemma span_digits_nil s : hd_not is_digit s = true -> span is_digit s = ([], s).
Proof. intros H. apply (span_app is_digit [] s); auto. Qed.

Lemma scan_frac_show k nano rest : (k <= 9)%nat -> 0 <= nano < nano_per_sec ->
  hd_not (fun c => is_digit c || (c =? 46)%N) rest = true ->
  scan_frac (show_frac k nano ++ rest) = Some (nano / 10 ^ (9 - Z.of_nat k) * 10 ^ (9 - Z.of_nat k) * (if (k =? 0)%nat then 0 else 1), rest).
Proof.
  intros Hk Hn Hr. unfold nano_per_sec in Hn.
  assert (Hd : hd_not is_digit rest = true) by (eapply hd_not_weaken; [|exact Hr]; intros c; cbv beta; lia).
  assert (Hp : hd_not (N.eqb 46) rest = true) by (eapply hd_not_weaken; [|exact Hr]; intros c; cbv beta; lia).
  destruct k as [|k].
  - cbn [show_frac app Nat.eqb]. rewrite Z.mul_0_r. unfold scan_frac. destruct rest as [|c r]; auto.
    cbn [hd_not] in Hp. apply negb_true_iff in Hp. rewrite N.eqb_sym, Hp. reflexivity.
  - change (show_frac (S k) nano) with (46%N :: show_pad (S k) (nano / 10 ^ (9 - Z.of_nat (S k)))).
    set (w := S k) in *. set (p := 9 - Z.of_nat w).
    assert (P : 0 < 10 ^ p) by (apply Z.pow_pos_nonneg; lia).
    assert (Q : 10 ^ Z.of_nat w * 10 ^ p = 1000000000).
    { rewrite <- Z.pow_add_r by lia. replace (Z.of_nat w + p) with 9 by lia. reflexivity. }
    assert (B0 : 0 <= nano / 10 ^ p) by (apply Z.div_pos; lia).
    assert (B1 : nano / 10 ^ p < 10 ^ Z.of_nat w) by (apply Z.div_lt_upper_bound; lia).
    destruct (show_pad_spec w (nano / 10 ^ p) B0) as (H1 & H2 & H3 & H4).
    specialize (H4 ltac:(lia) B1).
    cbn [app scan_frac]. rewrite N.eqb_refl. rewrite span_upto_stop by (auto; lia).
    destruct (show_pad w (nano / 10 ^ p)) eqn:E; [congruence|]. rewrite <- E in *.
    rewrite H2, H4, span_digits_nil by auto. subst w. cbn [Nat.eqb snd].
    rewrite Z.mul_1_r. reflexivity.
Qed.

Lemma scan_hms_show secs (frac : bool) (rest : list N) n : 0 <= secs < 86400 ->
  (if frac then scan_frac else pret 0) rest = Some (n, []) ->
  scan_time frac (show_hms secs ++ rest) = Some (mk_time secs n, []).
Proof.
  intros Hs Hf. destruct (secs_split secs Hs) as (Hh & Hm & Hx & Es).
  unfold scan_time, show_hms. rewrite <- !app_assoc.
  eapply pbind_some; [apply scan_2_pad; unfold in_range; lia|].
  eapply pthen_some; [apply (ptok_app (L ":"))|].
  eapply pbind_some; [apply scan_2_pad; unfold in_range; lia|].
  eapply pthen_some; [apply (ptok_app (L ":"))|].
  eapply pbind_some; [apply scan_2_pad; unfold in_range; lia|].
  eapply pbind_some; [exact Hf|]. cbv zeta. unfold pret.
  destruct (Z.eqb_spec (secs mod 60) 60); [lia|]. now rewrite Es.
Qed.
