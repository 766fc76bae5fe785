(** Facts about literals. *)
From Coq Require Import String List NArith ZArith Bool Lia.
From Verif Require Import Base BaseFacts Peg PegFacts Names SpecNames NamesFacts Props_Names SimpleExt Out
  Anchors SimpleExtFacts SpecExt AnchorsFacts Types SpecTypes TypesFacts Lines Calendar CalendarFacts Literals SpecLiterals.
Import ListNotations.
Open Scope Z_scope.

(** ** Times and timestamps *)

Lemma min_days_first : min_days = first_day. Proof. vm_compute. reflexivity. Qed.
Lemma max_days_last : max_days = last_day. Proof. vm_compute. reflexivity. Qed.

(** Nanoseconds per unit of a readable precision. *)
Definition prec_nanos (p : sprec) : Z :=
  match p with PSec => 1000000000 | PMilli => 1000000 | PMicro => 1000 | _ => 1 end.

Lemma quot_exact v u : 0 < u -> Z.quot (v * u) u = v.
Proof. intros. apply Z.quot_mul. lia. Qed.

Lemma duration_to_units_exact v p : p <> PPico -> in_range i64_min i64_max v = true ->
  duration_to_units (v * prec_nanos p) p = Ok v.
Proof.
  intros Hp Hv. unfold duration_to_units. destruct p; cbn [prec_nanos]; try congruence;
    rewrite ?quot_exact by lia; rewrite ?Z.eqb_refl, ?Z.mul_1_r, ?Hv; auto.
Qed.

Lemma supported_cases p : supported p = true -> p <> 12 ->
  p = 0 \/ p = 3 \/ p = 6 \/ p = 9.
Proof. unfold supported. lia. Qed.

(** The four readable precisions, together. *)
Lemma readable p : supported p = true -> p <> 12 ->
  exists q, check_supported_precision p = Ok q /\ q <> PPico /\ prec_units q = p /\
    10 ^ p * prec_nanos q = 1000000000 /\ (fractional_digits p = Z.to_nat p) /\
    prec_nanos q = 10 ^ (9 - p) /\ 0 <= p <= 9 /\
    (forall v, within_calendar p v = true -> duration_from_units v p = Ok (v * prec_nanos q)) /\
    (forall v, within_day p v = true -> duration_from_units v p = Ok (v * prec_nanos q)).
Proof.
  intros Hs Hp. destruct (supported_cases p Hs Hp) as [->|[->|[->| ->]]];
    [exists PSec|exists PMilli|exists PMicro|exists PNano];
    (split; [reflexivity|]); (split; [discriminate|]); do 3 (split; [reflexivity|]); (split; [reflexivity|]);
    (split; [lia|]); split; intros v Hv;
    unfold within_calendar, within_day, first_day, last_day in Hv; cbn in Hv; unfold duration_from_units; cbn -[Z.mul Z.div].
  1,2: replace (in_range _ _ v) with true; [reflexivity|]; symmetry; unfold in_range;
       change (i64_max / 1000) with 9223372036854775; lia.
  1,2: replace (i64_min <? v) with true; [reflexivity|]; symmetry; unfold i64_min; lia.
  1,2: reflexivity.
  all: now rewrite Z.mul_1_r.
Qed.

Lemma frac_zero_unit v p q : 0 <= p <= 9 -> prec_nanos q = 10 ^ (9 - p) ->
  let d := v * prec_nanos q in
  d mod nano_per_sec / 10 ^ (9 - Z.of_nat (Z.to_nat p)) * 10 ^ (9 - Z.of_nat (Z.to_nat p))
    * (if (Z.to_nat p =? 0)%nat then 0 else 1) = d mod nano_per_sec.
Proof.
  intros Hp Hq d. rewrite Z2Nat.id by lia. subst d. rewrite Hq.
  assert (E : nano_per_sec = 10 ^ p * 10 ^ (9 - p)).
  { rewrite <- Z.pow_add_r by lia. replace (p + (9 - p)) with 9 by lia. reflexivity. }
  rewrite E, Z.mul_mod_distr_r by (apply Z.pow_nonzero; lia).
  rewrite Z.div_mul by (apply Z.pow_nonzero; lia).
  destruct (Z.to_nat p =? 0)%nat eqn:E0; [|ring].
  apply Nat.eqb_eq in E0. assert (p = 0) by lia. subst p. change (10 ^ 0) with 1. rewrite Z.mod_1_r. ring.
Qed.

Lemma nano_split d : d / nanos_per_day * nanos_per_day + (d mod nanos_per_day / nano_per_sec * nano_per_sec + d mod nano_per_sec) = d
  /\ 0 <= d mod nanos_per_day / nano_per_sec < 86400 /\ 0 <= d mod nano_per_sec < nano_per_sec.
Proof.
  assert (Hn : 0 < nano_per_sec) by reflexivity.
  pose proof (Z.mod_pos_bound d nanos_per_day ltac:(reflexivity)) as B1.
  pose proof (Z.mod_pos_bound d nano_per_sec Hn) as B2.
  pose proof (Z.div_mod d nanos_per_day ltac:(discriminate)) as E1.
  pose proof (Z.div_mod (d mod nanos_per_day) nano_per_sec ltac:(discriminate)) as E2.
  assert (E3 : (d mod nanos_per_day) mod nano_per_sec = d mod nano_per_sec).
  { rewrite E1 at 2. unfold nanos_per_day at 2.
    replace (86400 * nano_per_sec * (d / nanos_per_day) + d mod nanos_per_day)
      with (d mod nanos_per_day + (86400 * (d / nanos_per_day)) * nano_per_sec) by ring.
    now rewrite Z.mod_add. }
  rewrite E3 in E2. split; [lia|]. split; [|auto].
  split; [apply Z.div_pos; lia|]. apply Z.div_lt_upper_bound; auto.
  replace (nano_per_sec * 86400) with nanos_per_day by reflexivity. lia.
Qed.

Lemma first_match_hd {A} (p : peg A) ps s a : p s = Some (a, []) -> first_match (p :: ps) s = Some a.
Proof. intros H. cbn. unfold scan_all. now rewrite H. Qed.

Lemma within_calendar_days p q v : 10 ^ p * prec_nanos q = 1000000000 -> 0 < prec_nanos q ->
  within_calendar p v = in_range first_day last_day (v * prec_nanos q / nanos_per_day).
Proof.
  intros E Hq. unfold within_calendar, in_range. set (w := v * prec_nanos q).
  assert (EA : forall x, (x * 86400 * 10 ^ p <=? v) = (x * nanos_per_day <=? w)).
  { intros x. apply eq_true_iff_eq. rewrite !Z.leb_le. unfold w, nanos_per_day, nano_per_sec. rewrite <- E.
    replace (x * (86400 * (10 ^ p * prec_nanos q))) with ((x * 86400 * 10 ^ p) * prec_nanos q) by ring.
    apply Z.mul_le_mono_pos_r. auto. }
  rewrite Z.ltb_antisym, !EA. f_equal.
  - apply eq_true_iff_eq. rewrite !Z.leb_le. pose proof (Z.mul_div_le w nanos_per_day ltac:(reflexivity)) as B.
    split; intros H; [apply Z.div_le_lower_bound; [reflexivity|lia]|]. etransitivity; [|exact B].
    rewrite (Z.mul_comm nanos_per_day). apply Z.mul_le_mono_nonneg_r; [unfold nanos_per_day, nano_per_sec; lia|auto].
  - apply eq_true_iff_eq. rewrite negb_true_iff, Z.leb_gt, Z.leb_le. split; intros H.
    + assert (w / nanos_per_day < last_day + 1); [|lia]. apply Z.div_lt_upper_bound; [reflexivity|lia].
    + pose proof (Z.mul_succ_div_gt w nanos_per_day ltac:(reflexivity)) as B.
      eapply Z.lt_le_trans; [exact B|]. rewrite (Z.mul_comm nanos_per_day).
      apply Z.mul_le_mono_nonneg_r; [unfold nanos_per_day, nano_per_sec; lia|lia].
Qed.

Lemma prec_nanos_pos q : 0 < prec_nanos q. Proof. destruct q; reflexivity. Qed.

Lemma scan_datetime_show date secs n frac : date_valid date = true -> 0 <= secs < 86400 ->
  scan_frac frac = Some (n, []) ->
  scan_datetime 45 true true (show_date date ++ L "T" ++ show_hms secs ++ frac) = Some ((date, mk_time secs n), []).
Proof.
  intros Hd Hs Hf. unfold scan_datetime. eapply pbind_some; [now apply scan_date_show|].
  eapply pthen_some; [apply ptok_app|]. eapply pbind_some; [apply scan_hms_show; [auto|exact Hf]|]. reflexivity.
Qed.

(** What is written for an instant. *)
Definition instant_text (digits : nat) (d : Z) : list N :=
  show_date (date_of_days (d / nanos_per_day)) ++ L "T" ++ show_hms (d mod nanos_per_day / nano_per_sec)
  ++ show_frac digits (d mod nano_per_sec).
Definition clock_text (digits : nat) (d : Z) : list N :=
  show_hms (d / nano_per_sec) ++ show_frac digits (d mod nano_per_sec).

Lemma timestamp_round_trip p v : supported p = true -> p <> 12 -> within_calendar p v = true ->
  in_range i64_min i64_max v = true ->
  exists d, timestamp_to_string v p = Ok (instant_text (fractional_digits p) d) /\
    in_range min_days max_days (d / nanos_per_day) = true /\
    parse_timestamp (instant_text (fractional_digits p) d) p = Ok v.
Proof.
  intros Hs Hp Hw Hv. destruct (readable p Hs Hp) as (q & Hc & Hq & Hu & E & Hf & Hpn & Hp9 & Hd & _).
  exists (v * prec_nanos q). unfold timestamp_to_string. rewrite (Hd v Hw). cbn [rbind].
  rewrite (within_calendar_days p q v E (prec_nanos_pos q)) in Hw.
  rewrite <- min_days_first, <- max_days_last in Hw.
  unfold date_of_days_opt. rewrite Hw. split; [reflexivity|]. split; [reflexivity|].
  unfold parse_timestamp. rewrite Hc. cbn [rbind]. set (d := v * prec_nanos q) in *.
  destruct (nano_split d) as (Ed & Bs & Bn).
  unfold timestamp_formats. rewrite (first_match_hd _ _ _ (date_of_days (d / nanos_per_day), mk_time (d mod nanos_per_day / nano_per_sec) (d mod nano_per_sec))).
  - unfold datetime_nanos, time_nanos. cbn [fst snd t_secs t_nano].
    rewrite (proj2 (date_of_days_spec _)), Ed. apply duration_to_units_exact; auto.
  - unfold instant_text. apply scan_datetime_show; [now apply date_of_days_valid|auto|].
    rewrite Hf. pose proof (scan_frac_show (Z.to_nat p) (d mod nano_per_sec) [] ltac:(lia) Bn eq_refl) as S.
    rewrite app_nil_r in S. rewrite S. f_equal. f_equal. now apply (frac_zero_unit v p q).
Qed.

Lemma within_day_nanos p q v : 10 ^ p * prec_nanos q = 1000000000 -> 0 < prec_nanos q ->
  within_day p v = (0 <=? v) && (v * prec_nanos q <? nanos_per_day).
Proof.
  intros E Hq. unfold within_day. f_equal. apply eq_true_iff_eq. rewrite !Z.ltb_lt.
  unfold nanos_per_day, nano_per_sec. rewrite <- E, Z.mul_assoc. apply Z.mul_lt_mono_pos_r. auto.
Qed.

Lemma time_round_trip p v : supported p = true -> p <> 12 -> within_day p v = true ->
  exists d, time_to_string v p = Ok (clock_text (fractional_digits p) d) /\ 0 <= d < nanos_per_day /\
    parse_time (clock_text (fractional_digits p) d) p = Ok v.
Proof.
  intros Hs Hp Hw. destruct (readable p Hs Hp) as (q & Hc & Hq & Hu & E & Hf & Hpn & Hp9 & _ & Hd).
  exists (v * prec_nanos q). unfold time_to_string. rewrite (Hd v Hw).
  assert (Hv : in_range i64_min i64_max v = true).
  { unfold within_day in Hw. assert (10 ^ p <= 10 ^ 9) by (apply Z.pow_le_mono_r; lia).
    unfold in_range, i64_min, i64_max. change (10 ^ 9) with 1000000000 in *. lia. }
  rewrite (within_day_nanos p q v E (prec_nanos_pos q)) in Hw. apply andb_true_iff in Hw as [H0 H1].
  apply Z.leb_le in H0. apply Z.ltb_lt in H1. set (d := v * prec_nanos q) in *.
  assert (Hd0 : 0 <= d) by (apply Z.mul_nonneg_nonneg; [auto|pose proof (prec_nanos_pos q); lia]).
  destruct (Z.ltb_spec v 0); [lia|]. cbn [rbind]. destruct (Z.leb_spec nanos_per_day d); [lia|].
  split; [reflexivity|]. split; [lia|].
  unfold parse_time. rewrite Hc. cbn [rbind].
  destruct (nano_split d) as (Ed & Bs & Bn). rewrite (Z.mod_small d nanos_per_day), (Z.div_small d nanos_per_day) in * by lia.
  rewrite (first_match_hd _ _ _ (mk_time (d / nano_per_sec) (d mod nano_per_sec))).
  - unfold time_nanos. cbn [t_secs t_nano]. replace (_ + _) with d by lia. apply duration_to_units_exact; auto.
  - unfold clock_text. apply scan_hms_show; [auto|].
    rewrite Hf. pose proof (scan_frac_show (Z.to_nat p) (d mod nano_per_sec) [] ltac:(lia) Bn eq_refl) as S.
    rewrite app_nil_r in S. rewrite S. f_equal. f_equal. now apply (frac_zero_unit v p q).
Qed.

(** ** Intervals *)

Open Scope peg_scope.

Lemma dur_days z rest : g_duration_days (show_Z z ++ L "d" ++ rest) = Some (show_Z z, rest).
Proof. unfold g_duration_days. eapply pbind_some; [now apply g_integer_show_Z|reflexivity]. Qed.
Lemma dur_secs z rest : g_duration_seconds (show_Z z ++ L "s" ++ rest) = Some (show_Z z, rest).
Proof. unfold g_duration_seconds. eapply pbind_some; [now apply g_integer_show_Z|reflexivity]. Qed.
Lemma dur_sub z p u rest : prec_unit p = Some u ->
  g_duration_subseconds (show_Z z ++ u ++ rest) = Some ((show_Z z, u), rest).
Proof.
  intros H. unfold g_duration_subseconds. eapply pbind_some.
  - apply g_integer_show_Z. destruct p; try discriminate; injection H as <-; reflexivity.
  - destruct p; try discriminate; injection H as <-; reflexivity.
Qed.
Lemma dur_days_none z s : hd_not is_digit s = true -> hd_not (N.eqb 100) s = true ->
  g_duration_days (show_Z z ++ s) = None.
Proof.
  intros H H'. unfold g_duration_days. eapply pbind_some; [now apply g_integer_show_Z|].
  apply pthen_none, (ptok_none_hd [] 100%N). auto.
Qed.
Lemma dur_secs_none z s : hd_not is_digit s = true -> hd_not (N.eqb 115) s = true ->
  g_duration_seconds (show_Z z ++ s) = None.
Proof.
  intros H H'. unfold g_duration_seconds. eapply pbind_some; [now apply g_integer_show_Z|].
  apply pthen_none, (ptok_none_hd [] 115%N). auto.
Qed.

Definition sub_part (sub : Z) (u : list N) : option (list N * list N) :=
  if (sub =? 0)%Z then None else Some (show_Z sub, u).
Definition num_part (z : Z) : option (list N) := if (z =? 0)%Z then None else Some (show_Z z).

Lemma unit_head p u rest : prec_unit p = Some u ->
  hd_not is_digit (u ++ rest) = true /\ hd_not (N.eqb 100) (u ++ rest) = true /\ hd_not (N.eqb 115) (u ++ rest) = true.
Proof. destruct p; intros H; try discriminate; injection H as <-; auto. Qed.

Lemma interval_grammar i p sub parts : interval_parts i p sub = Some parts -> parts <> [] ->
  exists u, (sub <> 0%Z -> prec_unit p = Some u) /\
  g_interval_duration (interval_text parts) =
    Some ((num_part (iv_days i), num_part (iv_secs i), sub_part sub u), []).
Proof.
  intros H Hn. unfold interval_parts in H. unfold num_part, sub_part.
  exists (match prec_unit p with Some u => u | None => [] end). split.
  { intros Hs. destruct (Z.eqb_spec sub 0); [congruence|]. destruct (prec_unit p); [reflexivity|discriminate]. }
  unfold g_interval_duration.
  destruct (Z.eqb_spec sub 0) as [Hs|Hs].
  - injection H as <-.
    destruct (Z.eqb_spec (iv_days i) 0) as [Hd|Hd], (Z.eqb_spec (iv_secs i) 0) as [Hc|Hc];
      cbn [app interval_text join] in *; [congruence|..].
    + eapply pbind_some with (a := (None, Some (show_Z (iv_secs i)), None)) (r := []); [|reflexivity].
      apply palt_r; [apply pbind_none, dur_days_none; reflexivity|]. apply palt_l.
      eapply pbind_some; [apply (dur_secs _ [])|]. reflexivity.
    + eapply pbind_some with (a := (Some (show_Z (iv_days i)), None, None)) (r := []); [|reflexivity].
      apply palt_l. eapply pbind_some; [apply (dur_days _ [])|]. reflexivity.
    + eapply pbind_some with (a := (Some (show_Z (iv_days i)), Some (show_Z (iv_secs i)), None)) (r := []); [|reflexivity].
      apply palt_l. rewrite <- app_assoc. eapply pbind_some; [apply dur_days|].
      eapply pbind_some; [apply popt_some; eapply pthen_some; [apply ptok_app|apply (dur_secs _ [])]|]. reflexivity.
  - destruct (prec_unit p) as [u|] eqn:Eu; [|discriminate]. injection H as <-.
    pose proof (unit_head p u [] Eu) as (U1 & U2 & U3). rewrite app_nil_r in U1, U2, U3.
    pose proof (dur_sub sub p u [] Eu) as DS. rewrite app_nil_r in DS.
    destruct (Z.eqb_spec (iv_days i) 0) as [Hd|Hd], (Z.eqb_spec (iv_secs i) 0) as [Hc|Hc];
      cbn [app interval_text join] in *.
    + eapply pbind_some with (a := (None, None, Some (show_Z sub, u))) (r := []); [|reflexivity].
      apply palt_r; [now apply pbind_none, dur_days_none|]. apply palt_r; [now apply pbind_none, dur_secs_none|].
      eapply pbind_some; [exact DS|]. reflexivity.
    + eapply pbind_some with (a := (None, Some (show_Z (iv_secs i)), Some (show_Z sub, u))) (r := []); [|reflexivity].
      rewrite <- app_assoc.
      apply palt_r; [now apply pbind_none, dur_days_none|]. apply palt_l.
      eapply pbind_some; [apply dur_secs|].
      eapply pbind_some; [apply popt_some; eapply pthen_some; [apply ptok_app|exact DS]|]. reflexivity.
    + eapply pbind_some with (a := (Some (show_Z (iv_days i)), None, Some (show_Z sub, u))) (r := []); [|reflexivity].
      rewrite <- app_assoc. apply palt_l. eapply pbind_some; [apply dur_days|].
      eapply pbind_some; [apply popt_none; eapply pthen_some; [apply ptok_app|now apply dur_secs_none]|].
      eapply pbind_some; [apply popt_some; eapply pthen_some; [apply ptok_app|exact DS]|]. reflexivity.
    + eapply pbind_some with (a := (Some (show_Z (iv_days i)), Some (show_Z (iv_secs i)), Some (show_Z sub, u))) (r := []); [|reflexivity].
      rewrite <- !app_assoc. apply palt_l. eapply pbind_some; [apply dur_days|].
      eapply pbind_some; [apply popt_some; eapply pthen_some; [apply ptok_app|apply dur_secs]|].
      eapply pbind_some; [apply popt_some; eapply pthen_some; [apply ptok_app|exact DS]|]. reflexivity.
Qed.

Lemma prec_of_unit_unit p u : prec_unit p = Some u -> prec_of_unit u = Some p.
Proof. destruct p; intros H; try discriminate; injection H as <-; reflexivity. Qed.

Lemma num_part_read z : in_range i32_min i32_max z = true ->
  match num_part z with Some t => duration_number (parse_i32 t) | None => Ok 0%Z end = Ok z.
Proof.
  intros H. unfold num_part. destruct (Z.eqb_spec z 0); [now subst|]. now rewrite parse_i32_show.
Qed.

(** The interval read back from the text of an interval: the precision is
    always stated. *)
Lemma interval_round_trip i p sub parts :
  interval_parts i p sub = Some parts ->
  in_range i32_min i32_max (iv_days i) = true -> in_range i32_min i32_max (iv_secs i) = true ->
  in_range i64_min i64_max sub = true ->
  parse_interval (interval_text parts) p =
    Ok (mk_interval (iv_days i) (iv_secs i) sub (Some (IvPrecision (prec_units p)))).
Proof.
  intros H Hd Hs Hu. unfold parse_interval. destruct parts as [|x parts'].
  - (* nothing to write *)
    unfold interval_parts in H. destruct (Z.eqb_spec sub 0) as [Es|Es].
    + injection H as H. destruct (Z.eqb_spec (iv_days i) 0) as [E1|E1]; [|discriminate].
      destruct (Z.eqb_spec (iv_secs i) 0) as [E2|E2]; [|discriminate]. rewrite E1, E2, Es. vm_compute. reflexivity.
    + destruct (prec_unit p); [|discriminate]. injection H as H. symmetry in H. now apply app_cons_not_nil in H.
  - destruct (interval_grammar i p sub (x :: parts') H ltac:(discriminate)) as (u & Eu & ->).
    rewrite num_part_read by auto. cbn [rbind]. rewrite num_part_read by auto. cbn [rbind].
    unfold sub_part. destruct (Z.eqb_spec sub 0) as [Es|Es]; [now rewrite Es|].
    rewrite (prec_of_unit_unit _ _ (Eu Es)). cbn [unwrap rbind]. rewrite Z.eqb_refl, parse_i64_show by auto. reflexivity.
Qed.

(** ** Printable text *)

Definition ascii_char (c : N) : bool := (32 <=? c)%N && (c <=? 126)%N.
Definition ascii_text (s : list N) : bool := forallb ascii_char s.

Lemma ascii_text_app a b : ascii_text (a ++ b) = ascii_text a && ascii_text b.
Proof. apply forallb_app. Qed.

Lemma ascii_str_ok (U : Unicode) s : ascii_sane U -> ascii_text s = true -> str_ok s = true.
Proof.
  intros Hu. assert (H1 : forall f c, ascii_char c = true -> esc_ok f c = true).
  { intros f c Hc. unfold esc_ok. unfold ascii_char in Hc. destruct (Hu c) as [-> ->]; [lia|].
    replace (c =? 0)%N with false by lia. destruct f; cbn; apply orb_true_r. }
  destruct s as [|c r]; cbn [ascii_text forallb str_ok]; auto. intros H; bool_hyps.
  rewrite H1 by auto. cbn. rewrite forallb_forall in *. auto.
Qed.

Lemma digits_ascii s : forallb is_digit s = true -> ascii_text s = true.
Proof.
  unfold ascii_text. rewrite !forallb_forall. intros H c Hc. specialize (H c Hc).
  unfold ascii_char, is_digit in *. lia.
Qed.
Lemma show_pad_ascii w z : ascii_text (show_pad w z) = true.
Proof.
  apply digits_ascii. unfold show_pad, pad0. rewrite forallb_app, show_N_digits, andb_true_r.
  apply forallb_forall. intros c Hc. apply repeat_spec in Hc. now subst.
Qed.
Lemma show_Z_ascii z : ascii_text (show_Z z) = true.
Proof.
  unfold show_Z. destruct (z <? 0)%Z; [change (ascii_text ([45%N] ++ show_N (Z.abs_N z)) = true)|];
    rewrite ?ascii_text_app; rewrite (digits_ascii (show_N _)) by apply show_N_digits; reflexivity.
Qed.
Lemma show_date_ascii d : ascii_text (show_date d) = true.
Proof.
  unfold show_date. rewrite !ascii_text_app, !show_pad_ascii. cbn. rewrite !andb_true_r.
  unfold show_year. destruct (in_range _ _ _); [apply show_pad_ascii|].
  cbn [ascii_text forallb]. rewrite (show_pad_ascii 4). destruct (_ <? _)%Z; reflexivity.
Qed.
Lemma show_hms_ascii z : ascii_text (show_hms z) = true.
Proof. unfold show_hms. rewrite !ascii_text_app, !show_pad_ascii. reflexivity. Qed.
Lemma show_frac_ascii k z : ascii_text (show_frac k z) = true.
Proof. destruct k; [reflexivity|]. cbn [show_frac ascii_text forallb]. now rewrite (show_pad_ascii (S k)). Qed.
Lemma instant_ascii k d : ascii_text (instant_text k d) = true.
Proof. unfold instant_text. now rewrite !ascii_text_app, show_date_ascii, show_hms_ascii, show_frac_ascii. Qed.
Lemma clock_ascii k d : ascii_text (clock_text k d) = true.
Proof. unfold clock_text. now rewrite !ascii_text_app, show_hms_ascii, show_frac_ascii. Qed.
Lemma join_ascii l : forallb ascii_text l = true -> ascii_text (join (L " ") l) = true.
Proof.
  induction l as [|x l IH]; [reflexivity|]. cbn [forallb]. intros H; bool_hyps. destruct l as [|y l]; auto.
  change (ascii_text (x ++ L " " ++ join (L " ") (y :: l)) = true). rewrite !ascii_text_app, H, IH by auto. reflexivity.
Qed.
Lemma interval_ascii i p sub parts : interval_parts i p sub = Some parts -> ascii_text (interval_text parts) = true.
Proof.
  intros H. unfold interval_text. assert (A : forallb ascii_text parts = true).
  { unfold interval_parts in H.
    assert (B : forallb ascii_text ((if (iv_days i =? 0)%Z then [] else [show_Z (iv_days i) ++ L "d"])
      ++ (if (iv_secs i =? 0)%Z then [] else [show_Z (iv_secs i) ++ L "s"])) = true).
    { clear H. destruct (iv_days i =? 0)%Z, (iv_secs i =? 0)%Z; cbn [app forallb]; rewrite ?ascii_text_app, ?show_Z_ascii; reflexivity. }
    revert H B. cbv zeta. set (base := (_ ++ _)). clearbody base. intros H B.
    destruct (sub =? 0)%Z; [now injection H as <-|].
    destruct (prec_unit p) as [u|] eqn:Eu; [|discriminate]. injection H as <-.
    rewrite forallb_app, B. cbn [forallb]. rewrite ascii_text_app, show_Z_ascii.
    destruct p; try discriminate; injection Eu as <-; reflexivity. }
  destruct parts; [reflexivity|]. now apply join_ascii.
Qed.

(** ** Values *)

(** The text between quotes of the values written so. *)
Definition quoted_value (v : litval) : option (list N) :=
  match v with
  | LString s => Some s
  | LDate d => days_to_date_string d
  | LTime z => match time_to_string z 6 with Ok s => Some s | _ => None end
  | LTimestamp z => match timestamp_to_string z 6 with Ok s => Some s | _ => None end
  | LPrecisionTime p z => match time_to_string z p with Ok s => Some s | _ => None end
  | LPrecisionTimestamp p z | LPrecisionTimestampTz p z =>
      match timestamp_to_string z p with Ok s => Some s | _ => None end
  | LInterval i =>
      match prec_of_units (fst (interval_units i)) with
      | Some p => option_map interval_text (interval_parts i p (snd (interval_units i)))
      | None => None
      end
  | _ => None
  end.

Section Facts.
  Context (U : Unicode) (F : Floats).
  Variable Hascii : ascii_sane U.

  (** The concrete syntax of a value. *)
  Definition value_cst (v : litval) : litc :=
    match v with
    | LBool b => CBool (if b then L "true" else L "false")
    | LI8 z | LI16 z | LI32 z | LI64 z => CInt (show_Z z)
    | LFp32 f => CFloat (show32 f)
    | LFp64 f => CFloat (show64 f)
    | LNull _ => CNull
    | v => CStr (show_string (match quoted_value v with Some s => s | None => [] end))
    end.

  Lemma value_text_quoted op e v n s : value_ok e v n = true -> quoted_value v = Some s ->
    o_text (litval_out op v) = show_string s.
  Proof.
    intros Hok. destruct v; cbn [quoted_value litval_out]; try discriminate; intros H.
    - now injection H as <-.
    - rewrite H. reflexivity.
    - unfold prec_literal_out. destruct (time_to_string us 6); try discriminate. now injection H as <-.
    - unfold prec_literal_out. destruct (timestamp_to_string us 6); try discriminate. now injection H as <-.
    - unfold interval_out. destruct (interval_units i) as [un sub]. cbn [fst snd] in H.
      destruct (prec_of_units un) as [p|]; [|discriminate].
      destruct (interval_parts i p sub) as [parts|]; [|discriminate]. injection H as <-.
      destruct (_ && _), (_ && _); reflexivity.
    - unfold prec_literal_out. destruct (time_to_string value prec); try discriminate. injection H as <-.
      destruct (_ =? _)%Z; reflexivity.
    - unfold prec_literal_out. destruct (timestamp_to_string value prec); try discriminate. injection H as <-.
      destruct (_ =? _)%Z; reflexivity.
    - unfold prec_literal_out. destruct (timestamp_to_string value prec); try discriminate. injection H as <-.
      destruct (_ =? _)%Z; reflexivity.
  Qed.

  Lemma supported_prec p : supported p = true -> exists q, prec_of_units p = Some q /\ prec_units q = p.
  Proof.
    unfold supported, prec_of_units. intros H.
    destruct (Z.eqb_spec p 0); [now exists PSec|]. destruct (Z.eqb_spec p 3); [now exists PMilli|].
    destruct (Z.eqb_spec p 6); [now exists PMicro|]. destruct (Z.eqb_spec p 9); [now exists PNano|].
    destruct (Z.eqb_spec p 12); [now exists PPico|]. discriminate.
  Qed.

  Definition is_quoted (v : litval) : bool :=
    match v with
    | LString _ | LDate _ | LTime _ | LTimestamp _ | LInterval _ | LPrecisionTime _ _
    | LPrecisionTimestamp _ _ | LPrecisionTimestampTz _ _ => true
    | _ => false
    end.

  Lemma date_text_ok d : in_range first_day last_day d = true ->
    days_to_date_string d = Some (show_date (date_of_days d)) /\ parse_date_to_days (show_date (date_of_days d)) = Ok d.
  Proof.
    intros H. unfold days_to_date_string, date_of_days_opt. rewrite min_days_first, max_days_last, H.
    split; [reflexivity|]. unfold parse_date_to_days.
    assert (V : date_valid (date_of_days d) = true).
    { apply date_of_days_valid. now rewrite min_days_first, max_days_last. }
    pose proof (scan_date_show _ [] V) as S. rewrite app_nil_r in S.
    rewrite (first_match_hd _ _ _ _ S), (proj2 (date_of_days_spec d)). f_equal. apply wrap_i32_id.
    unfold in_range, first_day, last_day, i32_min, i32_max in *. lia.
  Qed.

  (** Quoted values: text and reading. *)
  Lemma quoted_round_trip e v n : value_ok e v n = true -> is_quoted v = true ->
    exists s, quoted_value v = Some s /\ str_ok s = true /\
      (forall t q, value_type v (if n then NNullable else NRequired) = Some t ->
         unescape_string c_sq q = (Ok s : pres (list N)) -> to_string_literal q (Some t) = Ok (mk_lit (Some v) n 0)).
  Proof.
    intros Hok Hq. destruct v; try discriminate; cbn [value_ok] in Hok.
    - apply andb_true_iff in Hok as [Hs Hn]. apply negb_true_iff in Hn as ->. exists s. split; [reflexivity|].
      split; [auto|]. cbn [value_type]. intros t q [= <-] E. unfold to_string_literal. now rewrite E.
    - destruct (date_text_ok days Hok) as [E1 E2].
      exists (show_date (date_of_days days)). split; [auto|]. split; [apply ascii_str_ok; auto using show_date_ascii|].
      cbn [value_type]. intros t q [= <-] E. unfold to_string_literal. rewrite E. cbn [rbind]. rewrite E2. cbn [rbind].
      now destruct n.
    - destruct (time_round_trip 6 us eq_refl ltac:(discriminate) Hok) as (d & E1 & _ & E2).
      eexists. split; [cbn [quoted_value]; rewrite E1; reflexivity|]. split; [apply ascii_str_ok; auto using clock_ascii|].
      cbn [value_type]. intros t q [= <-] E. unfold to_string_literal. rewrite E. cbn [rbind]. rewrite E2. cbn [rbind].
      now destruct n.
    - apply andb_true_iff in Hok as [Hr Hok].
      destruct (timestamp_round_trip 6 us eq_refl ltac:(discriminate) Hok Hr) as (d & E1 & _ & E2).
      eexists. split; [cbn [quoted_value]; rewrite E1; reflexivity|]. split; [apply ascii_str_ok; auto using instant_ascii|].
      cbn [value_type]. intros t q [= <-] E. unfold to_string_literal. rewrite E. cbn [rbind]. rewrite E2. cbn [rbind].
      now destruct n.
    - destruct i as [days secs sub [[p|us]|]]; cbn [iv_mode] in Hok; try discriminate.
      cbn [iv_days iv_secs iv_sub] in Hok. apply andb_true_iff in Hok as [Hok Hz]. bool_hyps.
      destruct (supported_prec p) as (q & Eq & Eu); [auto|].
      cbn [quoted_value interval_units iv_mode iv_sub fst snd]. rewrite Eq.
      destruct (interval_parts (mk_interval days secs sub (Some (IvPrecision p))) q sub) as [parts|] eqn:Ep.
      + eexists. split; [reflexivity|]. split; [apply ascii_str_ok; auto; eapply interval_ascii; eauto|].
        cbn [value_type iv_mode]. intros t x [= <-] E. unfold to_string_literal. rewrite E. cbn [rbind]. rewrite Eq.
        rewrite (interval_round_trip _ _ _ _ Ep) by auto. cbn [rbind iv_days iv_secs]. rewrite Eu. now destruct n.
      + exfalso. unfold interval_parts in Ep. destruct (Z.eqb_spec sub 0) as [E0|E0]; [discriminate|].
        destruct q; try discriminate. cbn in Eu. subst p. cbn in Hz. congruence.
    - bool_hyps. assert (Hp : prec <> 12) by (intros ->; discriminate).
      destruct (time_round_trip prec value H Hp) as (d & E1 & _ & E2); [auto|].
      eexists. split; [cbn [quoted_value]; rewrite E1; reflexivity|]. split; [apply ascii_str_ok; auto using clock_ascii|].
      cbn [value_type]. intros t q [= <-] E. unfold to_string_literal. rewrite E. cbn [rbind]. rewrite E2. cbn [rbind].
      now destruct n.
    - bool_hyps. assert (Hp : prec <> 12) by (intros ->; discriminate).
      destruct (timestamp_round_trip prec value H Hp) as (d & E1 & _ & E2); [auto|auto|].
      eexists. split; [cbn [quoted_value]; rewrite E1; reflexivity|]. split; [apply ascii_str_ok; auto using instant_ascii|].
      cbn [value_type]. intros t q [= <-] E. unfold to_string_literal. rewrite E. cbn [rbind]. rewrite E2. cbn [rbind].
      now destruct n.
    - bool_hyps. assert (Hp : prec <> 12) by (intros ->; discriminate).
      destruct (timestamp_round_trip prec value H Hp) as (d & E1 & _ & E2); [auto|auto|].
      eexists. split; [cbn [quoted_value]; rewrite E1; reflexivity|]. split; [apply ascii_str_ok; auto using instant_ascii|].
      cbn [value_type]. intros t q [= <-] E. unfold to_string_literal. rewrite E. cbn [rbind]. rewrite E2. cbn [rbind].
      now destruct n.
  Qed.

  (** Characters that would continue a number. *)
  Definition num_stop (c : N) : bool := is_digit c || (c =? 46)%N.

  Lemma g_float_int z rest : hd_not num_stop rest = true -> g_float (show_Z z ++ rest) = None.
  Proof.
    intros H. assert (Hd : hd_not is_digit rest = true).
    { eapply hd_not_weaken; [|exact H]. unfold num_stop. intros c; cbv beta; lia. }
    assert (Hp : hd_not (N.eqb 46) rest = true).
    { eapply hd_not_weaken; [|exact H]. unfold num_stop. intros c; cbv beta; lia. }
    unfold g_float, show_Z. destruct (z <? 0)%Z.
    - eapply pbind_some; [apply popt_some; reflexivity|]. eapply pbind_some; [now apply show_N_app_digit|].
      apply pthen_none, (ptok_none_hd [] 46%N). auto.
    - eapply pbind_some; [apply popt_none, (ptok_none_hd [] 45%N), digit_head_not; intros; chars|].
      eapply pbind_some; [now apply show_N_app_digit|]. apply pthen_none, (ptok_none_hd [] 46%N). auto.
  Qed.

  Lemma g_float_app s rest : is_float_text s = true -> hd_not is_digit rest = true ->
    g_float (s ++ rest) = Some (s, rest).
  Proof.
    intros Hs Hr. unfold is_float_text in Hs.
    assert (K : forall (m : option unit) body, (match split_at_char 46 body with
      | Some (a, b) => negb (Nat.eqb (length a) 0) && forallb is_digit a && negb (Nat.eqb (length b) 0) && forallb is_digit b
      | None => false end) = true ->
      (d <- pwhile1 is_digit ;; ptok (L ".") ;;; f <- pwhile1 is_digit ;;
       pret (match m with Some _ => 45%N :: d | None => d end ++ 46%N :: f)) (body ++ rest)
        = Some (match m with Some _ => 45%N :: body | None => body end, rest)).
    { intros m body H. destruct (split_at_char 46 body) as [[a b]|] eqn:E; [|discriminate].
      apply split_at_char_spec in E as [-> _]. bool_hyps. 
      rewrite <- app_assoc. cbn [app]. eapply pbind_some.
      - apply pwhile1_app; [destruct a; [discriminate|discriminate]|auto|reflexivity].
      - eapply pthen_some; [apply (ptok_app (L "."))|]. eapply pbind_some.
        + apply pwhile1_app; [destruct b; [discriminate|discriminate]|auto|auto].
        + destruct m; reflexivity. }
    unfold g_float. destruct s as [|c r]; [discriminate|]. destruct (N.eqb_spec c 45) as [->|Hc].
    - eapply pbind_some; [apply popt_some; reflexivity|]. rewrite K by auto. reflexivity.
    - eapply pbind_some; [apply popt_none, (ptok_none_hd [] 45%N)|].
      + cbn [app hd_not]. destruct (N.eqb_spec 45 c); [congruence|reflexivity].
      + rewrite K by auto. reflexivity.
  Qed.

  Lemma num_none c s : is_digit c = false -> c <> 45%N -> g_float (c :: s) = None /\ g_integer (c :: s) = None.
  Proof.
    intros Hd Hm. assert (E : popt (ptok (L "-")) (c :: s) = Some (None, c :: s)).
    { apply popt_none, (ptok_none_hd [] 45%N). cbn [hd_not]. destruct (N.eqb_spec 45 c); [congruence|reflexivity]. }
    assert (E2 : pwhile1 is_digit (c :: s) = None) by (apply pwhile1_none; cbn [hd_not]; now rewrite Hd).
    split; [unfold g_float|unfold g_integer]; (eapply pbind_some; [exact E|]); now apply pbind_none.
  Qed.

  Lemma g_litval_value op e v n rest : value_ok e v n = true -> hd_not num_stop rest = true ->
    g_litval (o_text (litval_out op v) ++ rest) = Some (value_cst v, rest).
  Proof.
    intros Hok Hr. assert (Hd : hd_not is_digit rest = true).
    { eapply hd_not_weaken; [|exact Hr]. unfold num_stop. intros c; cbv beta; lia. }
    destruct (is_quoted v) eqn:Hq.
    - destruct (quoted_round_trip e v n Hok Hq) as (s & E & Hs & _).
      rewrite (value_text_quoted op e v n s Hok E).
      assert (Ec : value_cst v = CStr (show_string s)).
      { destruct v; try discriminate Hq; cbn [value_cst]; rewrite E; reflexivity. }
      rewrite Ec. unfold g_litval, show_string. cbn [app].
      destruct (num_none c_sq ((escape_debug s ++ [c_sq]) ++ rest)) as [N1 N2]; [reflexivity|discriminate|].
      apply palt_r; [now apply pmap_none|]. apply palt_r; [now apply pmap_none|].
      apply palt_r; [apply pmap_none; reflexivity|]. apply palt_l. apply pmap_some.
      destruct (C05_string_round_trip U s rest perr Hs) as (t & G & Ht). unfold show_string in G.
      change (([c_sq] ++ escape_debug s ++ [c_sq]) ++ rest) with (c_sq :: (escape_debug s ++ [c_sq]) ++ rest) in G.
      pose proof (g_quoted_split _ _ _ _ G) as [S _]. change (c_sq :: (escape_debug s ++ [c_sq]) ++ rest)
        with ((c_sq :: escape_debug s ++ [c_sq]) ++ rest) in S.
      apply app_inv_tail in S. rewrite S. exact G.
    - destruct v; try discriminate Hq; try discriminate Hok; cbn [litval_out value_cst] in *;
        try (unfold g_litval; cbn [o_text txt];
             apply palt_r; [apply pmap_none; now apply g_float_int|]; apply palt_l; apply pmap_some;
             now apply g_integer_show_Z).
      + destruct b; reflexivity.
      + cbn [value_ok] in Hok. apply andb_true_iff in Hok as [Hf _]. unfold g_litval. cbn [o_text txt].
        apply palt_l, pmap_some. now apply g_float_app.
      + cbn [value_ok] in Hok. apply andb_true_iff in Hok as [Hf _]. unfold g_litval. cbn [o_text txt].
        apply palt_l, pmap_some. now apply g_float_app.
      + reflexivity.
  Qed.

  Lemma quoted_cst_unescape s : str_ok s = true -> unescape_string c_sq (show_string s) = (Ok s : pres (list N)).
  Proof.
    intros Hs. destruct (C05_string_round_trip U s [] perr Hs) as (t & G & Ht).
    pose proof (g_quoted_split _ _ _ _ G) as [S _]. rewrite !app_nil_r in S. now rewrite S.
  Qed.

  (** The written suffix is a type. *)
  Lemma suffix_is_type op e v (n : bool) : wf_exts e -> value_ok e v n = true ->
    match v with LNull _ => True | _ =>
      exists t, value_type v (if n then NNullable else NRequired) = Some t /\ type_ok e t = true /\
        suffix_text v n = L ":" ++ ttext op e t
    end.
  Proof.
    intros W Hok. unfold ttext.
    assert (S : forall k, o_text (type_out op e (TSimple k (if n then NNullable else NRequired) 0))
                 = skind_name k ++ (if n then L "?" else [])).
    { intros k. cbn [type_out]. rewrite textify_type_text. cbn [map params_text]. rewrite app_nil_r. now destruct n. }
    assert (P : forall p, supported p = true -> in_range 0 12 p = true).
    { intros p. unfold supported, in_range. lia. }
    assert (SP : forall k p, o_text (type_out op e (TPrec k p (if n then NNullable else NRequired) 0))
                 = preck_name k ++ (if n then L "?" else []) ++ L "<" ++ show_Z p ++ L ">").
    { intros k p. cbn [type_out]. rewrite textify_type_text. now destruct n. }
    destruct v; try exact I; try discriminate Hok; cbn [value_type value_ok] in *;
      try (eexists; split; [reflexivity|]; split; [reflexivity|]; rewrite S; unfold suffix_text, suffix_parts;
           rewrite app_nil_r; reflexivity).
    - destruct i as [days secs sub [[p|us]|]]; cbn [iv_mode] in *; try discriminate.
      eexists. split; [reflexivity|]. cbn [type_ok type_out]. split; [bool_hyps; now rewrite P by auto|].
      rewrite textify_type_text. unfold suffix_text, suffix_parts, interval_units. cbn [iv_mode fst]. now destruct n.
    - eexists. split; [reflexivity|]. split; [cbn [type_ok]; bool_hyps; now rewrite P by auto|].
      rewrite SP. unfold suffix_text, suffix_parts. now destruct n.
    - eexists. split; [reflexivity|]. split; [cbn [type_ok]; bool_hyps; now rewrite P by auto|].
      rewrite SP. unfold suffix_text, suffix_parts. now destruct n.
    - eexists. split; [reflexivity|]. split; [cbn [type_ok]; bool_hyps; now rewrite P by auto|].
      rewrite SP. unfold suffix_text, suffix_parts. now destruct n.
  Qed.

  (** Reading a value against the type written after it. *)
  Lemma lower_with_type e c v (n : bool) t : value_ok e v n = true ->
    match v with LNull _ => False | _ => True end ->
    value_type v (if n then NNullable else NRequired) = Some t -> lower_type e c = Ok t ->
    lower_literal e (value_cst v, Some c) = Ok (mk_lit (Some v) n 0).
  Proof.
    intros Hok Hn Hv Hc. unfold lower_literal. cbn [fst snd]. rewrite Hc. cbn [rmap rbind].
    destruct (is_quoted v) eqn:Hq.
    - destruct (quoted_round_trip e v n Hok Hq) as (s & E & Hs & K).
      assert (Ec : value_cst v = CStr (show_string s)).
      { destruct v; try discriminate Hq; cbn [value_cst]; rewrite E; reflexivity. }
      rewrite Ec. apply K; auto. now apply quoted_cst_unescape.
    - destruct v; try discriminate Hq; try discriminate Hok; try contradiction; cbn [value_cst value_type value_ok] in *;
        injection Hv as <-; unfold to_int_literal, to_float_literal, to_boolean_literal.
      + destruct b, n; reflexivity.
      + rewrite parse_i64_show by (unfold in_range, i32_min, i32_max, i64_min, i64_max in *; lia).
        cbn [unwrap rbind]. rewrite wrap_i32_id by auto. now destruct n.
      + rewrite parse_i64_show by (unfold in_range, i32_min, i32_max, i64_min, i64_max in *; lia).
        cbn [unwrap rbind]. rewrite wrap_i32_id by auto. now destruct n.
      + rewrite parse_i64_show by (unfold in_range, i32_min, i32_max, i64_min, i64_max in *; lia).
        cbn [unwrap rbind]. rewrite wrap_i32_id by auto. now destruct n.
      + rewrite parse_i64_show by auto. cbn [unwrap rbind]. now destruct n.
      + apply andb_true_iff in Hok as [_ E]. apply N.eqb_eq in E. rewrite E. now destruct n.
      + apply andb_true_iff in Hok as [_ E]. apply N.eqb_eq in E. rewrite E. now destruct n.
  Qed.

  Lemma lower_no_type e v : value_ok e v false = true -> is_default_for_syntax v = true ->
    lower_literal e (value_cst v, None) = Ok (mk_lit (Some v) false 0).
  Proof.
    intros Hok Hd. unfold lower_literal. cbn [fst snd rbind].
    destruct v; try discriminate Hd; try discriminate Hok; cbn [value_cst value_ok quoted_value] in *;
      unfold to_int_literal, to_float_literal, to_boolean_literal, to_string_literal.
    - destruct b; reflexivity.
    - rewrite parse_i64_show by auto. reflexivity.
    - apply andb_true_iff in Hok as [_ E]. apply N.eqb_eq in E. now rewrite E.
    - apply andb_true_iff in Hok as [Hs _]. rewrite quoted_cst_unescape by auto. reflexivity.
  Qed.

  Definition ltext (op : options) (e : exts) (l : literal) : list N := o_text (literal_out op e l).

  Lemma lit_stop_num rest : hd_not lit_stop rest = true -> hd_not num_stop rest = true.
  Proof. intros H. eapply hd_not_weaken; [|exact H]. unfold lit_stop, num_stop, type_stop. intros c; cbv beta. chars. Qed.
  Lemma lit_stop_type rest : hd_not lit_stop rest = true -> hd_not type_stop rest = true.
  Proof. intros H. eapply hd_not_weaken; [|exact H]. unfold lit_stop. intros c; cbv beta; lia. Qed.

  Theorem literal_round_trip op e l :
    wf_exts e -> op_anchors op <> VNever -> literal_ok e l = true -> type_known op l = true ->
    exists c, lower_literal e c = Ok l /\
      forall rest, hd_not lit_stop rest = true -> g_literal (ltext op e l ++ rest) = Some (c, rest).
  Proof.
    intros W Ha Hok Ht. destruct l as [[v|] n var]; [|discriminate]. unfold literal_ok in Hok. cbn [l_type l_nullable l_var] in Hok.
    apply andb_true_iff in Hok as [Hok Hv]. apply N.eqb_eq in Hv as ->.
    unfold ltext, literal_out. cbn [l_type l_nullable].
    assert (With : forall t, type_ok e t = true -> exists c, lower_type e c = Ok t /\
      forall rest, hd_not lit_stop rest = true ->
        g_literal ((o_text (litval_out op v) ++ L ":" ++ ttext op e t) ++ rest) = Some ((value_cst v, Some c), rest)).
    { intros t Hty. destruct (type_round_trip op e t W Ha Hty) as (c & Hc & G). exists c. split; [auto|].
      intros rest Hr. unfold g_literal. rewrite <- app_assoc. eapply pbind_some.
      - eapply g_litval_value; [eassumption|]. reflexivity.
      - rewrite <- app_assoc. eapply pbind_some.
        + apply popt_some. eapply pthen_some; [apply (ptok_app (L ":"))|]. eapply pthen_some.
          * apply sp_none. apply head_alpha_not; [now apply type_ok_head|]. intros; unfold is_sp; chars.
          * apply G. now apply lit_stop_type.
        + reflexivity. }
    destruct (match v with LNull _ => true | _ => false end) eqn:Hnull.
    - destruct v; try discriminate. cbn [value_ok] in Hok. apply andb_true_iff in Hok as [Hty Hn].
      apply negb_true_iff in Hn as ->. destruct (With t Hty) as (c & Hc & G). exists (CNull, Some c). split.
      + unfold lower_literal. cbn [fst snd]. rewrite Hc. reflexivity.
      + exact G.
    - assert (Eo : o_text (litval_out op v +++
          match v with
          | LNull t => txt (L ":") +++ type_out op e t
          | _ => if (match op_literal_types op with VNever => false | VAlways => true
                     | VRequired => n || negb (is_default_for_syntax v) end)
                 then txt (suffix_text v n) else onil end)
          = o_text (litval_out op v) ++
            (if (match op_literal_types op with VNever => false | VAlways => true
                     | VRequired => n || negb (is_default_for_syntax v) end) then suffix_text v n else [])).
      { cbn [oapp o_text]. f_equal. destruct v; try discriminate Hnull; destruct (match op_literal_types op with VAlways => _ | _ => _ end); reflexivity. }
      cbn [oapp o_text] in Eo. cbn [oapp o_text]. rewrite Eo. clear Eo.
      destruct (match op_literal_types op with VAlways => _ | _ => _ end) eqn:Hshow.
      + pose proof (suffix_is_type op e v n W Hok) as ST.
        assert (exists t, value_type v (if n then NNullable else NRequired) = Some t /\ type_ok e t = true /\
          suffix_text v n = L ":" ++ ttext op e t) as (t & Hvt & Hty & ->).
        { destruct v; try discriminate Hnull; exact ST. }
        destruct (With t Hty) as (c & Hc & G). exists (value_cst v, Some c). split; [|exact G].
        eapply lower_with_type; eauto. destruct v; auto; discriminate Hnull.
      + assert (n = false /\ is_default_for_syntax v = true) as [-> Hdef].
        { unfold type_known in Ht. cbn [l_type l_nullable] in Ht. destruct (op_literal_types op); try discriminate Hshow.
          - assert (is_default_for_syntax v && negb n = true) as E by (destruct v; try discriminate Hnull; exact Ht).
            apply andb_true_iff in E as [E1 E2]. now apply negb_true_iff in E2.
          - apply orb_false_iff in Hshow as [-> E]. now apply negb_false_iff in E. }
        exists (value_cst v, None). split; [now apply lower_no_type|].
        intros rest Hr. rewrite app_nil_r. unfold g_literal. eapply pbind_some.
        * eapply g_litval_value; [exact Hok|]. now apply lit_stop_num.
        * eapply pbind_some; [apply popt_none, pthen_none, (ptok_none_hd [] 58%N)|reflexivity].
          eapply hd_not_weaken; [|exact Hr]. unfold lit_stop. intros c; cbv beta; lia.
  Qed.
End Facts.
