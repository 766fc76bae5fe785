(** Properties of literals: C06, C07, C08, C09 and the literal part of C03. *)
From Coq Require Import String List NArith ZArith Bool Lia.
From Verif Require Import Base BaseFacts Peg PegFacts Names SpecNames NamesFacts Props_Names SimpleExt Out
  Anchors SimpleExtFacts SpecExt AnchorsFacts FromExtFacts Props_Ext Types SpecTypes TypesFacts Props_Types Lines
  Calendar CalendarFacts Literals SpecLiterals LiteralsFacts.
Import ListNotations.
Open Scope Z_scope.

(** ** C03 for literals: what is written is read back, whatever follows it *)

(** [type_known] is vacuous unless literal types are switched off. *)
Theorem C03_literal_round_trip :
  forall (U : Unicode) (F : Floats) op e l rest,
    ascii_sane U -> loaded e -> op_anchors op <> VNever ->
    literal_ok e l = true -> type_known op l = true ->
    hd_not lit_stop rest = true ->
    exists c, g_literal (o_text (literal_out op e l) ++ rest) = Some (c, rest) /\ lower_literal e c = Ok l.
Proof.
  intros U F op e l rest Hu He Ha Hl Ht Hr.
  destruct (literal_round_trip U F Hu op e l (loaded_wf _ He) Ha Hl Ht) as (c & Hc & G).
  exists c. split; [now apply G|exact Hc].
Qed.
Print Assumptions C03_literal_round_trip.

(** A floating point number whose text has no fraction is read back as an integer. *)
Theorem C03_integral_float_refuted :
  forall (U : Unicode) (F : Floats) e f z,
    show64 f = show_Z z -> in_range i64_min i64_max z = true ->
    let l := mk_lit (Some (LFp64 f)) false 0 in
    o_errs (literal_out opts_default e l) = [] /\
    exists c, g_literal (o_text (literal_out opts_default e l)) = Some (c, []) /\
      lower_literal e c = Ok (mk_lit (Some (LI64 z)) false 0).
Proof.
  intros U F e f z Hs Hz l. split; [reflexivity|]. exists (CInt (show_Z z), None). split.
  - cbn [l literal_out l_type litval_out l_nullable opts_default op_literal_types orb negb is_default_for_syntax oapp o_text txt onil].
    rewrite Hs. unfold g_literal. eapply pbind_some with (a := CInt (show_Z z)) (r := []); [|reflexivity].
    unfold g_litval. apply palt_r; [apply pmap_none; now apply (g_float_int z [])|]. apply palt_l, pmap_some.
    now apply (g_integer_show_Z z []).
  - unfold lower_literal. cbn [fst snd rbind]. unfold to_int_literal. rewrite parse_i64_show by auto. reflexivity.
Qed.
Print Assumptions C03_integral_float_refuted.

(** A nullable string comes back as required. *)
Theorem C03_nullable_string_refuted :
  forall (U : Unicode) (F : Floats) e s,
    ascii_sane U -> loaded e -> str_ok s = true ->
    let l := mk_lit (Some (LString s)) true 0 in
    o_errs (literal_out opts_default e l) = [] /\
    exists c l', g_literal (o_text (literal_out opts_default e l)) = Some (c, []) /\
      lower_literal e c = Ok l' /\ l' <> l.
Proof.
  intros U F e s Hu He Hs l. split; [reflexivity|].
  set (sfx := (CStr (show_string s), Some (CSimple (L "string") NNullable))).
  exists sfx, (mk_lit (Some (LString s)) false 0). split; [|split].
  - cbn [l literal_out l_type litval_out l_nullable opts_default op_literal_types orb negb is_default_for_syntax oapp o_text txt onil].
    unfold g_literal. eapply pbind_some with (a := CStr (show_string s)) (r := L ":string?"); [|reflexivity].
    pose proof (g_litval_value U F Hu opts_default e (LString s) false (L ":string?")) as G.
    cbn [value_ok litval_out o_text txt value_cst quoted_value] in G. apply G; [now rewrite Hs|reflexivity].
  - unfold lower_literal, sfx. cbn [fst snd lower_type]. change (simple_kind (L "string")) with (Some SString).
    cbn [rmap rbind]. unfold to_string_literal. rewrite (quoted_cst_unescape U s Hs). reflexivity.
  - discriminate.
Qed.
Print Assumptions C03_nullable_string_refuted.

(** ** C06: integers *)

(** All values the message fields can hold come back, with type and nullability. *)
Theorem C06_integer_round_trip :
  forall (U : Unicode) (F : Floats) op e z v (n : bool) rest,
    ascii_sane U -> loaded e -> op_anchors op <> VNever -> op_literal_types op <> VNever ->
    (In v [LI8 z; LI16 z; LI32 z] /\ i32_min <= z <= i32_max \/ v = LI64 z /\ i64_min <= z <= i64_max) ->
    hd_not lit_stop rest = true ->
    exists c, g_literal (o_text (literal_out op e (mk_lit (Some v) n 0)) ++ rest) = Some (c, rest) /\
      lower_literal e c = Ok (mk_lit (Some v) n 0).
Proof.
  intros U F op e z v n rest Hu He Ha Ht Hv Hr. apply C03_literal_round_trip; auto.
  - unfold literal_ok. cbn [l_type l_nullable l_var]. rewrite andb_true_r. destruct Hv as [[Hv Hz]|[-> Hz]].
    + cbn [In] in Hv. destruct Hv as [<-|[<-|[<-|[]]]]; cbn [value_ok]; unfold in_range; lia.
    + cbn [value_ok]. unfold in_range. lia.
  - unfold type_known. destruct (op_literal_types op); auto; contradiction.
Qed.
Print Assumptions C06_integer_round_trip.

(** An integer text ascribed to a narrow type: accepted for every 64-bit value,
    and the stored value agrees with the written one modulo 2^32 only. *)
Theorem C06_narrow_integers :
  forall (F : Floats) e z n k,
    i64_min <= z <= i64_max -> In k [SI8; SI16; SI32] ->
    exists z' v, lower_literal e (CInt (show_Z z), Some (CSimple (skind_name k) n)) = Ok (mk_lit (Some v) (nullable_of n) 0) /\
      In v [LI8 z'; LI16 z'; LI32 z'] /\
      i32_min <= z' <= i32_max /\ (z' - z) mod 2 ^ 32 = 0 /\ (z' = z <-> i32_min <= z <= i32_max).
Proof.
  intros F e z n k Hz Hk. exists (wrap_i32 z).
  assert (B : i32_min <= wrap_i32 z <= i32_max).
  { pose proof (wrap_i32_range z) as R. unfold in_range in R. lia. }
  assert (M : (wrap_i32 z - z) mod 2 ^ 32 = 0).
  { unfold wrap_i32. change (2 ^ 32) with 4294967296.
    rewrite (Z.mod_eq (z + 2147483648)) by lia.
    replace (_ - _ - _ - z) with ((- ((z + 2147483648) / 4294967296)) * 4294967296) by ring.
    apply Z.mod_mul. lia. }
  assert (I : wrap_i32 z = z <-> i32_min <= z <= i32_max).
  { split; [intros E; now rewrite E in B|]. intros R. apply wrap_i32_id. unfold in_range. lia. }
  assert (P : parse_i64 (show_Z z) = Some z) by (apply parse_i64_show; unfold in_range; lia).
  unfold lower_literal. cbn [fst snd lower_type].
  cbn [In] in Hk. destruct Hk as [<-|[<-|[<-|[]]]]; rewrite simple_kind_name; cbn [rmap rbind];
    unfold to_int_literal; rewrite P; cbn [unwrap rbind]; eexists; (split; [reflexivity|]); (split; [cbn; auto|]);
    auto.
Qed.
Print Assumptions C06_narrow_integers.

(** Texts accepted with a value that is not the one written, or not one of the
    type; and a text that crashes the parser. *)
Theorem C06_narrow_refuted :
  forall (F : Floats) e,
    (exists c, g_literal (L "300:i8") = Some (c, []) /\ lower_literal e c = Ok (mk_lit (Some (LI8 300)) false 0)) /\
    (exists c, g_literal (L "4294967297:i32") = Some (c, []) /\ lower_literal e c = Ok (mk_lit (Some (LI32 1)) false 0)) /\
    (exists c p, g_literal (L "9223372036854775808") = Some (c, []) /\ lower_literal e c = Panic p).
Proof.
  intros F e. split; [|split]; eexists; [split; [vm_compute; reflexivity|vm_compute; reflexivity]..|].
  eexists. split; [vm_compute; reflexivity|vm_compute; reflexivity].
Qed.
Print Assumptions C06_narrow_refuted.

(** ** C07: dates *)

Theorem C07_date_round_trip :
  forall (U : Unicode) (F : Floats) op e d (n : bool) rest,
    ascii_sane U -> loaded e -> op_anchors op <> VNever -> op_literal_types op <> VNever ->
    first_day <= d <= last_day -> hd_not lit_stop rest = true ->
    exists c, g_literal (o_text (literal_out op e (mk_lit (Some (LDate d)) n 0)) ++ rest) = Some (c, rest) /\
      lower_literal e c = Ok (mk_lit (Some (LDate d)) n 0).
Proof.
  intros U F op e d n rest Hu He Ha Ht Hd Hr. apply C03_literal_round_trip; auto.
  - unfold literal_ok. cbn [l_type l_nullable l_var value_ok]. unfold in_range. lia.
  - unfold type_known. destruct (op_literal_types op); auto; contradiction.
Qed.
Print Assumptions C07_date_round_trip.

Theorem C07_dates_distinct :
  forall d d' s, days_to_date_string d = Some s -> days_to_date_string d' = Some s -> d = d'.
Proof.
  intros d d' s H H'.
  assert (K : forall x, days_to_date_string x = Some s -> parse_date_to_days s = Ok x).
  { intros x Hx. unfold days_to_date_string, date_of_days_opt in Hx.
    destruct (in_range min_days max_days x) eqn:E; [|discriminate]. rewrite min_days_first, max_days_last in E.
    injection Hx as <-. now apply date_text_ok. }
  pose proof (K _ H) as E. rewrite (K _ H') in E. congruence.
Qed.
Print Assumptions C07_dates_distinct.

(** Day 0 is 1970-01-01 and each day number is written as the calendar successor
    of the one before; together with the round trip this fixes every date. *)
Lemma next_date_real d : date_real d -> date_real (next_date d) /\ days_of_date (next_date d) = days_of_date d + 1.
Proof.
  destruct d as [y m d]. unfold date_real, next_date, days_of_date. cbn [d_year d_month d_day]. intros [Hm Hd].
  assert (E : nth (Z.to_nat (m - 1)) (month_lengths y) 0 = month_length y m).
  { assert (Hl : is_leap y = ((y mod 400 =? 0) || ((y mod 4 =? 0) && negb (y mod 100 =? 0)))).
    { unfold is_leap. apply eq_true_iff_eq. rewrite !andb_true_iff, !orb_true_iff, !andb_true_iff, !negb_true_iff.
      rewrite !Z.eqb_neq, !Z.eqb_eq.
      assert (y mod 400 = 0 -> y mod 4 = 0).
      { intros H. apply Z.mod_divide in H as [k ->]; [|lia]. replace (k * 400) with (k * 100 * 4) by ring. apply Z.mod_mul. lia. }
      tauto. }
    unfold month_length, month_lengths. rewrite Hl.
    assert (m = 1 \/ m = 2 \/ m = 3 \/ m = 4 \/ m = 5 \/ m = 6 \/ m = 7 \/ m = 8 \/ m = 9 \/ m = 10 \/ m = 11 \/ m = 12) as C by lia.
    repeat (destruct C as [->|C]; [reflexivity|]). subst m. reflexivity. }
  assert (Pos : forall y', 1 <= nth 0 (month_lengths y') 0) by (intros; cbn; lia).
  rewrite E in Hd. destruct (Z.ltb_spec d (month_length y m)) as [L|L]; cbn [d_year d_month d_day].
  - rewrite E. split; [lia|lia].
  - assert (d = month_length y m) by lia. destruct (Z.ltb_spec m 12) as [L2|L2]; cbn [d_year d_month d_day].
    + assert (S : sum_first (Z.to_nat (m + 1 - 1)) (month_lengths y)
                  = sum_first (Z.to_nat (m - 1)) (month_lengths y) + nth (Z.to_nat (m - 1)) (month_lengths y) 0
                  /\ 1 <= nth (Z.to_nat (m + 1 - 1)) (month_lengths y) 0).
      { assert (m = 1 \/ m = 2 \/ m = 3 \/ m = 4 \/ m = 5 \/ m = 6 \/ m = 7 \/ m = 8 \/ m = 9 \/ m = 10 \/ m = 11) as C by lia.
        unfold month_lengths. destruct (is_leap y);
          repeat (destruct C as [->|C]; [split; vm_compute; congruence|]); subst m; split; vm_compute; congruence. }
      rewrite E in S. destruct S as [S1 S2]. split; [lia|]. rewrite S1. lia.
    + assert (m = 12) by lia. subst m. change (Z.to_nat (1 - 1)) with 0%nat. pose proof (Pos (y + 1)).
      split; [lia|].
      cbn [sum_first]. rewrite before_next. unfold year_days.
      rewrite <- E in H. subst d. change (Z.to_nat (12 - 1)) with 11%nat. unfold month_lengths.
      destruct (is_leap y); cbn [sum_first nth]; lia.
Qed.

Theorem C07_calendar :
  days_to_date_string 0 = Some (L "1970-01-01") /\
  forall d, first_day <= d < last_day ->
    exists a, days_to_date_string d = Some (show_date a) /\
      days_to_date_string (d + 1) = Some (show_date (next_date a)).
Proof.
  split; [vm_compute; reflexivity|]. intros d Hd. exists (date_of_days d).
  unfold days_to_date_string, date_of_days_opt. rewrite min_days_first, max_days_last. unfold in_range.
  replace (_ && _) with true by lia. replace ((first_day <=? d + 1) && (d + 1 <=? last_day)) with true by lia.
  split; [reflexivity|]. cbn [option_map]. do 2 f_equal.
  destruct (date_of_days_spec d) as [R E]. destruct (next_date_real _ R) as [R' E'].
  rewrite E in E'. rewrite <- E'. now apply date_of_days_of.
Qed.
Print Assumptions C07_calendar.

(** Days outside the supported range crash the formatter. *)
Theorem C07_out_of_range_panics :
  forall (U : Unicode) (F : Floats) op e d n,
    (first_day <= d <= last_day -> o_panics (literal_out op e (mk_lit (Some (LDate d)) n 0)) = []) /\
    (~ first_day <= d <= last_day -> o_panics (literal_out op e (mk_lit (Some (LDate d)) n 0)) <> []).
Proof.
  intros U F op e d n. unfold literal_out. cbn [l_type l_nullable litval_out].
  unfold days_to_date_string, date_of_days_opt. rewrite min_days_first, max_days_last. unfold in_range.
  split; intros H.
  - replace (_ && _) with true by lia. cbn. destruct (match op_literal_types op with VNever => _ | _ => _ end); reflexivity.
  - replace (_ && _) with false by lia. cbn. discriminate.
Qed.
Print Assumptions C07_out_of_range_panics.

(** ** C08: times and timestamps *)

Theorem C08_time_round_trip :
  forall (U : Unicode) (F : Floats) op e p v l (n : bool) rest,
    ascii_sane U -> loaded e -> op_anchors op <> VNever -> op_literal_types op <> VNever ->
    In p [0; 3; 6; 9] -> 0 <= v < 86400 * 10 ^ p ->
    (l = LPrecisionTime p v \/ l = LTime v /\ p = 6) -> hd_not lit_stop rest = true ->
    exists c, g_literal (o_text (literal_out op e (mk_lit (Some l) n 0)) ++ rest) = Some (c, rest) /\
      lower_literal e c = Ok (mk_lit (Some l) n 0).
Proof.
  intros U F op e p v l n rest Hu He Ha Ht Hp Hv Hl Hr. apply C03_literal_round_trip; auto.
  - unfold literal_ok. cbn [l_type l_nullable l_var]. rewrite andb_true_r.
    assert (within_day p v = true) as W by (unfold within_day; lia).
    destruct Hl as [->|[-> ->]]; cbn [value_ok]; [|exact W]. rewrite W, andb_true_r.
    cbn [In] in Hp. unfold supported. lia.
  - unfold type_known. destruct (op_literal_types op); auto; contradiction.
Qed.
Print Assumptions C08_time_round_trip.

Theorem C08_timestamp_round_trip :
  forall (U : Unicode) (F : Floats) op e p v l (n : bool) rest,
    ascii_sane U -> loaded e -> op_anchors op <> VNever -> op_literal_types op <> VNever ->
    In p [0; 3; 6; 9] -> i64_min <= v <= i64_max ->
    first_day * 86400 * 10 ^ p <= v < (last_day + 1) * 86400 * 10 ^ p ->
    (l = LPrecisionTimestamp p v \/ l = LPrecisionTimestampTz p v \/ l = LTimestamp v /\ p = 6) ->
    hd_not lit_stop rest = true ->
    exists c, g_literal (o_text (literal_out op e (mk_lit (Some l) n 0)) ++ rest) = Some (c, rest) /\
      lower_literal e c = Ok (mk_lit (Some l) n 0).
Proof.
  intros U F op e p v l n rest Hu He Ha Ht Hp Hv Hw Hl Hr. apply C03_literal_round_trip; auto.
  - unfold literal_ok. cbn [l_type l_nullable l_var]. rewrite andb_true_r.
    assert (within_calendar p v = true) as W by (unfold within_calendar; lia).
    assert (in_range i64_min i64_max v = true) as R by (unfold in_range; lia).
    assert (supported p && negb (p =? 12) = true) as S by (cbn [In] in Hp; unfold supported; lia).
    destruct Hl as [->|[->|[-> ->]]]; cbn [value_ok]; rewrite ?S, ?R, ?W; reflexivity.
  - unfold type_known. destruct (op_literal_types op); auto; contradiction.
Qed.
Print Assumptions C08_timestamp_round_trip.

(** A time of day is written exactly when it lies within one day and its
    precision is supported; otherwise an error and an error token appear. *)
Theorem C08_time_reported :
  forall (U : Unicode) (F : Floats) op p v,
    let o := litval_out op (LPrecisionTime p v) in
    (o_toks o = [] <-> supported p = true /\ 0 <= v < 86400 * 10 ^ p) /\
    (o_toks o <> [] -> o_errs o <> []).
Proof.
  intros U F op p v o. subst o. cbn [litval_out].
  assert (K : (exists s, time_to_string v p = Ok s) <-> supported p = true /\ 0 <= v < 86400 * 10 ^ p).
  { destruct (supported p) eqn:Hs.
    - destruct (Z.eq_dec p 12) as [->|Hp].
      + unfold time_to_string, duration_from_units. cbn -[Z.quot Z.mul].
        destruct (Z.ltb_spec v 0); [split; [intros [? ?]; discriminate|lia]|]. cbn [rbind].
        change (86400 * 10 ^ 12) with (86400000000000 * 1000).
        assert (Z.quot v 1000 < 86400000000000 <-> v < 86400000000000 * 1000) as Q.
        { rewrite Z.quot_div_nonneg by lia. split; intros.
          - pose proof (Z.mul_succ_div_gt v 1000 ltac:(lia)). lia.
          - apply Z.div_lt_upper_bound; lia. }
        destruct (Z.leb_spec nanos_per_day (Z.quot v 1000)); unfold nanos_per_day, nano_per_sec in *.
        * split; [intros [? ?]; discriminate|lia].
        * split; [lia|intros _; eauto].
      + destruct (readable p Hs Hp) as (q & _ & _ & _ & E & _).
        split.
        * intros [s H]. split; [auto|].
          unfold time_to_string in H. destruct (Z.ltb_spec v 0); [discriminate|].
          apply rbind_ok in H as (d & Hd & H). destruct (Z.leb_spec nanos_per_day d); [discriminate|]. clear H.
          assert (d = v * prec_nanos q).
          { pose proof (supported_cases p Hs Hp) as C.
            destruct C as [->|[->|[->| ->]]]; unfold duration_from_units in Hd; cbn -[Z.mul in_range] in Hd;
              cbn in E; try (destruct (in_range _ _ _)); try (destruct (_ <? _)); try discriminate; destruct q; cbn in E |- *; try discriminate; injection Hd as <-; ring. }
          subst d. pose proof (within_day_nanos p q v E (prec_nanos_pos q)) as W. unfold within_day in W. lia.
        * intros [_ H]. destruct (time_round_trip p v Hs Hp) as (d & E' & _); [unfold within_day; lia|eauto].
    - split; [|intros [? _]; discriminate]. intros [s H]. exfalso.
      unfold time_to_string in H. destruct (v <? 0); [discriminate|].
      unfold supported in Hs. unfold duration_from_units in H.
      do 4 (apply orb_false_iff in Hs as [Hs ?E]). rewrite Hs, E2, E1, E0, E in H. discriminate. }
  unfold prec_literal_out. destruct (time_to_string v p) as [s|err|pan] eqn:Et.
  - split.
    + split; [intros _; apply K; eauto|]. destruct (p =? 12); reflexivity.
    + destruct (p =? 12); cbn; congruence.
  - split; [|intros _; discriminate]. split; [discriminate|]. intros H. apply K in H as [? H]. discriminate.
  - split; [|intros _; discriminate]. split; [discriminate|]. intros H. apply K in H as [? H]. discriminate.
Qed.
Print Assumptions C08_time_reported.

(** The same for timestamps, over all 64-bit values. *)
Theorem C08_timestamp_reported :
  forall (U : Unicode) (F : Floats) op p v l,
    l = LPrecisionTimestamp p v \/ l = LPrecisionTimestampTz p v ->
    i64_min <= v <= i64_max ->
    let o := litval_out op l in
    (o_toks o = [] <-> supported p = true /\ first_day * 86400 * 10 ^ p <= v < (last_day + 1) * 86400 * 10 ^ p) /\
    (o_toks o <> [] -> o_errs o <> []).
Proof.
  intros U F op p v l Hl Hv o. subst o.
  assert (litval_out op l = prec_literal_out p (timestamp_to_string v p)) as -> by (now destruct Hl as [->| ->]).
  assert (K : (exists s, timestamp_to_string v p = Ok s) <->
              supported p = true /\ first_day * 86400 * 10 ^ p <= v < (last_day + 1) * 86400 * 10 ^ p).
  { destruct (supported p) eqn:Hs.
    - destruct (Z.eq_dec p 12) as [->|Hp].
      + split; [intros _; split; [auto|]; unfold i64_min, i64_max, first_day, last_day in *; lia|]. intros _.
        unfold timestamp_to_string, duration_from_units. cbn -[Z.quot Z.mul nanos_per_day]. cbn [rbind].
        unfold date_of_days_opt. rewrite min_days_first, max_days_last.
        replace (in_range _ _ _) with true; [eauto|]. symmetry. unfold in_range.
        pose proof (Z.quot_rem' v 1000) as QR. pose proof (Z.rem_bound_abs v 1000 ltac:(lia)) as RB.
        assert (-9223372036854776 <= Z.quot v 1000 <= 9223372036854776) as B by (unfold i64_min, i64_max in Hv; lia).
        assert (-107 <= Z.quot v 1000 / nanos_per_day) by (apply Z.div_le_lower_bound; unfold nanos_per_day, nano_per_sec; lia).
        assert (Z.quot v 1000 / nanos_per_day < 107) by (apply Z.div_lt_upper_bound; unfold nanos_per_day, nano_per_sec; lia).
        unfold first_day, last_day. lia.
      + destruct (readable p Hs Hp) as (q & _ & _ & _ & E & _).
        split.
        * intros [s H]. split; [auto|]. unfold timestamp_to_string in H. apply rbind_ok in H as (d & Hd & H).
          assert (d = v * prec_nanos q).
          { pose proof (supported_cases p Hs Hp) as C.
            destruct C as [->|[->|[->| ->]]]; unfold duration_from_units in Hd; cbn -[Z.mul in_range] in Hd;
              cbn in E; try (destruct (in_range _ _ _)); try (destruct (_ <? _)); try discriminate; destruct q; cbn in E |- *; try discriminate; injection Hd as <-; ring. }
          subst d. unfold date_of_days_opt in H. rewrite min_days_first, max_days_last in H.
          destruct (in_range _ _ _) eqn:R in H; [|discriminate].
          rewrite <- (within_calendar_days p q v E (prec_nanos_pos q)) in R. unfold within_calendar in R. lia.
        * intros [_ H]. destruct (timestamp_round_trip p v Hs Hp) as (d & E' & _); [unfold within_calendar; lia|unfold in_range; lia|eauto].
    - split; [|intros [? _]; discriminate]. intros [s H]. exfalso. unfold timestamp_to_string in H.
      unfold supported in Hs. unfold duration_from_units in H.
      do 4 (apply orb_false_iff in Hs as [Hs ?E]). rewrite Hs, E2, E1, E0, E in H. discriminate. }
  unfold prec_literal_out. destruct (timestamp_to_string v p) as [s|err|pan] eqn:Et.
  - split.
    + split; [intros _; apply K; eauto|]. destruct (p =? 12); reflexivity.
    + destruct (p =? 12); cbn; congruence.
  - split; [|intros _; discriminate]. split; [discriminate|]. intros H. apply K in H as [? H]. discriminate.
  - split; [|intros _; discriminate]. split; [discriminate|]. intros H. apply K in H as [? H]. discriminate.
Qed.
Print Assumptions C08_timestamp_reported.

(** Picoseconds: an error is reported for every value. *)
Theorem C08_pico_warns :
  forall (U : Unicode) (F : Floats) op v l,
    In l [LPrecisionTime 12 v; LPrecisionTimestamp 12 v; LPrecisionTimestampTz 12 v] ->
    o_errs (litval_out op l) <> [].
Proof.
  intros U F op v l H. cbn [In] in H. destruct H as [<-|[<-|[<-|[]]]]; cbn [litval_out]; unfold prec_literal_out;
    [destruct (time_to_string _ _)|destruct (timestamp_to_string _ _)..]; discriminate.
Qed.
Print Assumptions C08_pico_warns.

(** Below 10^-12 nothing else is reported, and no other precision warns. *)
Theorem C08_no_other_warning :
  forall (U : Unicode) (F : Floats) op p v l,
    In l [LPrecisionTime p v; LPrecisionTimestamp p v; LPrecisionTimestampTz p v] -> p <> 12 ->
    o_toks (litval_out op l) = [] -> o_errs (litval_out op l) = [].
Proof.
  intros U F op p v l H Hp. apply Z.eqb_neq in Hp.
  cbn [In] in H. destruct H as [<-|[<-|[<-|[]]]]; cbn [litval_out]; unfold prec_literal_out; rewrite Hp;
    [destruct (time_to_string _ _)|destruct (timestamp_to_string _ _)..]; cbn; congruence.
Qed.
Print Assumptions C08_no_other_warning.

(** Different picosecond values share a text, and that text is not accepted. *)
Theorem C08_pico_refuted :
  exists v w s, v <> w /\ timestamp_to_string v 12 = Ok s /\ timestamp_to_string w 12 = Ok s /\
    exists m, parse_timestamp s 12 = Err m.
Proof.
  exists 1, 2, (L "1970-01-01T00:00:00.000000000"). split; [discriminate|].
  split; [vm_compute; reflexivity|]. split; [vm_compute; reflexivity|]. eexists. vm_compute. reflexivity.
Qed.
Print Assumptions C08_pico_refuted.

(** A leap second is accepted as a time that the formatter then refuses. *)
Theorem C08_leap_second_refuted :
  forall (U : Unicode) (F : Floats) op,
    exists v, parse_time (L "23:59:60") 6 = Ok v /\ o_toks (litval_out op (LPrecisionTime 6 v)) <> [].
Proof. intros U F op. exists 86400000000. split; [vm_compute; reflexivity|discriminate]. Qed.
Print Assumptions C08_leap_second_refuted.

(** ** C09: intervals *)

Theorem C09_interval_round_trip :
  forall (U : Unicode) (F : Floats) op e p days secs sub (n : bool) rest,
    ascii_sane U -> loaded e -> op_anchors op <> VNever -> op_literal_types op <> VNever ->
    In p [0; 3; 6; 9; 12] -> i32_min <= days <= i32_max -> i32_min <= secs <= i32_max ->
    i64_min <= sub <= i64_max -> (p = 0 -> sub = 0) -> hd_not lit_stop rest = true ->
    let l := mk_lit (Some (LInterval (mk_interval days secs sub (Some (IvPrecision p))))) n 0 in
    exists c, g_literal (o_text (literal_out op e l) ++ rest) = Some (c, rest) /\ lower_literal e c = Ok l.
Proof.
  intros U F op e p days secs sub n rest Hu He Ha Ht Hp Hd Hs Hb H0 Hr l. apply C03_literal_round_trip; auto.
  - unfold literal_ok, l. cbn [l_type l_nullable l_var value_ok iv_mode iv_days iv_secs iv_sub]. rewrite andb_true_r.
    cbn [In] in Hp. unfold supported, in_range.
    destruct (Z.eqb_spec p 0); [rewrite H0 by auto|]; cbn [andb]; lia.
  - unfold type_known. destruct (op_literal_types op); auto; contradiction.
Qed.
Print Assumptions C09_interval_round_trip.

(** Intervals in the older form come back with the same amounts and an explicit
    precision of 6. *)
Theorem C09_interval_normalized :
  forall i p sub parts,
    interval_units i = (prec_units p, sub) -> interval_parts i p sub = Some parts ->
    i32_min <= iv_days i <= i32_max -> i32_min <= iv_secs i <= i32_max -> i64_min <= sub <= i64_max ->
    parse_interval (interval_text parts) p =
      Ok (mk_interval (iv_days i) (iv_secs i) sub (Some (IvPrecision (prec_units p)))).
Proof. intros i p sub parts _ Hp Hd Hs Hb. apply interval_round_trip; auto; unfold in_range; lia. Qed.
Print Assumptions C09_interval_normalized.

(** A text with a sub-second unit is refused at every other precision. *)
Theorem C09_unit_mismatch :
  forall i p q sub parts,
    interval_parts i q sub = Some parts -> sub <> 0 -> p <> q ->
    i32_min <= iv_days i <= i32_max -> i32_min <= iv_secs i <= i32_max ->
    exists m, parse_interval (interval_text parts) p = Err m.
Proof.
  intros i p q sub parts H Hs Hpq Hd Hc. unfold parse_interval.
  assert (parts <> []).
  { intros ->. unfold interval_parts in H. destruct (Z.eqb_spec sub 0); [congruence|]. destruct (prec_unit q); [|discriminate].
    injection H as H. symmetry in H. now apply app_cons_not_nil in H. }
  destruct (interval_grammar i q sub parts H) as (u & Eu & ->); [auto|].
  rewrite num_part_read by (unfold in_range; lia). cbn [rbind]. rewrite num_part_read by (unfold in_range; lia). cbn [rbind].
  unfold sub_part. destruct (Z.eqb_spec sub 0); [congruence|]. rewrite (prec_of_unit_unit _ _ (Eu Hs)). cbn [unwrap rbind].
  destruct (Z.eqb_spec (prec_units q) (prec_units p)) as [E|E]; [destruct p, q; cbn in E; congruence|]. cbn [rbind]. eauto.
Qed.
Print Assumptions C09_unit_mismatch.

(** An error token appears exactly for an unsupported precision or sub-seconds
    without a unit. *)
Theorem C09_interval_reported :
  forall (U : Unicode) (F : Floats) op days secs sub p,
    let o := litval_out op (LInterval (mk_interval days secs sub (Some (IvPrecision p)))) in
    (o_toks o = [] <-> supported p = true /\ (p = 0 -> sub = 0)) /\ (o_toks o <> [] -> o_errs o <> []).
Proof.
  intros U F op days secs sub p o. subst o. cbn [litval_out]. unfold interval_out, interval_units. cbn [iv_mode iv_sub].
  destruct (supported p) eqn:Hs.
  - destruct (supported_prec p Hs) as (q & -> & Eq). cbn [iv_days iv_secs]. unfold interval_parts.
    destruct (in_range (- max_interval_days) max_interval_days days && _).
    all: destruct (Z.eqb_spec sub 0) as [E0|E0]; cbn [negb andb].
    all: try (split; [split; [intros _; split; [auto|intros _; auto]|intros _; reflexivity]|cbn; congruence]).
    all: destruct (prec_unit q) as [u|] eqn:Eu.
    all: try (destruct (10 ^ prec_units q <=? Z.abs sub);
         (split; [split; [intros _; split; [auto|intros ->; destruct q; cbn in Eq, Eu; discriminate]|intros _; reflexivity]|cbn; congruence])).
    all: destruct q; try discriminate Eu; cbn in Eq; subst p; (split; [|discriminate]); (split; [discriminate|]);
         intros [_ H]; exfalso; auto.
  - assert (prec_of_units p = None) as ->.
    { unfold supported in Hs. unfold prec_of_units. do 4 (apply orb_false_iff in Hs as [Hs ?E]).
      now rewrite Hs, E2, E1, E0, E. }
    split; [|discriminate]. split; [discriminate|]. intros [? _]; discriminate.
Qed.
Print Assumptions C09_interval_reported.

(** The older form is not reproduced. *)
Theorem C09_old_form_refuted :
  exists i j, i <> j /\
    exists parts, interval_parts i PMicro (snd (interval_units i)) = Some parts /\
      parse_interval (interval_text parts) PMicro = Ok j.
Proof.
  exists (mk_interval 1 2 0 (Some (IvMicroseconds 500))), (mk_interval 1 2 500 (Some (IvPrecision 6))).
  split; [discriminate|]. eexists. split; [vm_compute; reflexivity|]. vm_compute. reflexivity.
Qed.
Print Assumptions C09_old_form_refuted.

(** ** The hypotheses are met *)

Example ascii_tables_sane : ascii_sane ascii_tables.
Proof. intros c Hc. cbn. split; [lia|reflexivity]. Qed.

Definition ex_lits : list literal :=
  [mk_lit (Some (LI32 (-7))) true 0; mk_lit (Some (LFp64 6281)) false 0;
   mk_lit (Some (LFp32 628)) true 0; mk_lit (Some (LString (L "it's"))) false 0;
   mk_lit (Some (LDate 19876)) false 0; mk_lit (Some (LDate (-800000))) true 0;
   mk_lit (Some (LPrecisionTimestampTz 3 (-1))) true 0; mk_lit (Some (LTime 86399999999)) false 0;
   mk_lit (Some (LInterval (mk_interval (-3) 4 (-5) (Some (IvPrecision 12))))) false 0;
   mk_lit (Some (LNull ty_ex)) false 0; mk_lit (Some (LBool true)) true 0].
Example ex_lits_ok : forallb (literal_ok (H := ascii_tables) (H0 := toy_floats) ty_exts) ex_lits = true.
Proof. vm_compute. reflexivity. Qed.
Example ex_lits_text :
  map (fun l => o_text (literal_out (H := ascii_tables) (H0 := toy_floats) opts_default ty_exts l)) ex_lits =
  [L "-7:i32?"; L "-31.40"; L "3.14:fp32?"; L "'it\'s'"; L "'2024-06-02':date"; L "'-0221-09-04':date?";
   L "'1969-12-31T23:59:59.999':precisiontimestamptz?<3>"; L "'23:59:59.999999':time";
   L "'-3d 4s -5ps':interval_day<12>"; L "null:tree#6?<list<precisiontimestamptz?<9>>, point?, interval_day<6>>";
   L "true:boolean?"].
Proof. vm_compute. reflexivity. Qed.
Example ex_next : next_date (mk_date 1900 2 28) = mk_date 1900 3 1 /\ next_date (mk_date 2000 2 28) = mk_date 2000 2 29
  /\ next_date (mk_date (-1) 12 31) = mk_date 0 1 1.
Proof. vm_compute. auto. Qed.
Example ex_mismatch : interval_parts (mk_interval 1 2 3 (Some (IvPrecision 9))) PNano 3 = Some [L "1d"; L "2s"; L "3ns"].
Proof. reflexivity. Qed.
