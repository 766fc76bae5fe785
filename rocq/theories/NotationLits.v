(** Literals are written as SpecNotation.v says. *)
From Coq Require Import String List NArith ZArith Bool Lia.
From Verif Require Import Base BaseFacts Peg Names SimpleExt SimpleExtFacts Out Anchors Types TypesFacts Calendar CalendarFacts
  Literals LiteralsFacts Exprs SpecLiterals SpecMeaning MeaningFacts MeaningTimes SpecOptions SpecNotation NotationBase NotationTypes.
Import ListNotations.
Local Open Scope string_scope.
Local Open Scope list_scope.
Local Open Scope nat_scope.
Local Open Scope Z_scope.

Lemma range_iff a b z : in_range a b z = true <-> a <= z <= b.
Proof. unfold in_range. rewrite andb_true_iff, !Z.leb_le. tauto. Qed.

(** ** Dates *)

Lemma year_iff y s : year_written y s <-> s = show_year y.
Proof.
  unfold show_year. split.
  - intros [y' x H K|y' x H K|y' x H K]; apply padded_iff in K as [_ ->]; try lia.
    + now rewrite (proj2 (range_iff 0 9999 y')) by lia.
    + destruct (in_range 0 9999 y') eqn:R; [apply range_iff in R; lia|]. destruct (Z.ltb_spec y' 0); [lia|]. now rewrite Z.abs_eq by lia.
    + destruct (in_range 0 9999 y') eqn:R; [apply range_iff in R; lia|]. destruct (Z.ltb_spec y' 0); [|lia]. now rewrite Z.abs_neq by lia.
  - intros ->. destruct (in_range 0 9999 y) eqn:R.
    + apply range_iff in R. apply yw_plain; auto. apply padded_iff; [lia|]. split; [lia|auto].
    + assert (N : ~ (0 <= y <= 9999)) by (intros K; apply range_iff in K; congruence). destruct (Z.ltb_spec y 0).
      * apply yw_before; auto. apply padded_iff; [lia|]. rewrite Z.abs_neq by lia. split; [lia|auto].
      * apply yw_after; [lia|]. apply padded_iff; [lia|]. rewrite Z.abs_eq by lia. split; [lia|auto].
Qed.
Lemma date_written_iff d s : date_real d -> date_written d s <-> s = show_date d /\ -262143 <= d_year d <= 262142.
Proof.
  intros R. unfold date_written, show_date. split.
  - intros (ys & ms & ds & H1 & H2 & H3 & -> & H4). apply year_iff in H1 as ->. apply padded_iff in H2 as [_ ->]; [|lia].
    apply padded_iff in H3 as [_ ->]; [|lia]. auto.
  - intros [-> H]. eexists _, _, _. split; [now apply year_iff|]. destruct R as [R1 R2].
    split; [apply padded_iff; [lia|]; split; [lia|reflexivity]|]. split; [apply padded_iff; [lia|]; split; [lia|reflexivity]|]. auto.
Qed.
Lemma day_written n s : (exists d, day_number d n /\ date_written d s) <-> days_to_date_string n = Some s.
Proof.
  unfold days_to_date_string, date_of_days_opt. split.
  - intros (d & H & K). apply day_number_iff in H as [H1 <-]. apply calendar_iff in H1. apply date_written_iff in K as [-> K]; auto.
    rewrite (proj2 (days_in_range d H1)) by (apply range_iff; exact K). cbn [option_map]. now rewrite date_of_days_of.
  - destruct (in_range min_days max_days n) eqn:R; [|discriminate]. intros [= <-]. destruct (date_of_days_spec n) as [H1 H2].
    exists (date_of_days n). split; [apply day_number_iff; split; [now apply calendar_iff|auto]|].
    apply date_written_iff; auto. split; auto. rewrite <- H2 in R at 1. apply (days_in_range _ H1), range_iff in R. exact R.
Qed.

(** ** Times *)

Lemma hms_iff c t : 0 <= c < 86400 ->
  (exists h m s hs ms ss, c = (h * 60 + m) * 60 + s /\ (0 <= h <= 23 /\ 0 <= m <= 59 /\ 0 <= s <= 59)
     /\ padded 2 h hs /\ padded 2 m ms /\ padded 2 s ss /\ t = hs ++ L ":" ++ ms ++ L ":" ++ ss) <-> t = show_hms c.
Proof.
  intros B. unfold show_hms. destruct (secs_split c B) as (B1 & B2 & B3 & E). split.
  - intros (h & m & s & hs & ms & ss & Ec & (Hh & Hm & Hs) & K1 & K2 & K3 & ->).
    apply padded_iff in K1 as [_ ->], K2 as [_ ->], K3 as [_ ->]; try lia.
    assert (Es : c mod 60 = s) by (symmetry; apply (Z.mod_unique _ _ (h * 60 + m)); lia).
    assert (Em : c / 60 = h * 60 + m) by (symmetry; apply (Z.div_unique _ _ _ s); lia).
    assert (Eh : c / 3600 = h) by (symmetry; apply (Z.div_unique _ _ _ (m * 60 + s)); lia).
    rewrite Es, Em, Eh. replace ((h * 60 + m) mod 60) with m by (apply (Z.mod_unique _ _ h); lia). reflexivity.
  - intros ->. exists (c / 3600), (c / 60 mod 60), (c mod 60). eexists _, _, _. split; [lia|]. split; [auto|].
    split; [apply padded_iff; [lia|]; split; [lia|reflexivity]|]. split; [apply padded_iff; [lia|]; split; [lia|reflexivity]|].
    split; [apply padded_iff; [lia|]; split; [lia|reflexivity]|]. reflexivity.
Qed.
Definition frac_text (p f : Z) : list N := if p =? 0 then [] else L "." ++ show_pad (Z.to_nat p) f.
Lemma time_written_iff p v t : 0 <= p -> time_written p v t <->
  0 <= v < 86400 * 10 ^ p /\ t = show_hms (v / 10 ^ p) ++ frac_text p (v mod 10 ^ p).
Proof.
  intros Hp. assert (P : 0 < 10 ^ p) by (apply Z.pow_pos_nonneg; lia). unfold time_written. set (u := 10 ^ p) in *. split.
  - intros (h & m & s & f & hs & ms & ss & fs & Ev & (Hh & Hm & Hs & Hf) & K1 & K2 & K3 & K4 & ->).
    assert (Ec : v / u = (h * 60 + m) * 60 + s) by (symmetry; apply (Z.div_unique _ _ _ f); lia).
    assert (Ef : v mod u = f) by (symmetry; apply (Z.mod_unique _ _ ((h * 60 + m) * 60 + s)); lia).
    split; [nia|]. rewrite Ec, Ef. replace (hs ++ L ":" ++ ms ++ L ":" ++ ss ++ fs)%list with ((hs ++ L ":" ++ ms ++ L ":" ++ ss) ++ fs)%list by now rewrite <- !app_assoc.
    f_equal.
    + apply (hms_iff ((h * 60 + m) * 60 + s)); [lia|]. exists h, m, s, hs, ms, ss. auto 10.
    + unfold frac_text. destruct K4 as [[-> ->]|(x & Hp' & Hx & ->)]; [reflexivity|]. destruct (Z.eqb_spec p 0); [contradiction|].
      apply padded_iff in Hx as [_ ->]; [reflexivity|lia].
  - intros [B ->]. assert (Bc : 0 <= v / u < 86400) by (split; [apply Z.div_pos; lia|apply Z.div_lt_upper_bound; lia]).
    destruct (proj2 (hms_iff (v / u) _ Bc) eq_refl) as (h & m & s & hs & ms & ss & Ec & (Hh & Hm & Hs) & K1 & K2 & K3 & K4).
    pose proof (Z.div_mod v u ltac:(lia)) as D. pose proof (Z.mod_pos_bound v u P) as Bf.
    exists h, m, s, (v mod u), hs, ms, ss, (frac_text p (v mod u)). split; [rewrite <- Ec; lia|]. split; [lia|].
    split; [auto|]. split; [auto|]. split; [auto|]. split.
    + unfold frac_text. destruct (Z.eqb_spec p 0); [left; auto|]. right. eexists. split; [auto|]. split; [|reflexivity].
      apply padded_iff; [lia|]. split; [lia|reflexivity].
    + rewrite K4. now rewrite <- !app_assoc.
Qed.

Lemma frac_iff p k f : In p [0; 3; 6; 9] -> k = 10 ^ (9 - p) -> show_frac (fractional_digits p) (f * k) = frac_text p f.
Proof.
  intros H ->. unfold frac_text. repeat destruct H as [<-|H]; try contradiction; cbn [Z.eqb fractional_digits show_frac orb].
  - reflexivity.
  - change (10 ^ (9 - 3)) with 1000000. change (fractional_digits 3) with 3%nat. unfold show_frac. rewrite Z.div_mul by lia. reflexivity.
  - change (10 ^ (9 - 6)) with 1000. change (fractional_digits 6) with 6%nat. unfold show_frac. rewrite Z.div_mul by lia. reflexivity.
  - change (10 ^ (9 - 9)) with 1. change (fractional_digits 9) with 9%nat. unfold show_frac. rewrite Z.div_mul by lia. reflexivity.
Qed.
Lemma units_prod p : In p [0; 3; 6; 9] -> 10 ^ p * 10 ^ (9 - p) = nano_per_sec /\ 0 < 10 ^ p /\ 0 < 10 ^ (9 - p).
Proof. intros H. repeat destruct H as [<-|H]; try contradiction; vm_compute; auto. Qed.
Lemma from_units p v : In p [0; 3; 6; 9] -> Z.abs v < 9000000000000 * 10 ^ p -> duration_from_units v p = Ok (v * 10 ^ (9 - p)).
Proof.
  intros H B. unfold duration_from_units. repeat destruct H as [<-|H]; try contradiction; cbn [Z.eqb Pos.eqb].
  - rewrite (proj2 (range_iff _ _ _)); [reflexivity|]. change (i64_max / 1000) with 9223372036854775. change (10 ^ 0) with 1 in B. lia.
  - change i64_min with (-9223372036854775808). change (10 ^ 3) with 1000 in B. rewrite (proj2 (Z.ltb_lt _ _)) by lia. reflexivity.
  - reflexivity.
  - f_equal. change (10 ^ (9 - 9)) with 1. lia.
Qed.
Lemma Ok_inj {E A} (a b : A) : @Ok E A a = Ok b -> a = b.
Proof. congruence. Qed.
Lemma from_units_only p v d : In p [0; 3; 6; 9] -> duration_from_units v p = Ok d -> d = v * 10 ^ (9 - p).
Proof.
  intros H. unfold duration_from_units. repeat destruct H as [<-|H]; try contradiction; cbn [Z.eqb Pos.eqb].
  - destruct (in_range _ _ v); [|discriminate]. intros K. apply Ok_inj in K. now subst d.
  - destruct (_ <? v); [|discriminate]. intros K. apply Ok_inj in K. now subst d.
  - intros K. apply Ok_inj in K. now subst d.
  - intros K. apply Ok_inj in K. subst d. change (10 ^ (9 - 9)) with 1. lia.
Qed.
Lemma unsupported p v d : ~ In p [0; 3; 6; 9; 12] -> duration_from_units v p <> Ok d.
Proof.
  intros H. unfold duration_from_units. repeat match goal with |- context [p =? ?k] => destruct (Z.eqb_spec p k); [exfalso; apply H; cbn; lia|] end. discriminate.
Qed.
Lemma time_iff p v t : In p [0; 3; 6; 9] -> time_to_string v p = Ok t <-> time_written p v t.
Proof.
  intros H. destruct (units_prod p H) as (E & Hu & Hk). rewrite time_written_iff by (repeat destruct H as [<-|H]; try contradiction; lia).
  unfold time_to_string. set (u := 10 ^ p) in *. set (k := 10 ^ (9 - p)) in *.
  assert (S : forall d, d = v * k -> show_hms (d / nano_per_sec) ++ show_frac (fractional_digits p) (d mod nano_per_sec) = show_hms (v / u) ++ frac_text p (v mod u)).
  { intros d ->. rewrite <- E, Z.div_mul_cancel_r, Z.mul_mod_distr_r by lia. now rewrite (frac_iff p k) by auto. }
  destruct (Z.ltb_spec v 0); [split; [discriminate|lia]|]. split.
  - intros K. apply rbind_ok in K as (d & Hd & K). apply from_units_only in Hd; auto. fold k in Hd. destruct (Z.leb_spec nanos_per_day d) as [Y|Y]; [discriminate|].
    injection K as <-. rewrite (S d Hd). split; auto. split; [lia|]. unfold nanos_per_day in Y. rewrite <- E in Y. subst d. nia.
  - intros [B ->]. rewrite from_units by (auto; fold u; nia). fold k. cbn [rbind]. destruct (Z.leb_spec nanos_per_day (v * k)) as [Y|Y].
    + exfalso. unfold nanos_per_day in Y. rewrite <- E in Y. nia.
    + f_equal. now apply S.
Qed.
Lemma moment_iff p v t : In p [0; 3; 6; 9] -> timestamp_to_string v p = Ok t <-> moment_written p v t.
Proof.
  intros H. destruct (units_prod p H) as (E & Hu & Hk). assert (Hp : 0 <= p) by (repeat destruct H as [<-|H]; try contradiction; lia).
  unfold moment_written, timestamp_to_string. set (u := 10 ^ p) in *. set (k := 10 ^ (9 - p)) in *.
  assert (S : forall d, d = v * k -> d / nanos_per_day = v / (86400 * u)
    /\ show_hms (d mod nanos_per_day / nano_per_sec) ++ show_frac (fractional_digits p) (d mod nano_per_sec)
       = show_hms (v mod (86400 * u) / u) ++ frac_text p (v mod (86400 * u) mod u)).
  { intros d ->. unfold nanos_per_day. rewrite <- E. replace (86400 * (u * k)) with ((86400 * u) * k) by lia.
    rewrite Z.div_mul_cancel_r, !Z.mul_mod_distr_r by lia. split; auto. rewrite Z.div_mul_cancel_r by lia. rewrite (frac_iff p k) by auto.
    assert (M : v mod (86400 * u) mod u = v mod u).
    { symmetry; apply (Z.mod_unique _ _ (v / u - 86400 * (v / (86400 * u)))); [left; apply Z.mod_pos_bound; lia|].
      pose proof (Z.div_mod v u ltac:(lia)). pose proof (Z.div_mod v (86400 * u) ltac:(lia)). lia. }
    now rewrite M. }
  split.
  - intros K. apply rbind_ok in K as (d & Hd & K). apply from_units_only in Hd; auto. destruct (S d Hd) as [S1 S2]. rewrite S1 in K.
    destruct (date_of_days_opt (v / (86400 * u))) as [dt|] eqn:D; [|discriminate]. injection K as <-. rewrite S2.
    destruct (proj2 (day_written (v / (86400 * u)) (show_date dt))) as (dd & K1 & K2); [unfold days_to_date_string; now rewrite D|].
    exists dd, (v / (86400 * u)), (v mod (86400 * u)), (show_date dt). eexists. split; [auto|]. split; [rewrite Z.mul_comm; apply Z.div_mod; clear -Hu; lia|].
    split; [auto|]. split; [|reflexivity]. apply time_written_iff; auto. split; [|reflexivity]. fold u. apply Z.mod_pos_bound. clear -Hu. lia.
  - intros (d & n & w & a & b & H1 & Ev & H2 & H3 & ->). apply time_written_iff in H3 as [B ->]; auto. fold u in B, Ev |- *.
    assert (En : v / (86400 * u) = n) by (clear -B Ev; symmetry; apply (Z.div_unique _ _ _ w); lia).
    assert (Ew : v mod (86400 * u) = w) by (clear -B Ev; symmetry; apply (Z.mod_unique _ _ n); lia).
    assert (D : days_to_date_string n = Some a) by (apply day_written; eauto). unfold days_to_date_string in D.
    destruct (date_of_days_opt n) as [dt|] eqn:O; [|discriminate]. cbn [option_map] in D. injection D as D.
    assert (R : min_days <= n <= max_days). { unfold date_of_days_opt in O. destruct (in_range min_days max_days n) eqn:R; [|discriminate]. now apply range_iff. }
    assert (R' : -96500000 <= n <= 96500000). { revert R. clear. set (a := min_days). set (b := max_days). vm_compute in a, b. subst a b. lia. }
    rewrite from_units by (auto; fold u; clear -R' Ev B Hu; nia). cbn [rbind]. fold k. destruct (S (v * k) eq_refl) as [S1 S2]. rewrite S1, S2, En, Ew, O, D.
    reflexivity.
Qed.

Section Lits.
  Context `{U : Unicode} `{F : Floats}.

  Lemma prec_iff p r s : clean (prec_literal_out p r) s <-> p <> 12 /\ exists x, r = Ok x /\ quoted 39 x s.
  Proof.
    unfold prec_literal_out. setoid_rewrite string_text_iff. destruct r as [x|e|]; [|split; [intros H; now apply clean_fail in H|intros (_ & x & H & _); discriminate]..].
    destruct (Z.eqb_spec p 12).
    - rewrite clean_after. split; [intros (y & H & _); now apply clean_push in H|]. intros [H _]. contradiction.
    - rewrite clean_app. setoid_rewrite clean_nil. setoid_rewrite clean_txt. split.
      + intros (a & b & -> & -> & ->). split; eauto.
      + intros (_ & x' & [= <-] & ->). exists [], (show_string x). auto.
  Qed.
  Lemma time_out_iff p v s : clean (prec_literal_out p (time_to_string v p)) s <->
    exists x, In p [0; 3; 6; 9] /\ time_written p v x /\ quoted 39 x s.
  Proof.
    rewrite prec_iff. split.
    - intros (N & x & K & Q). exists x. assert (I : In p [0; 3; 6; 9]).
      { destruct (in_dec Z.eq_dec p [0; 3; 6; 9; 12]) as [I|I]; [cbn in *; intuition congruence|]. exfalso. unfold time_to_string in K.
        destruct (v <? 0); [discriminate|]. apply rbind_ok in K as (d & Hd & _). now apply unsupported in Hd. }
      split; auto. split; auto. now apply time_iff.
    - intros (x & I & T & Q). split; [cbn in I; intros ->; intuition discriminate|]. exists x. split; auto. now apply time_iff.
  Qed.
  Lemma moment_out_iff p v s : clean (prec_literal_out p (timestamp_to_string v p)) s <->
    exists x, In p [0; 3; 6; 9] /\ moment_written p v x /\ quoted 39 x s.
  Proof.
    rewrite prec_iff. split.
    - intros (N & x & K & Q). exists x. assert (I : In p [0; 3; 6; 9]).
      { destruct (in_dec Z.eq_dec p [0; 3; 6; 9; 12]) as [I|I]; [cbn in *; intuition congruence|]. exfalso. unfold timestamp_to_string in K.
        apply rbind_ok in K as (d & Hd & _). now apply unsupported in Hd. }
      split; auto. split; auto. now apply moment_iff.
    - intros (x & I & T & Q). split; [cbn in I; intros ->; intuition discriminate|]. exists x. split; auto. now apply moment_iff.
  Qed.

  (** ** Durations *)

  Lemma part_iff u z l : part u z l <-> l = if z =? 0 then [] else [show_Z z ++ L u].
  Proof.
    split.
    - intros [|z' x H K]; [reflexivity|]. apply numeral_iff in K as ->. destruct (Z.eqb_spec z' 0); [contradiction|reflexivity].
    - intros ->. destruct (Z.eqb_spec z 0) as [->|N]; constructor; auto. now apply numeral_iff.
  Qed.
  Lemma prec_of_units_iff z p : prec_of_units z = Some p <-> z = prec_units p.
  Proof.
    unfold prec_of_units. split.
    - repeat match goal with |- context [z =? ?k] => destruct (Z.eqb_spec z k); [intros [= <-]; auto|] end. discriminate.
    - intros ->. destruct p; reflexivity.
  Qed.
  Lemma unit_iff p l : (exists u, In (prec_units p, u) unit_text /\ l = L u) <-> prec_unit p = Some l.
  Proof.
    unfold unit_text. split.
    - intros (u & H & ->). destruct p; cbn [prec_units In] in H; repeat destruct H as [[= <-]|H]; try contradiction; reflexivity.
    - intros H. assert (K : exists u, prec_unit p = Some (L u) /\ In (prec_units p, u) unit_text).
      { destruct p; [discriminate|exists "ms"|exists "us"|exists "ns"|exists "ps"]; cbn; tauto. }
      destruct K as (u & K & K'). exists u. split; auto. congruence.
  Qed.
  Lemma parts_text_iff i p z t : 
    (exists u a b c, (z = 0 \/ In (prec_units p, u) unit_text) /\ part "d" (iv_days i) a /\ part "s" (iv_secs i) b /\ part u z c
       /\ t = (if a ++ b ++ c then L "0s" else join (L " ") (a ++ b ++ c))) <->
    exists l, interval_parts i p z = Some l /\ t = interval_text l.
  Proof.
    unfold interval_parts. setoid_rewrite part_iff. split.
    - intros (u & a & b & c & H & -> & -> & -> & ->). destruct (Z.eqb_spec z 0) as [->|N].
      + eexists. split; [reflexivity|]. rewrite app_nil_r. reflexivity.
      + destruct H as [H|H]; [contradiction|]. rewrite (proj1 (unit_iff p (L u))) by eauto. eexists. split; [reflexivity|]. now rewrite <- app_assoc.
    - intros (l & H & ->). destruct (Z.eqb_spec z 0) as [->|N].
      + injection H as <-. exists "", (if iv_days i =? 0 then [] else [show_Z (iv_days i) ++ L "d"]), (if iv_secs i =? 0 then [] else [show_Z (iv_secs i) ++ L "s"]), [].
        split; [auto|]. split; [auto|]. split; [auto|]. split; [reflexivity|]. rewrite app_nil_r. reflexivity.
      + destruct (prec_unit p) as [w|] eqn:W; [|discriminate]. injection H as <-. apply unit_iff in W as (u & W & ->).
        exists u, (if iv_days i =? 0 then [] else [show_Z (iv_days i) ++ L "d"]), (if iv_secs i =? 0 then [] else [show_Z (iv_secs i) ++ L "s"]), [show_Z z ++ L u].
        split; [auto|]. split; [auto|]. split; [auto|]. split; [reflexivity|]. rewrite <- app_assoc. reflexivity.
  Qed.
  Lemma units_list z : In z [0; 3; 6; 9; 12] <-> exists p, z = prec_units p.
  Proof.
    split.
    - intros H. repeat destruct H as [<-|H]; [exists PSec|exists PMilli|exists PMicro|exists PNano|exists PPico|contradiction]; reflexivity.
    - intros (p & ->). destruct p; cbn; tauto.
  Qed.
  Lemma prec_units_inj p q : prec_units p = prec_units q -> p = q.
  Proof. destruct p, q; auto; discriminate. Qed.
  Lemma push_if (b : bool) (o : out) s : clean ((if b then onil else opush bad_literal) +++ o) s <-> b = true /\ clean o s.
  Proof.
    rewrite clean_app. destruct b.
    - setoid_rewrite clean_nil. split; [intros (x & y & -> & H & ->); auto|]. intros [_ H]. exists [], s. auto.
    - setoid_rewrite clean_push. split; [intros (x & y & [] & _)|intros [H _]; discriminate].
  Qed.
  Lemma interval_iff i s : clean (interval_out i) s <-> exists x, duration_written i x /\ quoted 39 x s.
  Proof.
    unfold interval_out, duration_written. change (units_of i) with (interval_units i). setoid_rewrite string_text_iff.
    destruct (interval_units i) as [z sub]. split.
    - destruct (prec_of_units z) as [p|] eqn:P; [|intros H; now apply clean_fail in H]. apply prec_of_units_iff in P as ->.
      intros H. apply push_if in H as [R H]. apply andb_true_iff in R as [R1 R2]. apply range_iff in R1, R2. unfold max_interval_days in R1, R2.
      destruct (interval_parts i p sub) as [l|] eqn:I; [|now apply clean_fail in H].
      assert (Q : Z.abs sub < 10 ^ prec_units p /\ s = show_string (interval_text l)).
      { destruct (negb (sub =? 0) && (10 ^ prec_units p <=? Z.abs sub)) eqn:T; apply clean_app in H as (a & b & Ha & Hb & ->); [now apply clean_push in Ha|].
        apply clean_nil in Ha as ->. apply clean_txt in Hb as ->. split; auto. apply andb_false_iff in T as [T|T].
        - apply negb_false_iff, Z.eqb_eq in T as ->. destruct p; reflexivity.
        - now apply Z.leb_gt in T. }
      destruct Q as [Q ->]. destruct (proj2 (parts_text_iff i p sub (interval_text l))) as (u & a & b & c & K1 & K2 & K3 & K4 & K5); [eauto|].
      exists (interval_text l). split; [|reflexivity]. exists (prec_units p), sub, u, a, b, c. split; [reflexivity|]. split; [apply units_list; eauto|].
      split; [auto|]. split; [lia|]. split; [lia|]. auto.
    - intros (x & (p' & z' & u & a & b & c & [= <- <-] & H1 & H2 & H3 & H4 & H5 & H6 & H7 & H8 & ->) & ->). apply units_list in H1 as (p & ->).
      rewrite (proj2 (prec_of_units_iff _ p) eq_refl). destruct (proj1 (parts_text_iff i p sub (if a ++ b ++ c then L "0s" else join (L " ") (a ++ b ++ c)))) as (l & -> & ->); [exists u, a, b, c; auto|].
      apply push_if. split; [apply andb_true_iff; split; apply range_iff; unfold max_interval_days; lia|].
      replace (negb (sub =? 0) && (10 ^ prec_units p <=? Z.abs sub)) with false by (symmetry; apply andb_false_iff; right; apply Z.leb_gt; lia).
      rewrite clean_app. setoid_rewrite clean_nil. setoid_rewrite clean_txt. eexists [], _. auto.
  Qed.

  (** ** Literals *)

  Lemma byte_iff n s : byte_text n s <-> s = hex2 n.
  Proof.
    unfold byte_text, hex2. setoid_rewrite hex_iff. split.
    - intros (x & y & c & d & [Hx ->] & [Hy ->] & E & ->). f_equal; [|f_equal]; f_equal.
      + apply (N.mod_unique _ _ (n / 256)); [auto|]. symmetry. apply (N.div_unique _ _ _ y); [auto|].
        pose proof (N.div_mod n 256 ltac:(discriminate)). lia.
      + apply (N.mod_unique _ _ (n / 256 * 16 + x)); [auto|]. pose proof (N.div_mod n 256 ltac:(discriminate)). lia.
    - intros ->. eexists _, _, _, _. split; [split; [|reflexivity]; apply N.mod_lt; discriminate|]. split; [split; [|reflexivity]; apply N.mod_lt; discriminate|].
      split; [|reflexivity]. pose proof (N.div_mod n 16 ltac:(discriminate)) as D1. pose proof (N.div_mod (n / 16) 16 ltac:(discriminate)) as D2.
      pose proof (N.mod_lt n 16 ltac:(discriminate)). pose proof (N.mod_lt (n / 16) 16 ltac:(discriminate)).
      symmetry. apply (N.mod_unique _ _ (n / 16 / 16)); lia.
  Qed.
  Lemma bytes_iff b ss : Forall2 byte_text b ss <-> ss = map hex2 b.
  Proof.
    revert ss. induction b as [|n b IH]; intros ss; cbn [map].
    - split; [intros H; now inversion H|intros ->; constructor].
    - split.
      + intros H. inversion H as [|? x ? l K1 K2]; subst. apply byte_iff in K1 as ->. apply IH in K2 as ->. reflexivity.
      + intros ->. constructor; [now apply byte_iff|now apply IH].
  Qed.
  Lemma num_text op z s v : (forall s, value_text op v s <-> numeral z s) -> clean (txt (show_Z z)) s <-> value_text op v s.
  Proof. intros H. now rewrite H, num_iff. Qed.
  Lemma value_iff op v s : (forall t, v <> LNull t) -> clean (litval_out op v) s <-> value_text op v s.
  Proof.
    intros NN. destruct v; cbn [litval_out].
    1: { rewrite clean_txt. split; [intros ->; destruct b; constructor|]. intros H. now inversion H. }
    1-4: rewrite num_iff; split; [now constructor|]; intros H; now inversion H.
    1-2: rewrite clean_txt; split; [intros ->; constructor|]; intros H; now inversion H.
    1: { rewrite clean_txt, <- string_text_iff. split; [now constructor|]. intros H. now inversion H. }
    1: { rewrite clean_txt. unfold binary_text. split.
      - intros ->. destruct (op_binaries op) eqn:B; [|now constructor]. constructor; auto. now apply bytes_iff.
      - intros H. inversion H as [| | | | | | | | |? ss B K|? B| | | | | | |]; subst; rewrite B; [|reflexivity]. apply bytes_iff in K as ->. reflexivity. }
    1: { destruct (days_to_date_string days) as [x|] eqn:D.
      - rewrite clean_txt, <- string_text_iff. split.
        + intros H. apply day_written in D as (d & D1 & D2). econstructor; eauto.
        + intros H. inversion H as [| | | | | | | | | | |? d y ? D1 D2 K| | | | | |]; subst.
          assert (D' : days_to_date_string days = Some y) by (apply day_written; eauto). congruence.
      - rewrite clean_panic. split; [tauto|]. intros H. inversion H as [| | | | | | | | | | |? d y ? D1 D2 K| | | | | |]; subst.
        assert (D' : days_to_date_string days = Some y) by (apply day_written; eauto). congruence. }
    1: { rewrite time_out_iff. split; [intros (x & H1 & H2 & H3); econstructor; eauto|]. intros H. inversion H; subst. eexists. split; [cbn; tauto|eauto]. }
    1: { rewrite moment_out_iff. split; [intros (x & H1 & H2 & H3); econstructor; eauto|]. intros H. inversion H; subst. eexists. split; [cbn; tauto|eauto]. }
    1: { rewrite interval_iff. split; [intros (x & H1 & H2); econstructor; eauto|]. intros H. inversion H; subst. eauto. }
    1: { rewrite time_out_iff. split; [intros (x & H1 & H2 & H3); econstructor; eauto|]. intros H. inversion H; subst. eauto. }
    1-2: rewrite moment_out_iff; split; [intros (x & H1 & H2 & H3); econstructor; eauto|]; intros H; inversion H; subst; eauto.
    1: now destruct (NN t).
    rewrite clean_fail. split; [tauto|]. intros H. inversion H.
  Qed.
  Lemma suffix_iff op e v n w t : literal_type (mk_lit (Some v) n w) = Some t ->
    suffix_text v n = L ":" ++ o_text (type_out op e t) /\ clean (type_out op e t) (o_text (type_out op e t)).
  Proof.
    unfold literal_type, clean. cbn [l_type l_nullable]. destruct v; cbn [value_type]; intros H; try discriminate;
      assert (E : forall a b : ptype, Some a = Some b -> a = b) by congruence; apply E in H; subst t; destruct n;
      (split; [|split; [reflexivity|split; reflexivity]]); try reflexivity.
    all: unfold suffix_text, suffix_parts, interval_units; destruct i as [d sc su [[p|us]|]]; reflexivity.
  Qed.
  Lemma literal_iff op e l s : wf_exts e -> clean (literal_out op e l) s <-> literal_text op e l s.
  Proof.
    intros W. destruct l as [[v|] n w]; unfold literal_out; cbn [l_type l_nullable];
      [|rewrite clean_fail; split; [tauto|]; intros H; inversion H].
    assert (D : (exists t, v = LNull t) \/ forall t, v <> LNull t) by (destruct v; eauto; right; discriminate).
    destruct D as [(t & ->)|D].
    { cbn [litval_out]. rewrite clean_before. setoid_rewrite clean_before. setoid_rewrite (type_text_iff op e W). split.
      - intros (y & (z & H & ->) & ->). now constructor.
      - intros H. inversion H as [? ? ? s' K|? ? ? ? ? ? S V T|? ? ? ? S V]; subst; [|discriminate|inversion V]. eexists. split; [|reflexivity]. eauto. }
    assert (S : (match op_literal_types op with VNever => false | VAlways => true | VRequired => n || negb (is_default_for_syntax v) end) = true
                <-> type_shown op (mk_lit (Some v) n w)).
    { unfold type_shown, untyped. cbn [l_type l_nullable]. destruct (op_literal_types op); try tauto; try (split; [discriminate|tauto]).
      rewrite andb_false_iff, negb_false_iff, orb_true_iff, negb_true_iff. destruct v; cbn [is_default_for_syntax]; try reflexivity. }
    set (b := match op_literal_types op with VNever => false | VAlways => true | VRequired => n || negb (is_default_for_syntax v) end) in *.
    match goal with |- clean (_ +++ ?o) s <-> _ => assert (E : o = if b then txt (suffix_text v n) else onil) by (unfold b; destruct v; try reflexivity; now destruct (D t)); rewrite E; clear E end.
    rewrite clean_app. setoid_rewrite (value_iff op v _ D). clearbody b.
    destruct b.
    - setoid_rewrite clean_txt. destruct S as [S _]. specialize (S eq_refl). split.
      + intros (x & y & V & -> & ->). destruct (literal_type (mk_lit (Some v) n w)) as [t|] eqn:T.
        * destruct (suffix_iff op e v n w t T) as [-> C]. apply (type_text_iff op e W) in C. now apply (lt_typed _ _ _ _ _ _ t).
        * exfalso. unfold literal_type in T. cbn [l_type] in T. destruct v; try discriminate; [now destruct (D t)|inversion V].
      + intros H. inversion H as [? ? ? s' K|? ? ? x t y S' V T K|? ? ? ? S' V]; subst; [now destruct (D t)| |contradiction].
        destruct (suffix_iff op e v n w t T) as [-> C]. apply (type_text_iff op e W) in K. eexists x, _. split; [auto|]. split; [reflexivity|].
        destruct K as (_ & _ & <-). reflexivity.
    - setoid_rewrite clean_nil. assert (S' : ~ type_shown op (mk_lit (Some v) n w)) by (intros K; apply S in K; discriminate). split.
      + intros (x & y & V & -> & ->). rewrite app_nil_r. now constructor.
      + intros H. inversion H as [? ? ? s' K|? ? ? x t y S'' V T K|? ? ? ? S'' V]; subst; [now destruct (D t)|contradiction|].
        exists s, []. rewrite app_nil_r. auto.
  Qed.
End Lits.
